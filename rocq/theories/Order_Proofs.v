(** Expansions of functions of the step. *)
From Coq Require Import Reals List Arith Lra Lia.
From Verif Require Import Multistep_Proofs Multistep_Proofs2.
Import ListNotations.
Open Scope R_scope.

(** [g h] is the polynomial with coefficients [s] up to [h ^ n], excluded, plus a term bounded by [h ^ n]. *)
Definition agree (n : nat) (g : R -> R) (s : nat -> R) : Prop :=
  exists C H, 0 < H /\ forall h, 0 < Rabs h <= H -> Rabs (g h - sum_to n (fun j => s j * h ^ j)) <= C * Rabs h ^ n.
Definition eventually (P : R -> Prop) : Prop := exists H, 0 < H /\ forall h, 0 < Rabs h <= H -> P h.
Lemma eventually_and : forall P Q, eventually P -> eventually Q -> eventually (fun h => P h /\ Q h).
Proof.
  intros P Q (H & HH & A) (K & HK & B). exists (Rmin H K). split; [apply Rmin_glb_lt; assumption|]. intros h [h0 h1].
  pose proof (Rmin_l H K). pose proof (Rmin_r H K). split; [apply A|apply B]; lra.
Qed.
Lemma eventually_imp : forall P Q : R -> Prop, (forall h, h <> 0 -> P h -> Q h) -> eventually P -> eventually Q.
Proof. intros P Q I (H & HH & A). exists H. split; [exact HH|]. intros h Hh. apply I; [intros ->; rewrite Rabs_R0 in Hh; lra|apply A, Hh]. Qed.
Lemma eventually_all : forall P : R -> Prop, (forall h, h <> 0 -> P h) -> eventually P.
Proof. intros P A. exists 1. split; [lra|]. intros h Hh. apply A. intros ->. rewrite Rabs_R0 in Hh. lra. Qed.
Lemma agree_eventually : forall n g s, agree n g s <-> exists C, eventually (fun h => Rabs (g h - sum_to n (fun j => s j * h ^ j)) <= C * Rabs h ^ n).
Proof. intros n g s. split; [intros (C & H & HH & A); exists C, H; tauto|intros (C & H & HH & A); exists C, H; tauto]. Qed.
Lemma agree_same : forall n g g' s, eventually (fun h => g h = g' h) -> agree n g s -> agree n g' s.
Proof.
  intros n g g' s E A. apply agree_eventually in A. destruct A as (C & A). apply agree_eventually. exists C.
  eapply eventually_imp; [|apply (eventually_and _ _ E A)]. intros h _ [-> X]. exact X.
Qed.
Lemma agree_coef : forall n g s s', (forall j, (j < n)%nat -> s j = s' j) -> agree n g s -> agree n g s'.
Proof.
  intros n g s s' E (C & H & HH & A). exists C, H. split; [exact HH|]. intros h Hh.
  rewrite (sum_to_ext n (fun j => s' j * h ^ j) (fun j => s j * h ^ j)); [apply A, Hh|]. intros j Hj. rewrite E by exact Hj. reflexivity.
Qed.
(** [agree 0] means bounded. *)
Lemma agree_0 : forall g s, agree 0 g s <-> exists C, eventually (fun h => Rabs (g h) <= C).
Proof.
  intros g s. rewrite agree_eventually. split; intros (C & A); exists C; (eapply eventually_imp; [|exact A]); intros h _; unfold sum_to; cbn; rewrite Rminus_0_r, Rmult_1_r; tauto.
Qed.
Lemma agree_S : forall n g s, agree (S n) g s <-> agree n (fun h => (g h - s 0%nat) / h) (fun j => s (S j)).
Proof.
  assert (E : forall n g s h, h <> 0 -> g h - sum_to (S n) (fun j => s j * h ^ j) = h * ((g h - s 0%nat) / h - sum_to n (fun j => s (S j) * h ^ j))).
  { intros n g s h Hh. rewrite sum_to_S. rewrite (sum_to_ext n (fun i => s (S i) * h ^ S i) (fun i => h * (s (S i) * h ^ i))) by (intros; cbn; ring).
    rewrite sum_to_scal. cbn [pow]. field. exact Hh. }
  intros n g s. rewrite !agree_eventually. split; intros (C & A); exists C; (eapply eventually_imp; [|exact A]); intros h Hh X; cbn beta in *.
  - rewrite E in X by exact Hh. rewrite Rabs_mult in X. cbn [pow] in X. assert (0 < Rabs h) by (apply Rabs_pos_lt; exact Hh).
    apply (Rmult_le_reg_l (Rabs h)); [assumption|]. lra.
  - rewrite E by exact Hh. rewrite Rabs_mult. cbn [pow]. assert (0 < Rabs h) by (apply Rabs_pos_lt; exact Hh).
    replace (C * (Rabs h * Rabs h ^ n)) with (Rabs h * (C * Rabs h ^ n)) by ring. apply Rmult_le_compat_l; [lra|exact X].
Qed.
Lemma small : forall H, 0 < H -> eventually (fun h => Rabs h <= H).
Proof. intros H HH. exists H. split; [exact HH|]. tauto. Qed.
Lemma agree_1_bounded : forall g s, agree 1 g s -> forall s', agree 0 g s'.
Proof.
  intros g s A s'. apply agree_S in A. apply (agree_0 _ (fun _ => 0)) in A. destruct A as (C & A). apply agree_0.
  exists (Rabs (s 0%nat) + Rabs C). eapply eventually_imp; [|apply (eventually_and _ _ A (small 1 Rlt_0_1))]. intros h Hh [X Y]. cbn beta in *.
  replace (g h) with (s 0%nat + h * ((g h - s 0%nat) / h)) by (field; exact Hh).
  eapply Rle_trans; [apply Rabs_triang|]. rewrite Rabs_mult. pose proof (Rabs_pos h). pose proof (Rle_abs C). pose proof (Rabs_pos ((g h - s 0%nat) / h)).
  assert (Rabs h * Rabs ((g h - s 0%nat) / h) <= 1 * Rabs C) by (apply Rmult_le_compat; lra). lra.
Qed.
Lemma agree_pred : forall n g s, agree (S n) g s -> agree n g s.
Proof.
  induction n as [|n IH]; intros g s A; [apply (agree_1_bounded g s A)|]. apply agree_S. apply IH. apply agree_S in A. exact A.
Qed.
Lemma agree_le : forall m n g s, (m <= n)%nat -> agree n g s -> agree m g s.
Proof. intros m n g s L. induction L; intros A; [exact A|]. apply IHL, agree_pred, A. Qed.
Lemma agree_up : forall n g s c, agree n g s -> agree (S n) (fun h => c + h * g h) (fun j => match j with O => c | S j => s j end).
Proof.
  intros n g s c A. apply agree_S. eapply agree_same; [|exact A]. apply eventually_all. intros h Hh. field. exact Hh.
Qed.
Lemma agree_add : forall n g g' s s', agree n g s -> agree n g' s' -> agree n (fun h => g h + g' h) (fun j => s j + s' j).
Proof.
  intros n g g' s s' A B. rewrite agree_eventually in *. destruct A as (C & A), B as (D & B). exists (C + D).
  eapply eventually_imp; [|apply (eventually_and _ _ A B)]. intros h _ [X Y]. cbn beta in *.
  rewrite (sum_to_ext n (fun j => (s j + s' j) * h ^ j) (fun j => s j * h ^ j + s' j * h ^ j)) by (intros; ring). rewrite sum_to_add.
  replace (_ - _) with ((g h - sum_to n (fun j => s j * h ^ j)) + (g' h - sum_to n (fun j => s' j * h ^ j))) by ring.
  eapply Rle_trans; [apply Rabs_triang|]. lra.
Qed.
Lemma agree_scal : forall n g s k, agree n g s -> agree n (fun h => k * g h) (fun j => k * s j).
Proof.
  intros n g s k A. rewrite agree_eventually in *. destruct A as (C & A). exists (Rabs k * C).
  eapply eventually_imp; [|exact A]. intros h _ X. cbn beta in *.
  rewrite (sum_to_ext n (fun j => (k * s j) * h ^ j) (fun j => k * (s j * h ^ j))) by (intros; ring). rewrite sum_to_scal, <- Rmult_minus_distr_l, Rabs_mult, Rmult_assoc.
  apply Rmult_le_compat_l; [apply Rabs_pos|exact X].
Qed.
Definition unit_coef (c : R) (j : nat) : R := match j with O => c | S _ => 0 end.
Lemma agree_const : forall n c, agree n (fun _ => c) (unit_coef c).
Proof.
  induction n as [|n IH]; intros c.
  - apply agree_0. exists (Rabs c). apply eventually_all. intros. lra.
  - apply agree_S. apply (agree_same n (fun _ => 0)); [apply eventually_all; intros h Hh; cbn; field; exact Hh|].
    eapply agree_coef; [|apply IH]. intros [|j] _; reflexivity.
Qed.
Lemma agree_sum : forall n m (g : nat -> R -> R) (s : nat -> nat -> R), (forall i, (i < m)%nat -> agree n (g i) (s i)) ->
  agree n (fun h => sum_to m (fun i => g i h)) (fun j => sum_to m (fun i => s i j)).
Proof.
  intros n m. induction m as [|m IH]; intros g s A.
  - apply (agree_same n (fun _ => 0)); [apply eventually_all; intros; unfold sum_to; reflexivity|].
    eapply agree_coef; [|apply agree_const]. intros [|j] _; reflexivity.
  - apply (agree_same n (fun h => sum_to m (fun i => g i h) + g m h)); [apply eventually_all; intros; rewrite sum_to_last; reflexivity|].
    eapply agree_coef; [|apply agree_add; [apply IH; intros; apply A; lia|apply (A m); lia]]. intros j _. cbn beta. rewrite sum_to_last. reflexivity.
Qed.
Definition cauchy (s t : nat -> R) (k : nat) : R := sum_to (S k) (fun i => s i * t (k - i)%nat).
Lemma agree_mul : forall n g g' s t, agree n g s -> agree n g' t -> agree n (fun h => g h * g' h) (cauchy s t).
Proof.
  induction n as [|n IH]; intros g g' s t A B.
  - apply agree_0 in A, B. destruct A as (C & A), B as (D & B). apply agree_0. exists (C * D).
    eapply eventually_imp; [|apply (eventually_and _ _ A B)]. intros h _ [X Y]. rewrite Rabs_mult. apply Rmult_le_compat; auto using Rabs_pos.
  - pose proof (agree_pred _ _ _ B) as B0. apply agree_S in A, B. apply agree_S.
    pose proof (agree_add n _ _ _ _ (agree_scal n _ _ (s 0%nat) B) (IH _ _ _ _ A B0)) as X.
    eapply agree_same; [|eapply agree_coef; [|exact X]].
    + apply eventually_all. intros h Hh. unfold cauchy, sum_to. cbn. field. exact Hh.
    + intros j _. cbn beta. unfold cauchy at 2. rewrite (sum_to_S (S j)). rewrite Nat.sub_0_r. reflexivity.
Qed.
Lemma agree_continuous : forall g s eps, agree 1 g s -> 0 < eps -> eventually (fun h => Rabs (g h - s 0%nat) <= eps).
Proof.
  intros g s eps A E. apply agree_eventually in A. destruct A as (C & A).
  assert (P : 0 < eps / (Rabs C + 1)) by (apply Rdiv_lt_0_compat; pose proof (Rabs_pos C); lra).
  eapply eventually_imp; [|apply (eventually_and _ _ A (small _ P))]. intros h Hh [X Y]. cbn beta in *.
  unfold sum_to in X. cbn in X. rewrite Rmult_1_r, Rplus_0_r in X. rewrite Rmult_1_r in X. eapply Rle_trans; [exact X|].
  pose proof (Rabs_pos C). pose proof (Rle_abs C). pose proof (Rabs_pos h).
  assert (Rabs h * (Rabs C + 1) <= eps).
  { apply (Rmult_le_compat_r (Rabs C + 1)) in Y; [|lra]. replace (eps / (Rabs C + 1) * (Rabs C + 1)) with eps in Y by (field; lra). exact Y. }
  nra.
Qed.
Lemma agree_unique : forall n g s s', agree n g s -> agree n g s' -> forall j, (j < n)%nat -> s j = s' j.
Proof.
  induction n as [|n IH]; intros g s s' A B j Hj; [lia|].
  assert (E : s 0%nat = s' 0%nat).
  { destruct (Req_dec (s 0%nat) (s' 0%nat)) as [|N]; [assumption|exfalso].
    set (eps := Rabs (s 0%nat - s' 0%nat) / 3). assert (P : 0 < eps) by (unfold eps; pose proof (Rabs_pos_lt (s 0%nat - s' 0%nat) ltac:(lra)); lra).
    destruct (eventually_and _ _ (agree_continuous g s eps (agree_le 1 (S n) _ _ ltac:(lia) A) P) (agree_continuous g s' eps (agree_le 1 (S n) _ _ ltac:(lia) B) P)) as (H & HH & X).
    destruct (X H ltac:(rewrite Rabs_right; lra)) as [X1 X2].
    assert (Rabs (s 0%nat - s' 0%nat) <= 2 * eps).
    { replace (s 0%nat - s' 0%nat) with (- (g H - s 0%nat) + (g H - s' 0%nat)) by ring. eapply Rle_trans; [apply Rabs_triang|]. rewrite Rabs_Ropp. lra. }
    unfold eps in *. lra. }
  apply agree_S in A, B. destruct j as [|j]; [exact E|]. rewrite E in A. apply (IH _ _ _ A B j). lia.
Qed.
(** Inverses and square roots. *)
Lemma agree_1_inv : forall g s, agree 1 g s -> s 0%nat <> 0 -> agree 1 (fun h => / g h) (unit_coef (/ s 0%nat)) /\ eventually (fun h => g h <> 0).
Proof.
  intros g s A N. assert (P : 0 < Rabs (s 0%nat) / 2) by (pose proof (Rabs_pos_lt _ N); lra).
  pose proof (agree_continuous g s _ A P) as Cn.
  assert (L : eventually (fun h => Rabs (s 0%nat) / 2 <= Rabs (g h))).
  { eapply eventually_imp; [|exact Cn]. intros h _ X. cbn beta in X. pose proof (Rabs_triang (g h) (s 0%nat - g h)) as T.
    replace (g h + (s 0%nat - g h)) with (s 0%nat) in T by ring. rewrite (Rabs_minus_sym (s 0%nat) (g h)) in T. lra. }
  assert (NZ : eventually (fun h => g h <> 0)).
  { eapply eventually_imp; [|exact L]. intros h _ X E. cbn beta in X. rewrite E, Rabs_R0 in X. lra. }
  split; [|exact NZ]. apply agree_S. apply agree_S in A. apply (agree_0 _ (fun _ => 0)) in A. destruct A as (C & A). apply agree_0.
  exists (Rabs C * (/ Rabs (s 0%nat) * (2 / Rabs (s 0%nat)))).
  eapply eventually_imp; [|apply (eventually_and _ _ A (eventually_and _ _ L NZ))]. intros h Hh (X & Y & Z). cbn beta in *. cbn [unit_coef].
  replace ((/ g h - / s 0%nat) / h) with (- ((g h - s 0%nat) / h * (/ s 0%nat * / g h))) by (field; auto).
  rewrite Rabs_Ropp, !Rabs_mult, !Rabs_inv. pose proof (Rle_abs C). pose proof (Rabs_pos_lt _ N). pose proof (Rabs_pos_lt _ Z).
  apply Rmult_le_compat; try apply Rabs_pos; try lra.
  - apply Rmult_le_pos; apply Rlt_le, Rinv_0_lt_compat; assumption.
  - apply Rmult_le_compat_l; [apply Rlt_le, Rinv_0_lt_compat; assumption|].
    replace (2 / Rabs (s 0%nat)) with (/ (Rabs (s 0%nat) / 2)) by (field; lra). apply Rinv_le_contravar; lra.
Qed.
Lemma agree_1_sqrt : forall g s, agree 1 g s -> 0 < s 0%nat -> agree 1 (fun h => sqrt (g h)) (unit_coef (sqrt (s 0%nat))) /\ eventually (fun h => 0 < g h).
Proof.
  intros g s A N. pose proof (agree_continuous g s (s 0%nat / 2) A ltac:(lra)) as Cn.
  assert (L : eventually (fun h => 0 < g h)).
  { eapply eventually_imp; [|exact Cn]. intros h _ X. cbn beta in X. pose proof (Rle_abs (- (g h - s 0%nat))) as Y. rewrite Rabs_Ropp in Y. lra. }
  split; [|exact L]. pose proof (sqrt_lt_R0 _ N) as SP. apply agree_S. apply agree_S in A. apply (agree_0 _ (fun _ => 0)) in A. destruct A as (C & A). apply agree_0.
  exists (Rabs C * / sqrt (s 0%nat)). eapply eventually_imp; [|apply (eventually_and _ _ A L)]. intros h Hh (X & Y). cbn beta in *. cbn [unit_coef].
  pose proof (sqrt_lt_R0 _ Y) as SG.
  replace ((sqrt (g h) - sqrt (s 0%nat)) / h) with ((g h - s 0%nat) / h * / (sqrt (g h) + sqrt (s 0%nat))).
  - rewrite Rabs_mult, Rabs_inv. rewrite (Rabs_right (sqrt (g h) + _)) by lra. pose proof (Rle_abs C).
    apply Rmult_le_compat; try apply Rabs_pos; try lra; [apply Rlt_le, Rinv_0_lt_compat; lra|]. apply Rinv_le_contravar; lra.
  - rewrite <- (sqrt_sqrt (g h)) at 1 by lra. rewrite <- (sqrt_sqrt (s 0%nat)) at 1 by lra. field. split; [exact Hh|lra].
Qed.

(** Integration: the expansion of a function follows from that of its derivative. *)
Lemma derive_poly : forall n (s : nat -> R) x, derivable_pt_lim (fun h => sum_to n (fun j => s j / INR (S j) * h ^ S j)) x (sum_to n (fun j => s j * x ^ j)).
Proof.
  intros n s x. induction n as [|n IH].
  - unfold sum_to. cbn. apply derivable_pt_lim_const.
  - rewrite sum_to_last. intros eps He.
    assert (D : derivable_pt_lim (fun h => sum_to n (fun j => s j / INR (S j) * h ^ S j) + s n / INR (S n) * h ^ S n) x
                  (sum_to n (fun j => s j * x ^ j) + s n / INR (S n) * (INR (S n) * x ^ n))).
    { apply (derivable_pt_lim_plus (fun h => sum_to n (fun j => s j / INR (S j) * h ^ S j)) (fun h => s n / INR (S n) * h ^ S n)); [exact IH|].
      apply (derivable_pt_lim_scal (fun h => h ^ S n)). apply (derivable_pt_lim_pow x (S n)). }
    replace (s n / INR (S n) * (INR (S n) * x ^ n)) with (s n * x ^ n) in D by (field; apply not_0_INR; discriminate).
    destruct (D eps He) as (d & Hd). exists d. intros h H1 H2. rewrite !sum_to_last. apply Hd; assumption.
Qed.
Lemma bounded_by_derivative : forall (u u' : R -> R) H n C, 0 < H -> (forall x, Rabs x < H -> derivable_pt_lim u x (u' x)) ->
  (forall x, 0 < Rabs x < H -> Rabs (u' x) <= C * Rabs x ^ n) -> u 0 = 0 -> forall h, 0 < Rabs h < H -> Rabs (u h) <= C * Rabs h ^ S n.
Proof.
  intros u u' H n C HH D B Z h Hh.
  assert (PR : forall x, Rabs x < H -> derivable_pt u x) by (intros x Hx; exists (u' x); apply D, Hx).
  assert (M : exists x, 0 < Rabs x < Rabs h /\ u h = u' x * h).
  { destruct (Rle_lt_dec h 0) as [L|L].
    - assert (h < 0) by (destruct L as [L|L]; [exact L|subst h; rewrite Rabs_R0 in Hh; lra]). rewrite (Rabs_left h) in * by assumption.
      assert (P : forall c, h < c < 0 -> derivable_pt u c) by (intros c Hc; apply PR; rewrite Rabs_left; lra).
      destruct (MVT_cor2 u u' h 0 ltac:(assumption) ltac:(intros c Hc; apply D; apply Rabs_def1; lra)) as (c & E & Hc).
      exists c. split; [rewrite Rabs_left; lra|]. rewrite Z in E. lra.
    - rewrite (Rabs_right h) in * by lra.
      destruct (MVT_cor2 u u' 0 h L ltac:(intros c Hc; apply D; apply Rabs_def1; lra)) as (c & E & Hc).
      exists c. split; [rewrite Rabs_right; lra|]. rewrite Z in E. lra. }
  destruct M as (x & Hx & ->). rewrite Rabs_mult. specialize (B x ltac:(lra)).
  assert (C0 : 0 <= C).
  { pose proof (Rabs_pos (u' x)). pose proof (pow_lt (Rabs x) n ltac:(lra)). nra. }
  assert (Rabs x ^ n <= Rabs h ^ n) by (apply pow_incr; lra). cbn [pow]. pose proof (Rabs_pos h).
  apply Rle_trans with ((C * Rabs h ^ n) * Rabs h); [|right; ring]. apply Rmult_le_compat_r; [assumption|]. eapply Rle_trans; [exact B|]. apply Rmult_le_compat_l; assumption.
Qed.
Lemma agree_integral : forall n (y g : R -> R) s H, 0 < H -> (forall h, Rabs h < H -> derivable_pt_lim y h (g h)) -> agree n g s ->
  agree (S n) y (fun j => match j with O => y 0 | S j => s j / INR (S j) end).
Proof.
  intros n y g s H HH D (C & K & HK & A).
  set (u := fun h => y h - y 0 - sum_to n (fun j => s j / INR (S j) * h ^ S j)).
  set (u' := fun h => g h - sum_to n (fun j => s j * h ^ j)).
  set (L := Rmin H K). assert (HL : 0 < L) by (apply Rmin_glb_lt; assumption). assert (L1 : L <= H) by apply Rmin_l. assert (L2 : L <= K) by apply Rmin_r.
  assert (DU : forall x, Rabs x < L -> derivable_pt_lim u x (u' x)).
  { intros x Hx. unfold u, u'. replace (g x - sum_to n (fun j => s j * x ^ j)) with (g x - 0 - sum_to n (fun j => s j * x ^ j)) by ring.
    apply (derivable_pt_lim_minus (fun h => y h - y 0) (fun h => sum_to n (fun j => s j / INR (S j) * h ^ S j))); [|apply derive_poly].
    apply (derivable_pt_lim_minus y (fun _ => y 0)); [apply D; lra|apply derivable_pt_lim_const]. }
  assert (Z : u 0 = 0).
  { unfold u. rewrite (sum_to_ext n _ (fun j => 0 * 1)) by (intros; cbn [pow]; ring). rewrite sum_to_scal. ring. }
  exists C, (L / 2). split; [lra|]. intros h Hh. rewrite sum_to_S.
  replace (_ - _) with (u h) by (unfold u; cbn [pow]; ring).
  apply (bounded_by_derivative u u' L n C HL DU); [intros x Hx; apply A; lra|exact Z|lra].
Qed.
