From Coq Require Import Bool List Arith Reals Lra Lia Psatz.
From Verif Require Import Chebyshev_Model.
Import ListNotations.
Open Scope R_scope.

(** ** Specification: the Чебышёв polynomials of the first and second kinds, and the value of a series. *)
Fixpoint T_pair (n : nat) (x : R) : R * R := match n with O => (1, x) | S n => let (a, b) := T_pair n x in (b, 2 * x * b - a) end.
Definition T (n : nat) (x : R) : R := fst (T_pair n x).
Fixpoint U_pair (n : nat) (x : R) : R * R := match n with O => (1, 2 * x) | S n => let (a, b) := U_pair n x in (b, 2 * x * b - a) end.
Definition U (n : nat) (x : R) : R := fst (U_pair n x).
Definition position (s : series) (t : R) : R := (2 * t - lower_bound s - upper_bound s) / (upper_bound s - lower_bound s).
Definition scaled_value (s : series) (x : R) : R := sum_f_R0 (fun k => nth k (coefficients s) 0 * T k x) (Nat.pred (length (coefficients s))).
Definition value (s : series) (t : R) : R := scaled_value s (position s t).

Lemma T_0 : forall x, T 0 x = 1. Proof. reflexivity. Qed.
Lemma T_1 : forall x, T 1 x = x. Proof. reflexivity. Qed.
Lemma T_SS : forall n x, T (S (S n)) x = 2 * x * T (S n) x - T n x.
Proof. intros n x. unfold T. cbn [T_pair]. destruct (T_pair n x) as [a b]; reflexivity. Qed.
Lemma U_0 : forall x, U 0 x = 1. Proof. reflexivity. Qed.
Lemma U_1 : forall x, U 1 x = 2 * x. Proof. reflexivity. Qed.
Lemma U_SS : forall n x, U (S (S n)) x = 2 * x * U (S n) x - U n x.
Proof. intros n x. unfold U. cbn [U_pair]. destruct (U_pair n x) as [a b]; reflexivity. Qed.
Lemma pair_induction : forall P : nat -> Prop, P 0%nat -> P 1%nat -> (forall n, P n -> P (S n) -> P (S (S n))) -> forall n, P n.
Proof. intros P H0 H1 H n. assert (P n /\ P (S n)) as [E _]; [ | exact E]. induction n as [ | n [IH1 IH2]]; split; auto. Qed.

Theorem T_cos : forall n a, T n (cos a) = cos (INR n * a).
Proof.
  intros n a; induction n as [ | | n IH1 IH2] using pair_induction.
  - cbn [INR]. rewrite Rmult_0_l, cos_0. reflexivity.
  - cbn [INR]. rewrite Rmult_1_l. reflexivity.
  - rewrite T_SS, IH1, IH2. replace (INR (S (S n)) * a) with (INR (S n) * a + a) by (rewrite (S_INR (S n)); ring).
    replace (INR n * a) with (INR (S n) * a - a) by (rewrite S_INR; ring). rewrite cos_plus, cos_minus. ring.
Qed.
Lemma T_bound : forall n x, -1 <= x <= 1 -> Rabs (T n x) <= 1.
Proof. intros n x H. rewrite <- (cos_acos x H), T_cos. apply Rabs_le. apply COS_bound. Qed.

(** ** Clenshaw's recurrence *)
Lemma clenshaw_ok : forall (P : nat -> R) x c, (forall n, P (S (S n)) = (x + x) * P (S n) - P n) -> forall k b1 b2,
  let (r1, r2) := clenshaw_loop c (x + x) k b1 b2 in
  c 0%nat * P 0%nat + r1 * P 1%nat - r2 * P 0%nat = sum_f_R0 (fun i => c i * P i) k + b1 * P (S k) - b2 * P k.
Proof.
  intros P x c HP; induction k as [ | k IH]; intros b1 b2; cbn [clenshaw_loop]; [cbn; ring | ].
  specialize (IH (c (S k) + (x + x) * b1 - b2) b1). destruct (clenshaw_loop c (x + x) k _ b1) as [r1 r2]. rewrite IH. cbn [sum_f_R0]. rewrite HP. ring.
Qed.
Lemma position_ok : forall s t, lower_bound s <> upper_bound s -> scaled_argument s t = position s t.
Proof. intros s t H. unfold scaled_argument, one_over_width, width, position. field. lra. Qed.
Lemma evaluate_scaled : forall s t, evaluate s t = scaled_value s (scaled_argument s t).
Proof.
  intros s t. unfold evaluate, scaled_value. cbv zeta. set (x := scaled_argument s t). change (fun k => nth k (coefficients s) 0 * T k x) with (fun k => coefficient k s * T k x).
  change (Nat.pred (length (coefficients s))) with (degree s).
  destruct (degree s) as [ | [ | d]].
  - cbn. ring.
  - cbn [sum_f_R0]. rewrite T_0, T_1. ring.
  - replace (S (S d) - 2)%nat with d by lia. replace (S (S d) - 1)%nat with (S d) by lia.
    pose proof (clenshaw_ok (fun n => T n x) x (fun k => coefficient k s) ltac:(intros n; cbv beta; rewrite T_SS; ring) d (coefficient (S d) s + (x + x) * coefficient (S (S d)) s) (coefficient (S (S d)) s)) as H.
    destruct (clenshaw_loop _ _ d _ _) as [r1 r2]. cbv beta in H. rewrite T_0, T_1 in H. cbn [sum_f_R0]. rewrite T_SS. lra.
Qed.
Theorem evaluate_value : forall s t, lower_bound s <> upper_bound s -> evaluate s t = value s t.
Proof. intros s t H. rewrite evaluate_scaled, (position_ok s t H). reflexivity. Qed.

(** ** The derivative *)
Lemma T_U : forall n x, T (S n) x = x * U n x - match n with O => 0 | S m => U m x end.
Proof.
  intros n x; induction n as [ | | n IH1 IH2] using pair_induction.
  - rewrite T_1, U_0; ring.
  - rewrite T_SS, T_1, T_0, U_1, U_0; ring.
  - rewrite T_SS, IH2, IH1, (U_SS n). destruct n as [ | n]; [rewrite U_1, U_0; ring | ]. rewrite !U_SS. ring.
Qed.
Lemma T_derivative : forall n x, derivable_pt_lim (T n) x (match n with O => 0 | S m => INR n * U m x end).
Proof.
  intros n x; induction n as [ | | n IH1 IH2] using pair_induction.
  - apply (derivable_pt_lim_ext (fct_cte 1)); [reflexivity | apply derivable_pt_lim_const].
  - cbn [INR]. rewrite U_0, Rmult_1_l. apply (derivable_pt_lim_ext id); [reflexivity | apply derivable_pt_lim_id].
  - apply (derivable_pt_lim_ext (minus_fct (mult_fct (mult_real_fct 2 id) (T (S n))) (T n))); [intros y; rewrite T_SS; reflexivity | ].
    replace (INR (S (S n)) * U (S n) x) with ((2 * 1 * T (S n) x + mult_real_fct 2 id x * (INR (S n) * U n x)) - match n with O => 0 | S m => INR n * U m x end).
    + apply derivable_pt_lim_minus; [ | exact IH1]. apply derivable_pt_lim_mult; [apply derivable_pt_lim_scal, derivable_pt_lim_id | exact IH2].
    + unfold mult_real_fct, id. rewrite T_U. destruct n as [ | n]; [rewrite U_1, U_0; cbn [INR]; ring | ]. rewrite U_SS. rewrite !S_INR. ring.
Qed.
Lemma sum_derivative : forall (c : nat -> R) n x, derivable_pt_lim (fun y => sum_f_R0 (fun k => c k * T k y) n) x (match n with O => 0 | S m => sum_f_R0 (fun k => c (S k) * INR (S k) * U k x) m end).
Proof.
  intros c n x; induction n as [ | n IH].
  - apply (derivable_pt_lim_ext (fct_cte (c 0%nat))); [intros y; unfold fct_cte; cbn [sum_f_R0]; rewrite T_0; ring | apply derivable_pt_lim_const].
  - apply (derivable_pt_lim_ext (plus_fct (fun y => sum_f_R0 (fun k => c k * T k y) n) (mult_real_fct (c (S n)) (T (S n))))); [reflexivity | ].
    replace (sum_f_R0 (fun k => c (S k) * INR (S k) * U k x) n) with (match n with O => 0 | S m => sum_f_R0 (fun k => c (S k) * INR (S k) * U k x) m end + c (S n) * (INR (S n) * U n x)).
    + apply derivable_pt_lim_plus; [exact IH | ]. apply derivable_pt_lim_scal. apply (T_derivative (S n)).
    + destruct n; cbn [sum_f_R0]; ring.
Qed.
Lemma position_derivative : forall f s t l, lower_bound s <> upper_bound s -> derivable_pt_lim f (position s t) l -> derivable_pt_lim (fun t => f (position s t)) t (l * (2 / (upper_bound s - lower_bound s))).
Proof.
  intros f s t l H D. apply (derivable_pt_lim_ext (comp f (mult_real_fct (2 / (upper_bound s - lower_bound s)) (minus_fct id (fct_cte ((lower_bound s + upper_bound s) / 2)))))).
  - intros y. unfold comp, mult_real_fct, minus_fct, id, fct_cte. f_equal. unfold position. field. lra.
  - apply derivable_pt_lim_comp; [replace (2 / (upper_bound s - lower_bound s)) with (2 / (upper_bound s - lower_bound s) * (1 - 0)) at 2 by ring; apply derivable_pt_lim_scal, derivable_pt_lim_minus; [apply derivable_pt_lim_id | apply derivable_pt_lim_const] | ].
    replace (mult_real_fct _ _ t) with (position s t); [exact D | ]. unfold mult_real_fct, minus_fct, id, fct_cte, position. field. lra.
Qed.
Theorem EvaluateDerivative_derivative : forall s t, lower_bound s <> upper_bound s -> (1 <= degree s)%nat ->
  exists d, EvaluateDerivative s t = Some d /\ derivable_pt_lim (value s) t d.
Proof.
  intros s t H Hd. unfold EvaluateDerivative. cbv zeta. rewrite (position_ok s t H). set (x := position s t). set (c := fun k => coefficient (k + 1) s * INR (k + 1)).
  pose proof (clenshaw_ok (fun n => U n x) x c ltac:(intros n; cbv beta; rewrite U_SS; ring) (degree s - 1) 0 0) as C. destruct (clenshaw_loop c (x + x) (degree s - 1) 0 0) as [r1 r2].
  unfold at_index. destruct (nth_error (coefficients s) 1) as [c1 | ] eqn:E; [ | apply nth_error_None in E; unfold degree in Hd; lia].
  eexists; split; [reflexivity | ]. apply (nth_error_nth _ _ 0) in E. rewrite U_0, U_1 in C.
  replace ((c1 + (x + x) * r1 - r2) * (one_over_width s + one_over_width s)) with (sum_f_R0 (fun k => c k * U k x) (degree s - 1) * (2 / (upper_bound s - lower_bound s))).
  - unfold value. apply position_derivative; [exact H | ]. fold x. unfold scaled_value. change (Nat.pred (length (coefficients s))) with (degree s).
    pose proof (sum_derivative (fun k => nth k (coefficients s) 0) (degree s) x) as D. destruct (degree s) as [ | n]; [lia | ]. replace (S n - 1)%nat with n by lia.
    replace (sum_f_R0 (fun k => c k * U k x) n) with (sum_f_R0 (fun k => nth (S k) (coefficients s) 0 * INR (S k) * U k x) n); [exact D | ].
    apply sum_eq. intros k _. unfold c, coefficient. rewrite Nat.add_1_r. reflexivity.
  - unfold one_over_width, width. replace (c1 + (x + x) * r1 - r2) with (c 0%nat * 1 + r1 * (2 * x) - r2 * 1) by (unfold c, coefficient; change (0 + 1)%nat with 1%nat; rewrite E; cbn [INR]; ring).
    rewrite C. field. lra.
Qed.
Theorem EvaluateDerivative_constant : forall c a b t, EvaluateDerivative (Series [c] a b) t = None.
Proof. reflexivity. Qed.

(** ** The zero-free test *)
Lemma B0_sum : forall s n start acc, fold_left (fun B j => B + Rabs (coefficient j s)) (seq start n) acc = acc + fold_right Rplus 0 (map (fun j => Rabs (coefficient j s)) (seq start n)).
Proof. intros s; induction n as [ | n IH]; intros start acc; cbn [seq fold_left map fold_right]; [ring | rewrite IH; ring]. Qed.
Lemma tail_bound : forall s x n, -1 <= x <= 1 -> Rabs (sum_f_R0 (fun k => coefficient k s * T k x) n - coefficient 0 s) <= fold_right Rplus 0 (map (fun j => Rabs (coefficient j s)) (seq 1 n)).
Proof.
  intros s x n H; induction n as [ | n IH].
  - cbn [sum_f_R0 seq map fold_right]. rewrite T_0. replace (coefficient 0 s * 1 - coefficient 0 s) with 0 by ring. rewrite Rabs_R0. lra.
  - cbn [sum_f_R0]. rewrite seq_S, map_app, fold_right_app. cbn [map fold_right].
    assert (G : forall l a, fold_right Rplus a l = fold_right Rplus 0 l + a) by (induction l as [ | b l IHl]; intros a; cbn; [ring | rewrite IHl; ring]).
    rewrite G. change (1 + n)%nat with (S n). rewrite Rplus_0_r.
    replace (sum_f_R0 (fun k => coefficient k s * T k x) n + coefficient (S n) s * T (S n) x - coefficient 0 s) with ((sum_f_R0 (fun k => coefficient k s * T k x) n - coefficient 0 s) + coefficient (S n) s * T (S n) x) by ring.
    eapply Rle_trans; [apply Rabs_triang | ]. rewrite Rabs_mult. pose proof (T_bound (S n) x H). pose proof (Rabs_pos (coefficient (S n) s)). pose proof (Rabs_pos (T (S n) x)). nra.
Qed.
Lemma position_range : forall s t, lower_bound s < upper_bound s -> lower_bound s <= t <= upper_bound s -> -1 <= position s t <= 1.
Proof.
  intros s t H Ht. unfold position. set (w := upper_bound s - lower_bound s). assert (0 < w) by (unfold w; lra). split.
  - apply (Rmult_le_reg_r w); [assumption | ]. unfold Rdiv. rewrite Rmult_assoc, Rinv_l by lra. unfold w; lra.
  - apply (Rmult_le_reg_r w); [assumption | ]. unfold Rdiv. rewrite Rmult_assoc, Rinv_l by lra. unfold w; lra.
Qed.
Theorem zero_free : forall s error f, lower_bound s < upper_bound s -> MayHaveRealRoots s error = Some false ->
  (forall t, lower_bound s <= t <= upper_bound s -> Rabs (f t - value s t) <= error) -> forall t, lower_bound s <= t <= upper_bound s -> f t <> 0.
Proof.
  intros s error f Hb Hm Hf t Ht Z. specialize (Hf t Ht). rewrite Z in Hf. unfold MayHaveRealRoots in Hm. destruct (Rleb 0 error); [ | discriminate]. injection Hm as Hm. unfold Rleb in Hm.
  destruct (Rle_dec _ _) as [ | L]; [discriminate | ]. apply Rnot_le_lt in L. rewrite B0_sum, Rplus_0_l in L.
  pose proof (tail_bound s (position s t) (degree s) (position_range s t Hb Ht)) as B. change (sum_f_R0 (fun k => coefficient k s * T k (position s t)) (degree s)) with (value s t) in B.
  assert (Rabs (coefficient 0 s) <= Rabs (value s t) + Rabs (value s t - coefficient 0 s)).
  { replace (coefficient 0 s) with (value s t + - (value s t - coefficient 0 s)) at 1 by ring. eapply Rle_trans; [apply Rabs_triang | ]. rewrite Rabs_Ropp. lra. }
  replace (0 - value s t) with (- value s t) in Hf by ring. rewrite Rabs_Ropp in Hf. lra.
Qed.

(** ** The companion matrix *)
(** Component [j], from 1, of the product of the matrix [A] of size [N] by [v]. *)
Definition product_component (N : nat) (A : nat -> nat -> R) (v : nat -> R) (j : nat) : R := fold_right Rplus 0 (map (fun k => A j k * v k) (seq 1 N)).
Definition eigenvalue (N : nat) (A : nat -> nat -> R) (x : R) : Prop :=
  exists v, (exists k, (1 <= k <= N)%nat /\ v k <> 0) /\ forall j, (1 <= j <= N)%nat -> product_component N A v j = x * v j.
Lemma sum_seq_ext : forall (f g : nat -> R) l, (forall k, In k l -> f k = g k) -> fold_right Rplus 0 (map f l) = fold_right Rplus 0 (map g l).
Proof. intros f g l H. f_equal. apply map_ext_in, H. Qed.
Lemma sum_seq_plus : forall (f g : nat -> R) l, fold_right Rplus 0 (map (fun k => f k + g k) l) = fold_right Rplus 0 (map f l) + fold_right Rplus 0 (map g l).
Proof. intros f g; induction l as [ | a l IH]; cbn; [ring | rewrite IH; ring]. Qed.
Lemma sum_seq_scal : forall a (f : nat -> R) l, fold_right Rplus 0 (map (fun k => a * f k) l) = a * fold_right Rplus 0 (map f l).
Proof. intros a f; induction l as [ | b l IH]; cbn; [ring | rewrite IH; ring]. Qed.
Lemma sum_delta : forall (v : nat -> R) i n start, fold_right Rplus 0 (map (fun k => KroneckerDelta i k * v k) (seq start n)) = if (Nat.leb start i && Nat.ltb i (start + n))%bool then v i else 0.
Proof.
  intros v i; induction n as [ | n IH]; intros start; cbn [seq map fold_right].
  - destruct (Nat.leb_spec start i); destruct (Nat.ltb_spec i (start + 0)); cbn [andb]; try reflexivity; lia.
  - rewrite IH. unfold KroneckerDelta. destruct (Nat.eqb_spec i start) as [-> | E].
    + destruct (Nat.leb_spec (S start) start); [lia | ]. destruct (Nat.leb_spec start start); [ | lia]. destruct (Nat.ltb_spec start (start + S n)); [cbn [andb]; ring | lia].
    + destruct (Nat.leb_spec (S start) i); destruct (Nat.leb_spec start i); destruct (Nat.ltb_spec i (S start + n)); destruct (Nat.ltb_spec i (start + S n)); cbn [andb]; try lia; ring.
Qed.
Lemma row_first : forall s v, (2 <= degree s)%nat -> product_component (degree s) (FrobeniusCompanionMatrix s) v 1 = v 2%nat.
Proof.
  intros s v H. unfold product_component, FrobeniusCompanionMatrix. cbv zeta. destruct (Nat.eqb_spec 1 (degree s)) as [E | E]; [lia | ]. cbn [Nat.eqb].
  rewrite sum_delta. destruct (Nat.ltb_spec 2 (1 + degree s)); [reflexivity | lia].
Qed.
Lemma row_middle : forall s v j, (1 < j < degree s)%nat -> product_component (degree s) (FrobeniusCompanionMatrix s) v j = 1 / 2 * (v (j - 1)%nat + v (j + 1)%nat).
Proof.
  intros s v j H. unfold product_component, FrobeniusCompanionMatrix. cbv zeta. destruct (Nat.eqb_spec j (degree s)) as [E | E]; [lia | ]. destruct (Nat.eqb_spec j 1) as [E1 | E1]; [lia | ].
  rewrite (sum_seq_ext _ (fun k => 1 / 2 * (KroneckerDelta (j - 1) k * v k + KroneckerDelta (j + 1) k * v k))).
  - rewrite sum_seq_scal, sum_seq_plus, !sum_delta. destruct (Nat.leb_spec 1 (j - 1)); [ | lia]. destruct (Nat.ltb_spec (j - 1) (1 + degree s)); [ | lia].
    destruct (Nat.leb_spec 1 (j + 1)); [ | lia]. destruct (Nat.ltb_spec (j + 1) (1 + degree s)); [ | lia]. reflexivity.
  - intros k Hk. apply in_seq in Hk. unfold KroneckerDelta. destruct (Nat.eqb_spec j (k + 1)); destruct (Nat.eqb_spec (j - 1) k); destruct (Nat.eqb_spec j (k - 1)); destruct (Nat.eqb_spec (j + 1) k); try lia; ring.
Qed.
Lemma row_last : forall s v, (2 <= degree s)%nat -> product_component (degree s) (FrobeniusCompanionMatrix s) v (degree s) =
  - / (2 * coefficient (degree s) s) * fold_right Rplus 0 (map (fun k => coefficient (k - 1) s * v k) (seq 1 (degree s))) + 1 / 2 * v (degree s - 1)%nat.
Proof.
  intros s v H. unfold product_component, FrobeniusCompanionMatrix. cbv zeta. rewrite Nat.eqb_refl.
  rewrite (sum_seq_ext _ (fun k => - / (2 * coefficient (degree s) s) * (coefficient (k - 1) s * v k) + 1 / 2 * (KroneckerDelta (degree s - 1) k * v k))).
  - rewrite sum_seq_plus, !sum_seq_scal, sum_delta. destruct (Nat.leb_spec 1 (degree s - 1)); [ | lia]. destruct (Nat.ltb_spec (degree s - 1) (1 + degree s)); [ | lia]. reflexivity.
  - intros k Hk. unfold KroneckerDelta, Rdiv. rewrite (Nat.eqb_sym k). destruct (Nat.eqb _ k); ring.
Qed.
Lemma sum_shift : forall s x n, fold_right Rplus 0 (map (fun k => coefficient (k - 1) s * T (k - 1) x) (seq 1 n)) = match n with O => 0 | S m => sum_f_R0 (fun k => coefficient k s * T k x) m end.
Proof.
  intros s x; induction n as [ | n IH]; [reflexivity | ]. rewrite seq_S, map_app, fold_right_app. cbn [map fold_right].
  assert (G : forall l a, fold_right Rplus a l = fold_right Rplus 0 l + a) by (induction l as [ | b l IHl]; intros a; cbn; [ring | rewrite IHl; ring]).
  rewrite G, IH. replace (1 + n - 1)%nat with n by lia. destruct n; cbn [sum_f_R0]; ring.
Qed.
Lemma scaled_value_split : forall s x n, degree s = S n -> scaled_value s x = sum_f_R0 (fun k => coefficient k s * T k x) n + coefficient (S n) s * T (S n) x.
Proof. intros s x n E. unfold scaled_value. change (Nat.pred (length (coefficients s))) with (degree s). rewrite E. reflexivity. Qed.
Theorem companion_eigenvalues : forall s x, (2 <= degree s)%nat -> coefficient (degree s) s <> 0 ->
  (eigenvalue (degree s) (FrobeniusCompanionMatrix s) x <-> scaled_value s x = 0).
Proof.
  intros s x H Ha. remember (degree s) as N eqn:EN. destruct N as [ | [ | n]]; try lia. split.
  - intros (v & (k & Hk & Vk) & Hv).
    assert (V : forall m, (m <= S n)%nat -> v (S m) = v 1%nat * T m x).
    { intros m; induction m as [ | | m IH1 IH2] using pair_induction; intros Hm.
      - rewrite T_0; ring.
      - specialize (Hv 1%nat ltac:(lia)). rewrite EN, row_first in Hv by lia. rewrite T_1. lra.
      - specialize (Hv (S (S m)) ltac:(lia)). rewrite EN, row_middle in Hv by lia. replace (S (S m) - 1)%nat with (S m) in Hv by lia. replace (S (S m) + 1)%nat with (S (S (S m))) in Hv by lia.
        rewrite IH1 in Hv by lia. rewrite IH2 in Hv by lia. rewrite T_SS. lra. }
    assert (v 1%nat <> 0) as V1 by (intros Z; apply Vk; replace k with (S (k - 1)) by lia; rewrite V by lia; rewrite Z; ring).
    specialize (Hv (S (S n)) ltac:(lia)). pose proof (row_last s v ltac:(lia)) as L. rewrite <- EN in L. rewrite L in Hv. clear L.
    rewrite (sum_seq_ext _ (fun k => v 1%nat * (coefficient (k - 1) s * T (k - 1) x))) in Hv.
    2: { intros i Hi. apply in_seq in Hi. replace i with (S (i - 1)) at 2 by lia. rewrite V by lia. ring. }
    rewrite sum_seq_scal, sum_shift in Hv. replace (S (S n) - 1)%nat with (S n) in Hv by lia. rewrite (V n) in Hv by lia. rewrite (V (S n)) in Hv by lia.
    rewrite (scaled_value_split s x (S n)) by lia. rewrite T_SS.
    set (a := coefficient (S (S n)) s) in *. set (S := sum_f_R0 _ _) in *.
    assert (v 1%nat * (S + a * (2 * x * T (Datatypes.S n) x - T n x)) = 0).
    { transitivity (- (2 * a) * ((- / (2 * a) * (v 1%nat * S) + 1 / 2 * (v 1%nat * T n x)) - x * (v 1%nat * T (Datatypes.S n) x))); [field; exact Ha | rewrite Hv; ring]. }
    apply Rmult_integral in H0. destruct H0; [contradiction | assumption].
  - intros Z. exists (fun k => T (k - 1) x). split; [exists 1%nat; split; [lia | cbn; lra] | ]. intros j Hj.
    rewrite (scaled_value_split s x (S n)) in Z by lia.
    destruct (Nat.eq_dec j (S (S n))) as [-> | E].
    + pose proof (row_last s (fun k => T (k - 1) x) ltac:(lia)) as L. rewrite <- EN in L. rewrite L. clear L. rewrite sum_shift. cbn [Nat.sub].
      rewrite !Nat.sub_0_r. rewrite T_SS in Z. set (a := coefficient (S (S n)) s) in *. set (S := sum_f_R0 _ _) in *.
      replace S with (- (a * (2 * x * T (Datatypes.S n) x - T n x))) by lra. field. exact Ha.
    + rewrite EN. destruct (Nat.eq_dec j 1) as [-> | E1].
      * rewrite row_first by lia. cbn. ring.
      * rewrite row_middle by lia. destruct j as [ | [ | j]]; try lia. replace (S (S j) - 1 - 1)%nat with j by lia. replace (S (S j) + 1 - 1)%nat with (S (S j)) by lia. replace (S (S j) - 1)%nat with (S j) by lia. rewrite T_SS. field.
Qed.
Lemma Rleb_spec : forall a b, Rleb a b = true <-> a <= b.
Proof. intros a b. unfold Rleb. destruct (Rle_dec a b); split; auto; discriminate. Qed.
Theorem real_roots : forall s eigenvalues, lower_bound s < upper_bound s -> (2 <= degree s)%nat -> coefficient (degree s) s <> 0 ->
  (forall x, In x eigenvalues <-> eigenvalue (degree s) (FrobeniusCompanionMatrix s) x) ->
  forall t, In t (RealRoots s eigenvalues) <-> lower_bound s <= t <= upper_bound s /\ value s t = 0.
Proof.
  intros s eigenvalues Hb Hd Ha He t. unfold RealRoots. cbv zeta. rewrite in_map_iff. split.
  - intros (x & <- & Hx). apply filter_In in Hx. destruct Hx as [Hx Hr]. apply andb_true_iff in Hr. rewrite !Rleb_spec in Hr. split; [nra | ].
    apply He, companion_eigenvalues in Hx; try assumption. unfold value. replace (position s _) with x; [exact Hx | ]. unfold position. field. lra.
  - intros (Ht & Hz). exists (position s t). split; [unfold position; field; lra | ]. apply filter_In. split; [apply He, companion_eigenvalues; assumption | ].
    apply andb_true_iff. rewrite !Rleb_spec. apply position_range; assumption.
Qed.
(** When the degree is 1 the only eigenvalue is half of the root. *)
Theorem companion_linear : forall a0 a1 a b x, a1 <> 0 -> (eigenvalue 1 (FrobeniusCompanionMatrix (Series [a0; a1] a b)) x <-> x = - a0 / a1 / 2).
Proof.
  intros a0 a1 a b x Ha. assert (E : forall v, product_component 1 (FrobeniusCompanionMatrix (Series [a0; a1] a b)) v 1 = - a0 / a1 / 2 * v 1%nat).
  { intros v. unfold product_component, FrobeniusCompanionMatrix, degree, coefficient, KroneckerDelta; cbn. field. exact Ha. }
  split.
  - intros (v & (k & Hk & Vk) & Hv). replace k with 1%nat in Vk by lia. specialize (Hv 1%nat ltac:(lia)). rewrite E in Hv. apply (Rmult_eq_reg_r (v 1%nat)); [symmetry; exact Hv | exact Vk].
  - intros ->. exists (fun _ => 1). split; [exists 1%nat; split; [lia | lra] | ]. intros j Hj. replace j with 1%nat by lia. apply (E (fun _ => 1)).
Qed.
