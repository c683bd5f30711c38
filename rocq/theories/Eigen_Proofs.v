(* Reflections. *)
From Coq Require Import Reals Bool Arith Lia Lra.
From Verif Require Import Eigen_Model Eigen_Spec.
Local Open Scope R_scope.

(* ------------------------------------------------------------------ sums *)

Lemma rsum_ext : forall n f g,
  (forall i, (i < n)%nat -> f i = g i) -> rsum n f = rsum n g.
Proof.
  induction n as [|n IH]; intros f g H; cbn [rsum]; [reflexivity|].
  rewrite (IH f g), (H n) by (intros; try apply H; lia). reflexivity.
Qed.

Lemma rsum_0 : forall n f, (forall i, (i < n)%nat -> f i = 0) -> rsum n f = 0.
Proof.
  induction n as [|n IH]; intros f H; cbn [rsum]; [reflexivity|].
  rewrite IH, (H n) by (intros; try apply H; lia). ring.
Qed.

Lemma rsum_plus : forall n f g, rsum n (fun i => f i + g i) = rsum n f + rsum n g.
Proof.
  induction n as [|n IH]; intros f g; cbn [rsum]; [ring|]. rewrite IH. ring.
Qed.

Lemma rsum_minus : forall n f g, rsum n (fun i => f i - g i) = rsum n f - rsum n g.
Proof.
  induction n as [|n IH]; intros f g; cbn [rsum]; [ring|]. rewrite IH. ring.
Qed.

Lemma rsum_scale : forall n c f, rsum n (fun i => c * f i) = c * rsum n f.
Proof.
  induction n as [|n IH]; intros c f; cbn [rsum]; [ring|]. rewrite IH. ring.
Qed.

Lemma rsum_scale_r : forall n c f, rsum n (fun i => f i * c) = rsum n f * c.
Proof.
  induction n as [|n IH]; intros c f; cbn [rsum]; [ring|]. rewrite IH. ring.
Qed.

Lemma rsum_exchange : forall n m f,
  rsum n (fun i => rsum m (f i)) = rsum m (fun j => rsum n (fun i => f i j)).
Proof.
  induction n as [|n IH]; intros m f; cbn [rsum].
  - symmetry. apply rsum_0. reflexivity.
  - rewrite IH, <- rsum_plus. reflexivity.
Qed.

Lemma rsum_split : forall a b f,
  rsum (a + b) f = rsum a f + rsum b (fun i => f (a + i)%nat).
Proof.
  intros a b f; induction b as [|b IH].
  - rewrite Nat.add_0_r. cbn [rsum]. ring.
  - rewrite Nat.add_succ_r. cbn [rsum]. rewrite IH. ring.
Qed.

Lemma rsum_first : forall n f,
  rsum (S n) f = f 0%nat + rsum n (fun i => f (S i)).
Proof.
  intros n f. rewrite (rsum_split 1 n). cbn. ring.
Qed.

Lemma rsum_single : forall n k f,
  (k < n)%nat -> (forall i, (i < n)%nat -> i <> k -> f i = 0) -> rsum n f = f k.
Proof.
  induction n as [|n IH]; intros k f Hk H; [lia|].
  cbn [rsum]. destruct (Nat.eq_dec k n) as [->|N].
  - rewrite rsum_0 by (intros; apply H; lia). ring.
  - rewrite (IH k) by (try (intros; apply H); lia). rewrite (H n) by lia. ring.
Qed.

Lemma rsum_nonneg : forall n f, (forall i, (i < n)%nat -> 0 <= f i) -> 0 <= rsum n f.
Proof.
  induction n as [|n IH]; intros f H; cbn [rsum]; [lra|].
  pose proof (IH f ltac:(intros; apply H; lia)). pose proof (H n ltac:(lia)). lra.
Qed.

Lemma rsum_le : forall n f g,
  (forall i, (i < n)%nat -> f i <= g i) -> rsum n f <= rsum n g.
Proof.
  induction n as [|n IH]; intros f g H; cbn [rsum]; [lra|].
  pose proof (IH f g ltac:(intros; apply H; lia)). pose proof (H n ltac:(lia)). lra.
Qed.

Lemma rsum_zero_nonneg : forall n f,
  (forall i, (i < n)%nat -> 0 <= f i) -> rsum n f = 0 ->
  forall i, (i < n)%nat -> f i = 0.
Proof.
  induction n as [|n IH]; intros f H E i Hi; [lia|]. cbn [rsum] in E.
  pose proof (rsum_nonneg n f ltac:(intros; apply H; lia)).
  pose proof (H n ltac:(lia)).
  destruct (Nat.eq_dec i n) as [->|]; [lra|].
  apply IH; [intros; apply H; lia|lra|lia].
Qed.

(* A sum over a window. *)
Lemma rsum_window : forall n a m f,
  (a + m <= n)%nat ->
  rsum n (fun i => if ((a <=? i) && (i <? a + m))%nat then f (i - a)%nat else 0)
  = rsum m f.
Proof.
  intros n a m f H. replace n with (a + (m + (n - a - m)))%nat by lia.
  rewrite rsum_split, rsum_0, rsum_split, (rsum_0 (n - a - m)).
  - rewrite Rplus_0_l, Rplus_0_r. apply rsum_ext. intros i Hi.
    destruct (Nat.leb_spec a (a + i)); [|lia].
    destruct (Nat.ltb_spec (a + i) (a + m)); [|lia]. cbn [andb].
    f_equal. lia.
  - intros i Hi. destruct (Nat.ltb_spec (a + (m + i)) (a + m)); [lia|].
    rewrite andb_false_r. reflexivity.
  - intros i Hi. destruct (Nat.leb_spec a i); [lia|]. reflexivity.
Qed.

(* --------------------------------------------------------------- matrices *)

Lemma delta_refl : forall i, delta i i = 1.
Proof. intros; unfold delta; rewrite Nat.eqb_refl; reflexivity. Qed.
Lemma delta_neq : forall i j, i <> j -> delta i j = 0.
Proof. intros i j H; unfold delta. destruct (Nat.eqb_spec i j); [contradiction|reflexivity]. Qed.
Lemma delta_sym : forall i j, delta i j = delta j i.
Proof. intros; unfold delta. rewrite Nat.eqb_sym. reflexivity. Qed.

Lemma rsum_delta_l : forall n i f, (i < n)%nat -> rsum n (fun k => delta i k * f k) = f i.
Proof.
  intros n i f Hi. rewrite (rsum_single n i).
  - rewrite delta_refl. ring.
  - assumption.
  - intros k Hk Hne. rewrite delta_neq by congruence. ring.
Qed.

Lemma rsum_delta_r : forall n i f, (i < n)%nat -> rsum n (fun k => f k * delta k i) = f i.
Proof.
  intros n i f Hi. rewrite (rsum_single n i).
  - rewrite delta_refl. ring.
  - assumption.
  - intros k Hk Hne. rewrite delta_neq by congruence. ring.
Qed.

Lemma rmul_assoc : forall n A B C i j,
  rmul n (rmul n A B) C i j = rmul n A (rmul n B C) i j.
Proof.
  intros n A B C i j. unfold rmul.
  rewrite (rsum_ext n _ (fun k => rsum n (fun l => A i l * B l k * C k j)))
    by (intros; rewrite <- rsum_scale_r; reflexivity).
  rewrite rsum_exchange. apply rsum_ext. intros l Hl.
  rewrite <- rsum_scale. apply rsum_ext. intros; ring.
Qed.

Lemma rmul_meq : forall n A A' B B',
  meq n A A' -> meq n B B' -> meq n (rmul n A B) (rmul n A' B').
Proof.
  intros n A A' B B' HA HB i j Hi Hj. apply rsum_ext. intros k Hk.
  rewrite HA, HB by assumption. reflexivity.
Qed.

Lemma meq_refl : forall n A, meq n A A.
Proof. intros n A i j _ _; reflexivity. Qed.
Lemma meq_sym : forall n A B, meq n A B -> meq n B A.
Proof. intros n A B H i j Hi Hj; symmetry; apply H; assumption. Qed.
Lemma meq_trans : forall n A B C, meq n A B -> meq n B C -> meq n A C.
Proof. intros n A B C H1 H2 i j Hi Hj; rewrite H1 by assumption; apply H2; assumption. Qed.

Lemma transpose_rmul : forall n A B i j,
  transpose (rmul n A B) i j = rmul n (transpose B) (transpose A) i j.
Proof. intros. unfold transpose, rmul. apply rsum_ext. intros; ring. Qed.

Lemma orthogonal_left : forall n Q, orthogonal n Q ->
  meq n (rmul n (transpose Q) Q) delta.
Proof. intros n Q H i j Hi Hj. apply (H i j Hi Hj). Qed.
Lemma orthogonal_right : forall n Q, orthogonal n Q ->
  meq n (rmul n Q (transpose Q)) delta.
Proof. intros n Q H i j Hi Hj. apply (H i j Hi Hj). Qed.

Lemma orthogonal_intro : forall n Q,
  meq n (rmul n (transpose Q) Q) delta -> meq n (rmul n Q (transpose Q)) delta ->
  orthogonal n Q.
Proof.
  intros n Q H1 H2 i j Hi Hj. split; [apply H1|apply H2]; assumption.
Qed.

Lemma rmul_delta_l : forall n A, meq n (rmul n delta A) A.
Proof. intros n A i j Hi Hj. unfold rmul. apply (rsum_delta_l n i (fun k => A k j)). assumption. Qed.
Lemma rmul_delta_r : forall n A, meq n (rmul n A delta) A.
Proof. intros n A i j Hi Hj. unfold rmul. apply (rsum_delta_r n j (fun k => A i k)). assumption. Qed.

Lemma orthogonal_delta : forall n, orthogonal n delta.
Proof.
  intros n i j Hi Hj. split.
  - rewrite (rsum_ext n _ (fun k => delta i k * delta k j))
      by (intros; rewrite (delta_sym i); reflexivity).
    apply (rsum_delta_l n i (fun k => delta k j)). assumption.
  - rewrite (rsum_ext n _ (fun k => delta i k * delta k j))
      by (intros; rewrite (delta_sym j); reflexivity).
    apply (rsum_delta_l n i (fun k => delta k j)). assumption.
Qed.

Lemma meq_rmul_assoc : forall n A B C,
  meq n (rmul n (rmul n A B) C) (rmul n A (rmul n B C)).
Proof. intros n A B C i j _ _. apply rmul_assoc. Qed.

Lemma orthogonal_mul : forall n P Q,
  orthogonal n P -> orthogonal n Q -> orthogonal n (rmul n P Q).
Proof.
  intros n P Q HP HQ. apply orthogonal_intro.
  - eapply meq_trans.
    { apply rmul_meq; [|apply meq_refl]. intros i j _ _. apply transpose_rmul. }
    eapply meq_trans; [apply meq_rmul_assoc|].
    eapply meq_trans; [|apply orthogonal_left; exact HQ].
    apply rmul_meq; [apply meq_refl|].
    eapply meq_trans; [apply meq_sym, meq_rmul_assoc|].
    eapply meq_trans; [apply rmul_meq; [apply orthogonal_left; exact HP|apply meq_refl]|].
    apply rmul_delta_l.
  - eapply meq_trans.
    { apply rmul_meq; [apply meq_refl|]. intros i j _ _. apply transpose_rmul. }
    eapply meq_trans; [apply meq_rmul_assoc|].
    eapply meq_trans; [|apply orthogonal_right; exact HP].
    apply rmul_meq; [apply meq_refl|].
    eapply meq_trans; [apply meq_sym, meq_rmul_assoc|].
    eapply meq_trans; [apply rmul_meq; [apply orthogonal_right; exact HQ|apply meq_refl]|].
    apply rmul_delta_l.
Qed.

Lemma orthogonal_meq : forall n P Q, meq n P Q -> orthogonal n P -> orthogonal n Q.
Proof.
  intros n P Q E H i j Hi Hj. destruct (H i j Hi Hj) as [H1 H2]. split.
  - rewrite <- H1. apply rsum_ext. intros. rewrite !E by assumption. reflexivity.
  - rewrite <- H2. apply rsum_ext. intros. rewrite !E by assumption. reflexivity.
Qed.

Lemma similar_refl : forall n A, orthogonally_similar n A A.
Proof.
  intros n A. exists delta. split; [apply orthogonal_delta|].
  apply meq_sym. eapply meq_trans.
  { apply rmul_meq; [|apply rmul_delta_r].
    instantiate (1 := delta). intros i j _ _. unfold transpose. apply delta_sym. }
  apply rmul_delta_l.
Qed.

Lemma similar_trans : forall n A B C,
  orthogonally_similar n A B -> orthogonally_similar n B C ->
  orthogonally_similar n A C.
Proof.
  intros n A B C (P & HP & EB) (Q & HQ & EC).
  exists (rmul n P Q). split; [apply orthogonal_mul; assumption|].
  eapply meq_trans; [exact EC|].
  eapply meq_trans.
  { apply rmul_meq; [apply meq_refl|]. apply rmul_meq; [exact EB|apply meq_refl]. }
  apply meq_sym. eapply meq_trans.
  { apply rmul_meq; [intros i j _ _; apply transpose_rmul|apply meq_refl]. }
  eapply meq_trans; [apply meq_rmul_assoc|].
  apply rmul_meq; [apply meq_refl|].
  apply meq_sym.
  eapply meq_trans; [apply meq_rmul_assoc|].
  apply rmul_meq; [apply meq_refl|]. apply meq_rmul_assoc.
Qed.

Lemma similar_meq : forall n A B B',
  meq n B B' -> orthogonally_similar n A B -> orthogonally_similar n A B'.
Proof.
  intros n A B B' E (Q & HQ & H). exists Q. split; [assumption|].
  eapply meq_trans; [apply meq_sym; exact E|exact H].
Qed.

Lemma similar_eigenvalue : forall n A B l,
  orthogonally_similar n A B -> (eigenvalue n A l <-> eigenvalue n B l).
Proof.
  intros n A B l (Q & HQ & E).
  assert (QQ : forall x i, (i < n)%nat -> rapply n Q (rapply n (transpose Q) x) i = x i).
  { intros x i Hi. unfold rapply.
    rewrite (rsum_ext n _ (fun j => rsum n (fun k => Q i j * transpose Q j k * x k)))
      by (intros; rewrite <- rsum_scale; apply rsum_ext; intros; ring).
    rewrite rsum_exchange.
    rewrite (rsum_ext n _ (fun k => delta i k * x k)).
    - apply rsum_delta_l. assumption.
    - intros k Hk. rewrite rsum_scale_r. f_equal. apply (HQ i k Hi Hk). }
  assert (QQ' : forall x i, (i < n)%nat -> rapply n (transpose Q) (rapply n Q x) i = x i).
  { intros x i Hi. unfold rapply.
    rewrite (rsum_ext n _ (fun j => rsum n (fun k => transpose Q i j * Q j k * x k)))
      by (intros; rewrite <- rsum_scale; apply rsum_ext; intros; ring).
    rewrite rsum_exchange.
    rewrite (rsum_ext n _ (fun k => delta i k * x k)).
    - apply rsum_delta_l. assumption.
    - intros k Hk. rewrite rsum_scale_r. f_equal. apply (HQ i k Hi Hk). }
  assert (AX : forall M N x i, rapply n (rmul n M N) x i = rapply n M (rapply n N x) i).
  { intros M N x i. unfold rapply, rmul.
    rewrite (rsum_ext n _ (fun j => rsum n (fun k => M i k * N k j * x j)))
      by (intros; rewrite <- rsum_scale_r; reflexivity).
    rewrite rsum_exchange. apply rsum_ext. intros k Hk.
    rewrite <- rsum_scale. apply rsum_ext. intros; ring. }
  assert (EX : forall M x y i, (forall j, (j < n)%nat -> x j = y j) ->
             rapply n M x i = rapply n M y i).
  { intros M x y i Hxy. unfold rapply. apply rsum_ext. intros. rewrite Hxy by assumption. reflexivity. }
  assert (SC : forall M c x i, rapply n M (fun j => c * x j) i = c * rapply n M x i).
  { intros M c x i. unfold rapply. rewrite <- rsum_scale. apply rsum_ext. intros; ring. }
  assert (NZ : forall M N x, (forall i, (i < n)%nat -> rapply n N (rapply n M x) i = x i) ->
             (exists i, (i < n)%nat /\ x i <> 0) ->
             exists i, (i < n)%nat /\ rapply n M x i <> 0).
  { intros M N x Inv (i & Hi & Hx).
    assert (D : forall m, (m <= n)%nat ->
              (exists i, (i < m)%nat /\ rapply n M x i <> 0) \/
              (forall i, (i < m)%nat -> rapply n M x i = 0)).
    { induction m as [|m IHm]; intros Hm; [right; intros; lia|].
      destruct IHm as [(k & Hk & Hnz)|Z]; [lia| |].
      - left. exists k. split; [lia|assumption].
      - destruct (Req_dec (rapply n M x m) 0) as [Z'|N'].
        + right. intros k Hk. destruct (Nat.eq_dec k m) as [->|]; [assumption|apply Z; lia].
        + left. exists m. split; [lia|assumption]. }
    destruct (D n ltac:(lia)) as [S|Z]; [assumption|exfalso].
    apply Hx. rewrite <- (Inv i Hi). unfold rapply at 1. apply rsum_0.
    intros k Hk. rewrite Z by assumption. ring. }
  assert (EB : forall x i, (i < n)%nat ->
             rapply n B x i = rapply n (transpose Q) (rapply n A (rapply n Q x)) i).
  { intros x i Hi. unfold rapply at 1.
    rewrite (rsum_ext n _ (fun j => rmul n (transpose Q) (rmul n A Q) i j * x j))
      by (intros; rewrite E by assumption; reflexivity).
    fold (rapply n (rmul n (transpose Q) (rmul n A Q)) x i).
    rewrite AX. apply EX. intros. apply AX. }
  split; intros (x & Nx & Hx).
  - exists (rapply n (transpose Q) x). split.
    + apply (NZ (transpose Q) Q); [|assumption]. intros; apply QQ; assumption.
    + intros i Hi. rewrite EB by assumption. rewrite <- SC. apply EX.
      intros j Hj. rewrite <- Hx by assumption. apply EX.
      intros k Hk. apply QQ. assumption.
  - exists (rapply n Q x). split.
    + apply (NZ Q (transpose Q)); [|assumption]. intros; apply QQ'; assumption.
    + intros i Hi. rewrite <- (QQ (rapply n A (rapply n Q x)) i Hi).
      rewrite <- SC. apply EX. intros j Hj. rewrite <- EB by assumption.
      apply Hx. assumption.
Qed.

(* ------------------------------------------------------------ reflections *)

(* The factor and the vector of a reflection, or of the identity. *)
Definition proper (m : nat) (P : reflection) :=
  refl_beta P * (refl_beta P * rsum m (fun i => refl_v P i * refl_v P i) - 2) = 0.

Definition reflect_vector (m : nat) (P : reflection) (x : rvector) (i : nat) : R :=
  x i - refl_beta P * refl_v P i * rsum m (fun k => x k * refl_v P k).

Lemma reflection_orthogonal : forall m P,
  proper m P -> orthogonal m (reflection_matrix P).
Proof.
  intros m P H.
  assert (G : forall i j, (i < m)%nat -> (j < m)%nat ->
    rsum m (fun k => reflection_matrix P i k * reflection_matrix P j k) = delta i j).
  { intros i j Hi Hj. unfold reflection_matrix.
    set (b := refl_beta P) in *. set (v := refl_v P) in *.
    rewrite (rsum_ext m _ (fun k =>
      delta i k * delta j k - delta i k * (b * v j * v k) - (b * v i * v k) * delta k j
      + b * b * v i * v j * (v k * v k)))
      by (intros k Hk; rewrite (delta_sym k j); ring).
    rewrite rsum_plus, !rsum_minus, rsum_scale.
    rewrite (rsum_delta_l m i (fun k => delta j k)) by assumption.
    rewrite (rsum_delta_l m i (fun k => b * v j * v k)) by assumption.
    rewrite (rsum_delta_r m j (fun k => b * v i * v k)) by assumption.
    rewrite (delta_sym j i). unfold proper in H. fold b v in H.
    replace (delta i j - b * v j * v i - b * v i * v j
             + b * b * v i * v j * rsum m (fun k => v k * v k))
      with (delta i j + v i * v j * (b * (b * rsum m (fun k => v k * v k) - 2))) by ring.
    rewrite H. ring. }
  intros i j Hi Hj. split; [|apply G; assumption].
  rewrite <- (G i j Hi Hj). apply rsum_ext. intros k Hk. unfold reflection_matrix.
  rewrite (delta_sym k i), (delta_sym k j). ring.
Qed.

Lemma norm_nonneg : forall m x, 0 <= rsum m (fun i => x i * x i).
Proof. intros. apply rsum_nonneg. intros. nra. Qed.

Lemma householder_some : forall m x,
  (0 < m)%nat -> (exists i, (i < m)%nat /\ x i <> 0) ->
  exists P, ComputeHouseholderReflection m x = Some P.
Proof.
  intros m x Hm (i & Hi & Hx). unfold ComputeHouseholderReflection.
  destruct (Req_EM_T _ 0) as [E|N].
  - exfalso. apply sqrt_eq_0 in E; [|apply norm_nonneg].
    apply Hx. apply Rsqr_0_uniq. unfold Rsqr.
    apply (rsum_zero_nonneg m (fun i => x i * x i)); [intros; nra|assumption|assumption].
  - cbv zeta. destruct (Req_EM_T _ 0); [destruct (Rlt_dec _ _)|]; eauto.
Qed.

Lemma householder_correct : forall m x P,
  (0 < m)%nat -> ComputeHouseholderReflection m x = Some P -> ~ negative_axis m x ->
  proper m P /\
  forall i, (i < m)%nat ->
    reflect_vector m P x i = if (i =? 0)%nat then norm m x else 0.
Proof.
  intros m x P Hm E N. unfold ComputeHouseholderReflection in E.
  fold (norm m x) in E. set (r := norm m x) in *.
  destruct (Req_EM_T r 0) as [|Nr]; [discriminate|].
  assert (Rpos : 0 < r).
  { unfold r, norm in *. pose proof (sqrt_pos (rsum m (fun i => x i * x i))). lra. }
  assert (Rsq : r * r = rsum m (fun i => x i * x i)).
  { unfold r, norm. apply sqrt_sqrt. apply norm_nonneg. }
  cbv zeta in E. set (u := fun i => x i / r) in *.
  change (x 0%nat / r) with (u 0%nat) in E.
  assert (Hx : forall i, x i = r * u i) by (intros; unfold u; field; assumption).
  set (g := fun i => if (i =? 0)%nat then 0 else x i / r * (x i / r)) in E.
  set (sigma := rsum m g) in *.
  assert (HU : forall f, rsum m f = f 0%nat + rsum m (fun i => if (i =? 0)%nat then 0 else f i)).
  { intros f. destruct m as [|m']; [lia|]. rewrite !rsum_first.
    cbn [Nat.eqb]. rewrite Rplus_0_l. reflexivity. }
  assert (Hs : u 0%nat * u 0%nat + sigma = 1).
  { assert (X : r * r * (u 0%nat * u 0%nat + sigma) = r * r).
    { rewrite Rsq at 2. rewrite (HU (fun i => x i * x i)).
      rewrite Rmult_plus_distr_l. f_equal; [rewrite Hx; ring|].
      unfold sigma. rewrite <- rsum_scale. apply rsum_ext. intros i Hi. unfold g.
      destruct (i =? 0)%nat; [ring|]. field. assumption. }
    apply (Rmult_eq_reg_l (r * r)); [lra|nra]. }
  assert (Hg : forall i, (i < m)%nat -> 0 <= g i).
  { intros i Hi. unfold g. destruct (i =? 0)%nat; nra. }
  assert (Hsig : 0 <= sigma) by (apply rsum_nonneg; assumption).
  destruct (Req_EM_T sigma 0) as [S0|S0].
  - assert (Z : forall i, (0 < i < m)%nat -> x i = 0).
    { intros i Hi. pose proof (rsum_zero_nonneg m g Hg S0 i ltac:(lia)) as G.
      unfold g in G. destruct (Nat.eqb_spec i 0); [lia|].
      rewrite Hx. apply Rmult_integral in G. unfold u. destruct G as [G|G]; rewrite G; ring. }
    assert (U0 : ~ u 0%nat < 0).
    { intros L. apply N. split; [rewrite Hx; nra|exact Z]. }
    destruct (Rlt_dec (u 0%nat) 0); [contradiction|]. injection E as <-.
    split; [unfold proper; cbn; ring|].
    intros i Hi. unfold reflect_vector. cbn [refl_beta].
    destruct (Nat.eqb_spec i 0) as [->|].
    + assert (u 0%nat = 1) by nra. rewrite Hx at 1. rewrite H. ring.
    + rewrite (Z i) by lia. ring.
  - assert (U0 : u 0%nat < 1) by nra.
    set (v1 := if Rle_dec (u 0%nat) 0 then u 0%nat - 1 else - sigma / (u 0%nat + 1)) in E.
    assert (V1 : v1 = u 0%nat - 1).
    { unfold v1. destruct (Rle_dec (u 0%nat) 0) as [|NL]; [reflexivity|].
      replace sigma with (1 - u 0%nat * u 0%nat) by lra. field. lra. }
    clearbody v1. subst v1.
    assert (D : sigma + (u 0%nat - 1) * (u 0%nat - 1) = 2 - 2 * u 0%nat) by nra.
    rewrite D in E. injection E as <-.
    set (a := u 0%nat - 1) in *.
    assert (Ha : a <> 0) by (unfold a; lra).
    assert (W : forall f : nat -> R,
      rsum m (fun i => f i * ((if (i =? 0)%nat then a else u i) / a))
      = f 0%nat + rsum m (fun i => if (i =? 0)%nat then 0 else f i * u i) / a).
    { intros f. rewrite (HU (fun i => f i * ((if (i =? 0)%nat then a else u i) / a))).
      cbn [Nat.eqb]. replace (a / a) with 1 by (field; assumption).
      rewrite Rmult_1_r. f_equal. unfold Rdiv. rewrite <- rsum_scale_r.
      apply rsum_ext. intros i Hi. destruct (i =? 0)%nat; ring. }
    assert (Sg : rsum m (fun i => if (i =? 0)%nat then 0 else u i * u i) = sigma).
    { apply rsum_ext. intros i Hi. unfold g, u. reflexivity. }
    split.
    + unfold proper. cbn [refl_beta refl_v].
      match goal with |- context [rsum m ?f] =>
        change (rsum m f) with (rsum m (fun i =>
          ((if (i =? 0)%nat then a else u i) / a)
          * ((if (i =? 0)%nat then a else u i) / a))) end.
      rewrite (W (fun i => (if (i =? 0)%nat then a else u i) / a)). cbn [Nat.eqb].
      rewrite (rsum_ext m _ (fun i => (if (i =? 0)%nat then 0 else u i * u i) * / a)).
      2: { intros i Hi. destruct (i =? 0)%nat; unfold Rdiv; ring. }
      rewrite rsum_scale_r, Sg.
      replace (a / a) with 1 by (field; assumption).
      replace sigma with (2 - 2 * u 0%nat - a * a) by lra.
      replace (2 - 2 * u 0%nat) with (- 2 * a) by (unfold a; ring).
      field. assumption.
    + intros i Hi. unfold reflect_vector. cbn [refl_beta refl_v].
      match goal with |- context [rsum m ?f] =>
        change (rsum m f) with (rsum m (fun i =>
          x i * ((if (i =? 0)%nat then a else u i) / a))) end.
      change (x i / r) with (u i).
      rewrite (W x).
      rewrite (rsum_ext m _ (fun i => r * (if (i =? 0)%nat then 0 else u i * u i))).
      2: { intros k Hk. rewrite (Hx k) at 1. destruct (k =? 0)%nat; ring. }
      rewrite rsum_scale, Sg, (Hx 0%nat), (Hx i).
      replace sigma with (2 - 2 * u 0%nat - a * a) by lra.
      replace (2 - 2 * u 0%nat) with (- 2 * a) by (unfold a; ring).
      replace (u 0%nat) with (a + 1) by (unfold a; ring).
      destruct (Nat.eqb_spec i 0) as [->|].
      * replace (u 0%nat) with (a + 1) by (unfold a; ring). field. assumption.
      * field. assumption.
Qed.

(* On the negative axis the matrix is not a reflection: it triples the vector. *)
Lemma householder_degenerate : forall m x P,
  (0 < m)%nat -> ComputeHouseholderReflection m x = Some P -> negative_axis m x ->
  refl_beta P = -2 /\ refl_v P 0%nat = 1 /\
  (forall i, (0 < i < m)%nat -> refl_v P i = 0) /\
  (forall i, (i < m)%nat -> reflect_vector m P x i = if (i =? 0)%nat then 3 * x 0%nat else 0).
Proof.
  intros m x P Hm E [N0 N1]. unfold ComputeHouseholderReflection in E.
  fold (norm m x) in E. set (r := norm m x) in *.
  destruct (Req_EM_T r 0) as [|Nr]; [discriminate|].
  assert (Rpos : 0 < r).
  { unfold r, norm in *. pose proof (sqrt_pos (rsum m (fun i => x i * x i))). lra. }
  cbv zeta in E.
  destruct (Req_EM_T _ 0) as [S0|S0].
  2: { exfalso. apply S0. apply rsum_0. intros i Hi.
       destruct (Nat.eqb_spec i 0); [reflexivity|]. rewrite N1 by lia. field. lra. }
  assert (L : x 0%nat / r < 0).
  { apply Rmult_lt_reg_r with r; [assumption|]. unfold Rdiv.
    rewrite Rmult_assoc, Rinv_l, Rmult_1_r, Rmult_0_l by assumption. assumption. }
  destruct (Rlt_dec (x 0%nat / r) 0); [|contradiction]. injection E as <-.
  cbn [refl_beta refl_v]. split; [reflexivity|]. split; [reflexivity|].
  assert (V : forall i, (0 < i < m)%nat -> (if (i =? 0)%nat then 1 else x i / r) = 0).
  { intros i Hi. destruct (Nat.eqb_spec i 0); [lia|]. rewrite N1 by lia. field. lra. }
  split; [exact V|].
  intros i Hi. unfold reflect_vector. cbn [refl_beta refl_v].
  rewrite (rsum_single m 0%nat).
  - cbn [Nat.eqb]. destruct (Nat.eqb_spec i 0) as [->|]; [ring|].
    rewrite N1 by lia. unfold Rdiv. rewrite Rmult_0_l. ring.
  - assumption.
  - intros k Hk Hne. rewrite V by lia. ring.
Qed.
