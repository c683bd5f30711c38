(* The Hessenberg decomposition and the QR step of Francis. *)
From Coq Require Import Reals Bool Arith Lia Lra.
From Verif Require Import Eigen_Model Eigen_Spec Eigen_Proofs.
Local Open Scope R_scope.

(* The reflection that acts on the coordinates r0 ... r0 + m - 1. *)
Definition window (r0 m : nat) (i : nat) : bool := ((r0 <=? i) && (i <? r0 + m))%nat.
Definition embed (r0 m : nat) (P : reflection) : reflection :=
  mkReflection (fun i => if window r0 m i then refl_v P (i - r0)%nat else 0)
               (refl_beta P).

Lemma window_spec : forall r0 m i,
  window r0 m i = true <-> (r0 <= i < r0 + m)%nat.
Proof.
  intros. unfold window. rewrite andb_true_iff, Nat.leb_le, Nat.ltb_lt. tauto.
Qed.

Lemma window_false : forall r0 m i,
  window r0 m i = false <-> (i < r0 \/ r0 + m <= i)%nat.
Proof.
  intros. unfold window. rewrite andb_false_iff, Nat.leb_gt, Nat.ltb_ge. tauto.
Qed.

Lemma embed_proper : forall n r0 m P,
  (r0 + m <= n)%nat -> proper m P -> proper n (embed r0 m P).
Proof.
  intros n r0 m P H E. unfold proper, embed. cbn [refl_beta refl_v].
  rewrite (rsum_ext n _ (fun i =>
    if ((r0 <=? i) && (i <? r0 + m))%nat
    then (fun k => refl_v P k * refl_v P k) (i - r0)%nat else 0)).
  - pose proof (rsum_window n r0 m (fun k => refl_v P k * refl_v P k) H) as X.
    cbv beta in X. rewrite X. exact E.
  - intros i Hi. unfold window. destruct ((r0 <=? i) && (i <? r0 + m))%nat; ring.
Qed.

Lemma embed_dot : forall n r0 m P f,
  (r0 + m <= n)%nat ->
  rsum n (fun i => f i * refl_v (embed r0 m P) i)
  = rsum m (fun k => f (r0 + k)%nat * refl_v P k).
Proof.
  intros n r0 m P f H. unfold embed. cbn [refl_v].
  rewrite (rsum_ext n _ (fun i =>
    if ((r0 <=? i) && (i <? r0 + m))%nat
    then (fun k => f (r0 + k)%nat * refl_v P k) (i - r0)%nat else 0)).
  - pose proof (rsum_window n r0 m (fun k => f (r0 + k)%nat * refl_v P k) H) as X.
    cbv beta in X. exact X.
  - intros i Hi. fold (window r0 m i). destruct (window r0 m i) eqn:W; [|ring].
    apply window_spec in W. replace (r0 + (i - r0))%nat with i by lia. reflexivity.
Qed.

(* The elements of the product of a block and a reflection. *)
Lemma Premultiply_sub : forall p n r0 m c0 w P H i j,
  (r0 + m <= n)%nat -> (c0 + w = n)%nat ->
  (forall k l, (k < m)%nat -> (l < c0)%nat -> H (p + r0 + k)%nat (p + l)%nat = 0) ->
  (i < n)%nat -> (j < n)%nat ->
  sub p (Premultiply (p + r0) m (p + c0) w P H) i j
  = rmul n (reflection_matrix (embed r0 m P)) (sub p H) i j.
Proof.
  intros p n r0 m c0 w P H i j Hm Hw Z Hi Hj.
  unfold rmul, reflection_matrix.
  rewrite (rsum_ext n _ (fun k => delta i k * sub p H k j
    - refl_beta P * refl_v (embed r0 m P) i
      * (sub p H k j * refl_v (embed r0 m P) k))) by (intros; cbn [embed refl_beta]; ring).
  rewrite rsum_minus, rsum_scale, embed_dot by assumption.
  rewrite (rsum_delta_l n i (fun k => sub p H k j)) by assumption.
  unfold sub, Premultiply.
  rewrite (rsum_ext m (fun k => H (p + (r0 + k))%nat (p + j)%nat * refl_v P k)
                      (fun k => H (p + r0 + k)%nat (p + j)%nat * refl_v P k))
    by (intros; rewrite Nat.add_assoc; reflexivity).
  unfold embed. cbn [refl_v].
  destruct (window r0 m i) eqn:W.
  - apply window_spec in W.
    destruct (Nat.leb_spec (p + r0) (p + i)); [|lia].
    destruct (Nat.ltb_spec (p + i) (p + r0 + m)); [|lia]. cbn [andb].
    replace (p + i - (p + r0))%nat with (i - r0)%nat by lia.
    destruct (Nat.leb_spec (p + c0) (p + j)).
    + destruct (Nat.ltb_spec (p + j) (p + c0 + w)); [|lia]. cbn [andb]. ring.
    + cbn [andb]. rewrite rsum_0; [ring|].
      intros k Hk. rewrite Z by lia. ring.
  - apply window_false in W.
    replace ((p + r0 <=? p + i) && (p + i <? p + r0 + m))%nat with false.
    + cbn [andb]. ring.
    + symmetry. apply andb_false_iff. rewrite Nat.leb_gt, Nat.ltb_ge. lia.
Qed.

Lemma PostMultiply_sub : forall p n w c0 m P H i j,
  (c0 + m <= n)%nat -> (w <= n)%nat ->
  (forall k l, (w <= k < n)%nat -> (l < m)%nat -> H (p + k)%nat (p + c0 + l)%nat = 0) ->
  (i < n)%nat -> (j < n)%nat ->
  sub p (PostMultiply p w (p + c0) m H P) i j
  = rmul n (sub p H) (reflection_matrix (embed c0 m P)) i j.
Proof.
  intros p n w c0 m P H i j Hm Hw Z Hi Hj.
  unfold rmul, reflection_matrix.
  rewrite (rsum_ext n _ (fun k => sub p H i k * delta k j
    - refl_beta P * refl_v (embed c0 m P) j
      * (sub p H i k * refl_v (embed c0 m P) k))) by (intros; cbn [embed refl_beta]; ring).
  rewrite rsum_minus, rsum_scale, embed_dot by assumption.
  rewrite (rsum_delta_r n j (fun k => sub p H i k)) by assumption.
  unfold sub, PostMultiply.
  rewrite (rsum_ext m (fun k => H (p + i)%nat (p + (c0 + k))%nat * refl_v P k)
                      (fun k => H (p + i)%nat (p + c0 + k)%nat * refl_v P k))
    by (intros; rewrite Nat.add_assoc; reflexivity).
  unfold embed. cbn [refl_v].
  destruct (Nat.leb_spec p (p + i)); [|lia]. cbn [andb].
  destruct (window c0 m j) eqn:W.
  - apply window_spec in W.
    destruct (Nat.leb_spec (p + c0) (p + j)); [|lia].
    destruct (Nat.ltb_spec (p + j) (p + c0 + m)); [|lia].
    replace (p + j - (p + c0))%nat with (j - c0)%nat by lia.
    destruct (Nat.ltb_spec (p + i) (p + w)); cbn [andb].
    + ring.
    + rewrite rsum_0; [ring|]. intros k Hk. rewrite Z by lia. ring.
  - apply window_false in W.
    replace ((p + i <? p + w) && (p + c0 <=? p + j) && (p + j <? p + c0 + m))%nat with false.
    + ring.
    + symmetry. apply andb_false_iff. rewrite Nat.ltb_ge.
      destruct W; [left|right; lia].
      apply andb_false_iff. right. apply Nat.leb_gt. lia.
Qed.

(* Elements left alone. *)
Lemma Premultiply_row : forall r0 m c0 w P A i j,
  (i < r0 \/ r0 + m <= i \/ j < c0 \/ c0 + w <= j)%nat ->
  Premultiply r0 m c0 w P A i j = A i j.
Proof.
  intros. unfold Premultiply.
  destruct (Nat.leb_spec r0 i); destruct (Nat.ltb_spec i (r0 + m));
    destruct (Nat.leb_spec c0 j); destruct (Nat.ltb_spec j (c0 + w)); cbn [andb];
    try reflexivity; lia.
Qed.

Lemma PostMultiply_row : forall r0 w c0 m P A i j,
  (i < r0 \/ r0 + w <= i \/ j < c0 \/ c0 + m <= j)%nat ->
  PostMultiply r0 w c0 m A P i j = A i j.
Proof.
  intros. unfold PostMultiply.
  destruct (Nat.leb_spec r0 i); destruct (Nat.ltb_spec i (r0 + w));
    destruct (Nat.leb_spec c0 j); destruct (Nat.ltb_spec j (c0 + m)); cbn [andb];
    try reflexivity; lia.
Qed.

(* The elements of the column from which the reflection was computed. *)
Lemma Premultiply_column : forall r0 m c0 w P A i j,
  (i < m)%nat -> (c0 <= j < c0 + w)%nat ->
  Premultiply r0 m c0 w P A (r0 + i)%nat j
  = reflect_vector m P (fun k => A (r0 + k)%nat j) i.
Proof.
  intros. unfold Premultiply, reflect_vector.
  destruct (Nat.leb_spec r0 (r0 + i)); [|lia].
  destruct (Nat.ltb_spec (r0 + i) (r0 + m)); [|lia].
  destruct (Nat.leb_spec c0 j); [|lia]. destruct (Nat.ltb_spec j (c0 + w)); [|lia].
  cbn [andb]. replace (r0 + i - r0)%nat with i by lia. reflexivity.
Qed.

Lemma Premultiply_zero_column : forall r0 m c0 w P A i j,
  (forall k, (k < m)%nat -> A (r0 + k)%nat j = 0) -> A i j = 0 ->
  Premultiply r0 m c0 w P A i j = 0.
Proof.
  intros r0 m c0 w P A i j Z E. unfold Premultiply.
  rewrite rsum_0 by (intros; rewrite Z by assumption; ring).
  rewrite E. destruct (_ && _)%bool; ring.
Qed.

Lemma PostMultiply_zero_row : forall r0 w c0 m P A i j,
  (forall k, (k < m)%nat -> A i (c0 + k)%nat = 0) -> A i j = 0 ->
  PostMultiply r0 w c0 m A P i j = 0.
Proof.
  intros r0 w c0 m P A i j Z E. unfold PostMultiply.
  rewrite rsum_0 by (intros; rewrite Z by assumption; ring).
  rewrite E. destruct (_ && _)%bool; ring.
Qed.

(* The result of a reflection by an orthogonal matrix, on both sides. *)
Lemma reflection_similar : forall n P A B,
  proper n P ->
  meq n B (rmul n (rmul n (reflection_matrix P) A) (reflection_matrix P)) ->
  orthogonally_similar n A B.
Proof.
  intros n P A B HP E. exists (reflection_matrix P).
  split; [apply reflection_orthogonal; assumption|].
  eapply meq_trans; [exact E|]. eapply meq_trans; [apply meq_rmul_assoc|].
  apply rmul_meq; [|apply meq_refl]. intros i j _ _.
  unfold transpose, reflection_matrix. rewrite (delta_sym i j). ring.
Qed.

(* The two properties that the algorithms need of the computation of the
   reflections. *)
Definition kills (reflect : reflector) :=
  forall m x P, (0 < m)%nat -> reflect m x = Some P ->
    forall i, (0 < i < m)%nat -> reflect_vector m P x i = 0.
Definition all_proper (reflect : reflector) :=
  forall m x P, (0 < m)%nat -> reflect m x = Some P -> proper m P.

Lemma reflect_vector_zero : forall m x P i,
  (forall k, (k < m)%nat -> x k = 0) -> x i = 0 -> reflect_vector m P x i = 0.
Proof.
  intros. unfold reflect_vector.
  rewrite rsum_0 by (intros; rewrite H by assumption; ring). rewrite H0. ring.
Qed.

(* Whether a vector is a negative multiple of the first vector of the basis is
   known classically; here by the computation itself. *)
Lemma negative_axis_dec : forall m x, negative_axis m x \/ ~ negative_axis m x.
Proof.
  intros m x. unfold negative_axis.
  destruct (Rlt_dec (x 0%nat) 0) as [L|L]; [|right; tauto].
  assert (D : (forall i, (0 < i < m)%nat -> x i = 0) \/
              ~ (forall i, (0 < i < m)%nat -> x i = 0)).
  { induction m as [|m IH]; [left; intros; lia|].
    destruct IH as [IH|IH].
    - destruct m as [|m]; [left; intros; lia|].
      destruct (Req_EM_T (x (S m)) 0) as [E|E].
      + left. intros i Hi. destruct (Nat.eq_dec i (S m)) as [->|]; [assumption|apply IH; lia].
      + right. intros A. apply E. apply A. lia.
    - right. intros A. apply IH. intros; apply A; lia. }
  tauto.
Qed.

Lemma householder_kills : kills ComputeHouseholderReflection.
Proof.
  intros m x P Hm E i Hi.
  destruct (negative_axis_dec m x) as [N|N].
  - destruct (householder_degenerate m x P Hm E N) as (_ & _ & _ & H).
    rewrite H by lia. destruct (Nat.eqb_spec i 0); [lia|reflexivity].
  - destruct (householder_correct m x P Hm E N) as (_ & H).
    rewrite H by lia. destruct (Nat.eqb_spec i 0); [lia|reflexivity].
Qed.

Lemma checked_householder : forall m x P,
  checked m x = Some P -> ComputeHouseholderReflection m x = Some P.
Proof.
  intros m x P E. unfold checked in E.
  destruct (ComputeHouseholderReflection m x) as [P'|]; [|discriminate].
  destruct (Req_EM_T _ _); [discriminate|]. assumption.
Qed.

Lemma checked_not_negative : forall m x P,
  (0 < m)%nat -> checked m x = Some P -> ~ negative_axis m x.
Proof.
  intros m x P Hm E N. pose proof (checked_householder m x P E) as E'.
  destruct (householder_degenerate m x P Hm E' N) as (B & _).
  unfold checked in E. rewrite E' in E.
  destruct (Req_EM_T _ _); [discriminate|contradiction].
Qed.

Lemma checked_kills : kills checked.
Proof.
  intros m x P Hm E. apply checked_householder in E.
  apply (householder_kills m x P Hm E).
Qed.

Lemma checked_proper : all_proper checked.
Proof.
  intros m x P Hm E. eapply (householder_correct m x P); [assumption| |].
  - apply checked_householder. assumption.
  - eapply checked_not_negative; eauto.
Qed.

(* ------------------------------------------------------------- loops *)

Lemma option_loop_inv : forall {St} (I : nat -> St -> Prop)
    (body : nat -> St -> option St) count a s s',
  (forall i s s', (a <= i < a + count)%nat -> I i s -> body i s = Some s' -> I (S i) s') ->
  I a s -> option_loop a count body s = Some s' -> I (a + count)%nat s'.
Proof.
  intros St I body count; induction count as [|c IH]; intros a s s' H Ha E;
    cbn [option_loop] in E.
  - injection E as <-. rewrite Nat.add_0_r. exact Ha.
  - destruct (body a s) as [s1|] eqn:E1; [|discriminate].
    rewrite Nat.add_succ_r, <- Nat.add_succ_l. eapply IH; [| |exact E].
    + intros; eapply H; eauto; lia.
    + eapply H; eauto; lia.
Qed.

Lemma option_loop_mono : forall {St} (b1 b2 : nat -> St -> option St) count a s s',
  (forall i s s', b1 i s = Some s' -> b2 i s = Some s') ->
  option_loop a count b1 s = Some s' -> option_loop a count b2 s = Some s'.
Proof.
  intros St b1 b2 count; induction count as [|c IH]; intros a s s' H E;
    cbn [option_loop] in *; [assumption|].
  destruct (b1 a s) as [s1|] eqn:E1; [|discriminate].
  rewrite (H _ _ _ E1). apply IH; assumption.
Qed.

(* ------------------------------------------------------------ Hessenberg *)

Definition hess_upto (n k : nat) (H : rmatrix) :=
  forall i j, (i < n)%nat -> (j < k)%nat -> (S j < i)%nat -> H i j = 0.

Lemma hessenberg_step_shape : forall reflect n k H H',
  kills reflect -> (k + 2 < n)%nat -> hess_upto n k H ->
  hessenberg_step reflect n k H = Some H' -> hess_upto n (S k) H'.
Proof.
  intros reflect n k H H' K Hk Z E i j Hi Hj Hij. unfold hessenberg_step in E.
  destruct (reflect _ _) as [P|] eqn:EP; [|discriminate]. injection E as <-.
  rewrite PostMultiply_row by lia.
  destruct (Nat.eq_dec j k) as [->|].
  - replace i with (k + 1 + (i - (k + 1)))%nat by lia.
    rewrite Premultiply_column by lia.
    eapply K; [|exact EP|]; lia.
  - apply Premultiply_zero_column.
    + intros l Hl. apply Z; lia.
    + apply Z; lia.
Qed.

Lemma hessenberg_step_similar : forall reflect n k H H',
  all_proper reflect -> (k + 2 < n)%nat -> hess_upto n k H ->
  hessenberg_step reflect n k H = Some H' -> orthogonally_similar n H H'.
Proof.
  intros reflect n k H H' K Hk Z E. unfold hessenberg_step in E.
  destruct (reflect _ _) as [P|] eqn:EP; [|discriminate]. injection E as <-.
  assert (HP : proper (n - 1 - k) P) by (eapply K; [|exact EP]; lia).
  apply (reflection_similar n (embed (k + 1) (n - 1 - k) P)).
  - apply embed_proper; [lia|assumption].
  - intros i j Hi Hj.
    pose proof (PostMultiply_sub 0 n n (k + 1) (n - 1 - k) P
      (Premultiply (k + 1) (n - 1 - k) k (n - k) P H) i j) as X.
    unfold sub in X. cbn [Nat.add] in X. rewrite X; try lia; try assumption.
    apply rsum_ext. intros l Hl. f_equal.
    pose proof (Premultiply_sub 0 n (k + 1) (n - 1 - k) k (n - k) P H i l) as Y.
    unfold sub in Y. cbn [Nat.add] in Y. rewrite Y; try lia; try assumption.
    + reflexivity.
    + intros a b Ha Hb. apply Z; lia.
Qed.

Lemma hess_upto_full : forall n k H,
  (n <= k + 2)%nat -> hess_upto n k H -> upper_hessenberg n H.
Proof. intros n k H Hk Z i j Hi Hij. apply Z; lia. Qed.

Lemma hessenberg_shape : forall reflect n A H,
  kills reflect -> hessenberg_with reflect n A = Some H -> upper_hessenberg n H.
Proof.
  intros reflect n A H K E. unfold hessenberg_with in E.
  apply (hess_upto_full n (n - 2)); [lia|].
  change (n - 2)%nat with (0 + (n - 2))%nat.
  eapply option_loop_inv with (I := hess_upto n); [| |exact E].
  - intros i s s' Hi I B. eapply hessenberg_step_shape; eauto. lia.
  - intros i j; lia.
Qed.

Lemma hessenberg_similar : forall reflect n A H,
  kills reflect -> all_proper reflect ->
  hessenberg_with reflect n A = Some H -> orthogonally_similar n A H.
Proof.
  intros reflect n A H K K' E. unfold hessenberg_with in E.
  assert (G : hess_upto n (0 + (n - 2)) H /\ orthogonally_similar n A H).
  { eapply option_loop_inv with
      (I := fun k H => hess_upto n k H /\ orthogonally_similar n A H); [| |exact E].
    - intros i s s' Hi [I1 I2] B. split.
      + eapply hessenberg_step_shape; eauto. lia.
      + eapply similar_trans; [exact I2|].
        eapply hessenberg_step_similar; eauto. lia.
    - split; [intros i j; lia|apply similar_refl]. }
  apply G.
Qed.

Lemma hessenberg_checked : forall n A H,
  hessenberg_with checked n A = Some H -> HessenbergDecomposition n A = Some H.
Proof.
  intros n A H E. unfold HessenbergDecomposition, hessenberg_with in *.
  eapply option_loop_mono; [|exact E].
  intros i s s' B. unfold hessenberg_step in *.
  destruct (checked _ _) as [P|] eqn:EP; [|discriminate].
  apply checked_householder in EP. rewrite EP. exact B.
Qed.

(* --------------------------------------------------------------- Francis *)

(* The zeros of a Hessenberg matrix with a bulge. *)
Definition bulge (n k : nat) (h : rmatrix) :=
  forall i j, (i < n)%nat -> (S j < i)%nat ->
    ~ (1 <= k /\ j = k - 1 /\ (i = k + 1 \/ i = k + 2))%nat ->
    ~ (1 <= k /\ j = k /\ i = k + 2)%nat ->
    h i j = 0.

Record francis_inv (shape : Prop) (p n : nat) (H0 : rmatrix) (k : nat)
    (s : rmatrix * (R * R * R)) : Prop := {
  fr_bulge : bulge n k (sub p (fst s));
  fr_x : (1 <= k)%nat -> fst (fst (snd s)) = sub p (fst s) k (k - 1)%nat;
  fr_y : (1 <= k)%nat -> snd (fst (snd s)) = sub p (fst s) (k + 1)%nat (k - 1)%nat;
  fr_z : (1 <= k)%nat -> (k + 2 < n)%nat -> snd (snd s) = sub p (fst s) (k + 2)%nat (k - 1)%nat;
  fr_similar : shape -> orthogonally_similar n (sub p H0) (sub p (fst s));
  fr_outside : forall i j, (i < p \/ p + n <= i \/ j < p \/ p + n <= j)%nat ->
    fst s i j = H0 i j }.

Lemma francis_body_inv : forall (shape : Prop) reflect p n H0 k s s',
  kills reflect -> (shape -> all_proper reflect) -> (k + 2 < n)%nat ->
  francis_inv shape p n H0 k s -> francis_body reflect p n k s = Some s' ->
  francis_inv shape p n H0 (S k) s'.
Proof.
  intros shape reflect p n H0 k s s' K K' Hk I E.
  destruct s as [H [[x y] z]]. destruct I as [B Ix Iy Iz Is Io].
  cbn [fst snd] in *. unfold francis_body in E.
  destruct (reflect 3%nat (xyz_vector (x, y, z))) as [P|] eqn:EP; [|discriminate].
  cbv zeta in E.
  set (q := Nat.max 1 k) in *. set (r := Nat.min (k + 4) n) in *.
  set (H1 := Premultiply (p + k) 3 (p + q - 1) (n - q + 1) P H) in *.
  set (H2 := PostMultiply p r (p + k) 3 H1 P) in *.
  assert (Hq : (1 <= q /\ k <= q /\ (q = 1 \/ q = k) /\ q <= n)%nat) by (unfold q; lia).
  assert (Hr : (r <= n /\ r <= k + 4 /\ (r = n \/ r = k + 4) /\ k + 2 < r)%nat)
    by (unfold r; lia).
  clearbody q r.
  assert (Zcol : forall l j, (l < 3)%nat -> (j < q - 1)%nat ->
            H (p + k + l)%nat (p + j)%nat = 0).
  { intros l j Hl Hj. rewrite <- Nat.add_assoc. apply (B (k + l)%nat j); lia. }
  assert (H1out : forall i j, (i < k \/ k + 3 <= i)%nat -> sub p H1 i j = sub p H i j).
  { intros i j Hi. unfold sub, H1. apply Premultiply_row. lia. }
  assert (Zrow : forall i l, (k + 4 <= i < n)%nat -> (l < 3)%nat -> sub p H1 i (k + l)%nat = 0).
  { intros i l Hi Hl. rewrite H1out by lia. apply B; lia. }
  assert (B2 : bulge n (S k) (sub p H2)).
  { intros i j Hi Hij X1 X2.
    destruct (le_lt_dec k j) as [Hkj|Hkj]; [destruct (le_lt_dec (k + 3) j) as [Hj3|Hj3]|].
    - unfold sub, H2. rewrite PostMultiply_row by lia.
      change (sub p H1 i j = 0). rewrite H1out by lia. apply B; lia.
    - assert (k + 4 <= i)%nat by lia. unfold sub, H2. apply PostMultiply_zero_row.
      + intros l Hl. rewrite <- Nat.add_assoc. apply (Zrow i l); lia.
      + replace (p + j)%nat with (p + (k + (j - k)))%nat by lia. apply (Zrow i (j - k)%nat); lia.
    - unfold sub, H2. rewrite PostMultiply_row by lia.
      destruct (le_lt_dec k i) as [Hki|Hki]; [destruct (le_lt_dec (k + 3) i) as [Hi3|Hi3]|].
      + change (sub p H1 i j = 0). rewrite H1out by lia. apply B; lia.
      + destruct (Nat.eq_dec j (k - 1)) as [->|Nj].
        * assert (1 <= k)%nat by lia. assert (q = k) by lia. subst q.
          replace (p + i)%nat with (p + k + (i - k))%nat by lia. unfold H1.
          rewrite Premultiply_column by lia.
          assert (HX : forall l, (l < 3)%nat ->
                    H (p + k + l)%nat (p + (k - 1))%nat = xyz_vector (x, y, z) l).
          { intros [|[|[|l]]] Hl; try lia; cbn [xyz_vector].
            - rewrite Ix by lia. unfold sub. f_equal. lia.
            - rewrite Iy by lia. unfold sub. f_equal. lia.
            - rewrite Iz by lia. unfold sub. f_equal. lia. }
          rewrite <- (K 3%nat _ P ltac:(lia) EP (i - k)%nat) by lia.
          unfold reflect_vector. rewrite HX by lia. f_equal. f_equal.
          apply rsum_ext. intros l Hl. rewrite HX by assumption. reflexivity.
        * unfold H1. apply Premultiply_zero_column.
          { intros l Hl. apply Zcol; lia. }
          { apply (B i j); lia. }
      + change (sub p H1 i j = 0). rewrite H1out by lia. apply B; lia. }
  injection E as <-. constructor; cbn [fst snd].
  - exact B2.
  - intros _. unfold sub. f_equal; lia.
  - intros _. unfold sub. f_equal; lia.
  - intros _ Hn. destruct (Nat.ltb_spec k (n - 3)); [|lia].
    unfold sub. f_equal; lia.
  - intros S. specialize (Is S). eapply similar_trans; [exact Is|].
    apply (reflection_similar n (embed k 3 P)).
    + apply embed_proper; [lia|]. eapply (K' S); [|exact EP]; lia.
    + intros i j Hi Hj. unfold H2. rewrite (PostMultiply_sub p n) by
        (try lia; intros a b Ha Hb; rewrite <- Nat.add_assoc; apply (Zrow a b); lia).
      apply rsum_ext. intros l Hl. f_equal. unfold H1.
      replace (p + q - 1)%nat with (p + (q - 1))%nat by lia.
      apply (Premultiply_sub p n); try lia. intros a b Ha Hb. apply Zcol; lia.
  - intros i j Hij. unfold H2, H1.
    rewrite PostMultiply_row by lia. rewrite Premultiply_row by lia. apply Io. lia.
Qed.

Lemma francis_correct : forall (shape : Prop) reflect p n H H',
  kills reflect -> (shape -> all_proper reflect) -> (3 <= n)%nat ->
  upper_hessenberg n (sub p H) -> francis_with reflect p n H = Some H' ->
  upper_hessenberg n (sub p H') /\
  (shape -> orthogonally_similar n (sub p H) (sub p H')) /\
  (forall i j, (i < p \/ p + n <= i \/ j < p \/ p + n <= j)%nat -> H' i j = H i j).
Proof.
  intros shape reflect p n H H' K K' Hn Hh E. unfold francis_with in E.
  destruct (option_loop _ _ _ _) as [[H1 [[x y] z]]|] eqn:EL; [|discriminate].
  assert (I : francis_inv shape p n H (0 + (n - 2)) (H1, (x, y, z))).
  { eapply option_loop_inv with (I := francis_inv shape p n H); [| |exact EL].
    - intros i s s' Hi I B. eapply francis_body_inv; eauto. lia.
    - constructor; cbn [fst snd]; try (intros; lia).
      + intros i j Hi Hij _ _. apply Hh; assumption.
      + intros _. apply similar_refl.
      + reflexivity. }
  cbn [Nat.add] in I. destruct I as [B Ix Iy _ Is Io]. cbn [fst snd] in *.
  destruct (reflect 2%nat _) as [P|] eqn:EP; [|discriminate].
  set (H2 := Premultiply (p + n - 2) 2 (p + n - 3) 3 P H1) in *.
  injection E as <-.
  assert (Zcol : forall l j, (l < 2)%nat -> (j < n - 3)%nat ->
            H1 (p + n - 2 + l)%nat (p + j)%nat = 0).
  { intros l j Hl Hj. replace (p + n - 2 + l)%nat with (p + (n - 2 + l))%nat by lia.
    apply (B (n - 2 + l)%nat j); lia. }
  split; [|split].
  - intros i j Hi Hij. unfold sub. rewrite PostMultiply_row by lia.
    destruct (le_lt_dec (n - 2) i) as [Hi2|Hi2].
    + destruct (Nat.eq_dec j (n - 3)) as [->|Nj].
      * replace (p + i)%nat with (p + n - 2 + (i - (n - 2)))%nat by lia. unfold H2.
        rewrite Premultiply_column by lia.
        assert (HX : forall l, (l < 2)%nat ->
                  H1 (p + n - 2 + l)%nat (p + (n - 3))%nat
                  = (if (l =? 0)%nat then x else y)).
        { intros [|[|l]] Hl; try lia; cbn [Nat.eqb].
          - rewrite Ix by lia. unfold sub. f_equal; lia.
          - rewrite Iy by lia. unfold sub. f_equal; lia. }
        rewrite <- (K 2%nat _ P ltac:(lia) EP (i - (n - 2))%nat) by lia.
        unfold reflect_vector. rewrite HX by lia. f_equal. f_equal.
        apply rsum_ext. intros l Hl. rewrite HX by assumption. reflexivity.
      * unfold H2. apply Premultiply_zero_column.
        { intros l Hl. apply Zcol; lia. }
        { apply (B i j); lia. }
    + unfold H2. rewrite Premultiply_row by lia. apply (B i j); lia.
  - intros S. specialize (Is S). eapply similar_trans; [exact Is|].
    apply (reflection_similar n (embed (n - 2) 2 P)).
    + apply embed_proper; [lia|]. eapply (K' S); [|exact EP]; lia.
    + intros i j Hi Hj. replace (p + n - 2)%nat with (p + (n - 2))%nat by lia.
      rewrite (PostMultiply_sub p n) by (try lia; intros; lia).
      apply rsum_ext. intros l Hl. f_equal. unfold H2.
      replace (p + n - 2)%nat with (p + (n - 2))%nat by lia.
      replace (p + n - 3)%nat with (p + (n - 3))%nat by lia.
      apply (Premultiply_sub p n); try lia.
      intros a b Ha Hb. replace (p + (n - 2) + a)%nat with (p + n - 2 + a)%nat by lia.
      apply Zcol; lia.
  - intros i j Hij. rewrite PostMultiply_row by lia. unfold H2.
    rewrite Premultiply_row by lia. apply Io. lia.
Qed.

Lemma francis_checked : forall p n H H',
  francis_with checked p n H = Some H' -> FrancisQRStep p n H = Some H'.
Proof.
  intros p n H H' E. unfold FrancisQRStep, francis_with in *.
  destruct (option_loop _ _ (francis_body checked p n) _) as [[H1 [[x y] z]]|] eqn:EL;
    [|discriminate].
  assert (EL' : option_loop 0 (n - 2) (francis_body ComputeHouseholderReflection p n)
                  (H, francis_first p n H) = Some (H1, (x, y, z))).
  { clear E. eapply option_loop_mono; [|exact EL]. clear EL.
    intros i [G [[a b] c]] s' B. unfold francis_body in *.
    destruct (checked _ _) as [P|] eqn:EP; [|discriminate].
    apply checked_householder in EP. rewrite EP. exact B. }
  rewrite EL'.
  destruct (checked _ _) as [P|] eqn:EP; [|discriminate].
  apply checked_householder in EP.
  match type of EP with ?l = _ => match goal with |- context [match ?l' with Some _ => _ | None => _ end] =>
    change l' with l end end.
  rewrite EP. exact E.
Qed.

(* ------------------------------------------------------------ deflation *)

Lemma deflate_spec : forall count i eps H k l,
  (1 <= i)%nat ->
  deflate i count eps H k l = H k l \/ (deflate i count eps H k l = 0 /\ l = (k - 1)%nat).
Proof.
  induction count as [|c IH]; intros i eps H k l Hi; cbn [deflate]; [left; reflexivity|].
  match goal with |- context [deflate (S i) c eps ?G] => set (H' := G) end.
  assert (X : H' k l = H k l \/ (H' k l = 0 /\ l = (k - 1)%nat)).
  { unfold H'. destruct (Rle_dec _ _); [|left; reflexivity].
    destruct (Nat.eqb_spec k i); destruct (Nat.eqb_spec l (i - 1)); cbn [andb];
      try (left; reflexivity). right. split; [reflexivity|lia]. }
  destruct (IH (S i) eps H' k l ltac:(lia)) as [->|[E1 E2]]; [exact X|].
  right; split; assumption.
Qed.

Lemma deflate_hessenberg : forall n i count eps H,
  (1 <= i)%nat -> upper_hessenberg n H -> upper_hessenberg n (deflate i count eps H).
Proof.
  intros n i count eps H Hi Hh a b Ha Hab.
  destruct (deflate_spec count i eps H a b Hi) as [->|[E _]]; [apply Hh; assumption|exact E].
Qed.

(* What the search of q establishes: [q] rows at the end are quasi-triangular and
   decoupled, and if it is not the entire matrix the block above ends with two
   nonzero elements. *)
Definition q_spec (n : nat) (H : rmatrix) (q : nat) :=
  (q <= n)%nat /\
  ((0 < q < n)%nat -> sd H (n - q)%nat = 0) /\
  (forall j, (n - q < j)%nat -> (S j < n)%nat -> sd H j = 0 \/ sd H (S j) = 0) /\
  (q = n \/ (q + 3 <= n)%nat /\ sd H (n - q - 1)%nat <> 0 /\ sd H (n - q - 2)%nat <> 0).

Lemma find_q_spec : forall n H count i (has : bool) q,
  (1 <= i)%nat -> (i + count = S n)%nat ->
  (if has then (i = q + 2)%nat /\ sd H (n - (i - 1))%nat <> 0 else i = S q) ->
  ((0 < q < n)%nat -> sd H (n - q)%nat = 0) ->
  (forall j, (n - q < j)%nat -> (S j < n)%nat -> sd H j = 0 \/ sd H (S j) = 0) ->
  (has = true -> (i <= n)%nat) ->
  q_spec n H (find_q n H i count has q).
Proof.
  intros n H count; induction count as [|c IH];
    intros i has q Hi Hc Hh Hq HQ Hin; cbn [find_q].
  - destruct has; [lia|].
    split; [lia|]. split; [exact Hq|]. split; [exact HQ|]. left. lia.
  - destruct (Nat.eqb_spec i n) as [->|Nin].
    + apply IH; try lia; try (intros; lia); try discriminate.
      intros j Hj1 Hj2.
      destruct has.
      * destruct (Nat.eq_dec j 1) as [->|].
        { destruct Hh as [Hh _]. destruct (Nat.eq_dec (n - q) 1); [lia|].
          destruct (le_lt_dec n 2); [lia|].
          (* n = q + 2, so that n - q = 2 *)
          right. replace 2%nat with (n - q)%nat by lia. apply Hq. lia. }
        { destruct (Nat.eq_dec j (n - q)) as [->|].
          - left. apply Hq. lia.
          - apply HQ; lia. }
      * destruct (Nat.eq_dec j (n - q)) as [->|].
        { left. apply Hq. lia. }
        { apply HQ; lia. }
    + destruct (Req_EM_T (H (n - i)%nat (n - i - 1)%nat) 0) as [Z|NZ].
      * apply IH; try lia.
        { intros _. exact Z. }
        { intros j Hj1 Hj2. destruct has.
          - destruct Hh as [Hh _].
            destruct (Nat.eq_dec j (n - i + 1)) as [->|].
            + right. replace (S (n - i + 1)) with (n - q)%nat by lia. apply Hq. lia.
            + destruct (Nat.eq_dec j (n - q)) as [->|]; [left; apply Hq; lia|].
              apply HQ; lia.
          - destruct (Nat.eq_dec j (n - q)) as [->|]; [left; apply Hq; lia|].
            apply HQ; lia. }
      * destruct has.
        { destruct Hh as [Hh Hs]. split; [lia|]. split; [exact Hq|]. split; [exact HQ|].
          right. split; [lia|]. split.
          - replace (n - q - 1)%nat with (n - (i - 1))%nat by lia. exact Hs.
          - replace (n - q - 2)%nat with (n - i)%nat by lia. exact NZ. }
        { apply IH; try lia; try assumption.
          split; [lia|]. replace (S i - 1)%nat with i by lia. exact NZ. }
Qed.

Lemma find_p_spec : forall H k,
  (find_p H k <= k)%nat /\
  (find_p H k = 0%nat \/ sd H (find_p H k) = 0) /\
  (forall j, (find_p H k < j <= k)%nat -> sd H j <> 0).
Proof.
  intros H k; induction k as [|k (I1 & I2 & I3)]; cbn [find_p].
  - split; [lia|]. split; [left; reflexivity|]. intros; lia.
  - destruct (Req_EM_T (H (S k) k) 0) as [Z|NZ].
    + split; [lia|]. split.
      * right. unfold sd. replace (S k - 1)%nat with k by lia. exact Z.
      * intros; lia.
    + split; [lia|]. split; [exact I2|]. intros j Hj.
      destruct (Nat.eq_dec j (S k)) as [->|]; [|apply I3; lia].
      unfold sd. replace (S k - 1)%nat with k by lia. exact NZ.
Qed.

(* The block that is given to FrancisQRStep. *)
Lemma schur_block : forall n H q p,
  q = find_q n H 1 n false 0 -> q <> n -> p = find_p H (n - q - 1) ->
  (p + 3 <= n - q)%nat /\
  (p = 0%nat \/ sd H p = 0) /\
  (forall j, (p < j < n - q)%nat -> sd H j <> 0) /\
  (q = 0%nat \/ sd H (n - q)%nat = 0).
Proof.
  intros n H q p Eq Nq Ep.
  assert (Q : q_spec n H q).
  { rewrite Eq. apply find_q_spec; try lia; try discriminate; try (intros; lia). }
  destruct Q as (Q1 & Q2 & Q3 & [Q4|(Q4 & Q5 & Q6)]); [contradiction|].
  destruct (find_p_spec H (n - q - 1)) as (P1 & P2 & P3). rewrite <- Ep in *.
  assert (p < n - q - 2)%nat.
  { destruct (Nat.eq_dec p (n - q - 1)) as [E|].
    - destruct P2 as [P2|P2]; [lia|]. rewrite E in P2. contradiction.
    - destruct (Nat.eq_dec p (n - q - 2)) as [E|]; [|lia].
      destruct P2 as [P2|P2]; [|rewrite E in P2; contradiction]. lia. }
  split; [lia|]. split; [exact P2|]. split; [intros; apply P3; lia|].
  destruct (Nat.eq_dec q 0) as [|]; [left; assumption|right; apply Q2; lia].
Qed.

(* The shape of the result of the loop. *)
Lemma schur_loop_shape : forall fuel n eps H T,
  upper_hessenberg n H -> schur_loop fuel n eps H = Some (Some T) ->
  upper_hessenberg n T /\
  forall j, (0 < j)%nat -> (S j < n)%nat -> sd T j = 0 \/ sd T (S j) = 0.
Proof.
  induction fuel as [|fuel IH]; intros n eps H T Hh E; cbn [schur_loop] in E;
    [discriminate|].
  set (H1 := deflate 1 (n - 1) eps H) in *.
  assert (Hh1 : upper_hessenberg n H1) by (apply deflate_hessenberg; [lia|assumption]).
  destruct (Nat.eqb_spec (find_q n H1 1 n false 0) n) as [Eq|Nq].
  - injection E as <-. split; [assumption|].
    assert (Q : q_spec n H1 n).
    { rewrite <- Eq at 2. apply find_q_spec; try lia; try discriminate; try (intros; lia). }
    destruct Q as (_ & _ & Q & _). intros j Hj1 Hj2. apply Q; lia.
  - set (q := find_q n H1 1 n false 0) in *.
    set (p := find_p H1 (n - q - 1)) in *.
    destruct (schur_block n H1 q p eq_refl Nq eq_refl) as (B1 & B2 & B3 & B4).
    destruct (FrancisQRStep p (n - q - p) H1) as [H2|] eqn:EF; [|discriminate].
    apply (IH n eps H2 T); [|exact E].
    destruct (francis_correct False ComputeHouseholderReflection p (n - q - p) H1 H2)
      as (F1 & _ & F3).
    + exact householder_kills.
    + tauto.
    + lia.
    + intros i j Hi Hij. apply Hh1; lia.
    + exact EF.
    + intros i j Hi Hij.
      destruct (le_lt_dec p j) as [Hpj|Hpj].
      * destruct (le_lt_dec (n - q) i) as [Hqi|Hqi].
        { rewrite F3 by lia. apply Hh1; assumption. }
        { replace i with (p + (i - p))%nat by lia. replace j with (p + (j - p))%nat by lia.
          apply (F1 (i - p)%nat (j - p)%nat); lia. }
      * rewrite F3 by lia. apply Hh1; assumption.
Qed.
