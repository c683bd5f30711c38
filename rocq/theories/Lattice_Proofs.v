(* The orthogonalization. *)
From Coq Require Import ZArith QArith Qcanon Qcabs Bool Arith Lia Lqa.
From Verif Require Import Matrix_Model Matrix_Spec Matrix_Proofs Lattice_Model Lattice_Spec.
Local Open Scope nat_scope.

(* Goals about the order of canonical fractions, by rational arithmetic. *)
Ltac toQ :=
  unfold Qcle, Qclt, Qcplus, Qcmult, Qcminus, Qcopp, Qcplus in *;
  cbn [this Q2Qc] in *; rewrite ?Qred_correct in *.

Lemma Qc_eq_Q : forall a b : Qc, a = b <-> (this a == this b)%Q.
Proof.
  intros a b. split; [intros ->; reflexivity|apply Qc_is_canon].
Qed.

Lemma Qc_square : forall a : Qc, (0 <= a * a)%Qc.
Proof. intros a. toQ. nra. Qed.

Lemma Qc_square_0 : forall a : Qc, (a * a = 0 -> a = 0)%Qc.
Proof.
  intros a H. apply Qcmult_integral in H. tauto.
Qed.

Lemma loop_add : forall (f : nat -> Qc) count a s,
  loop a count (fun j s => (s + f j)%Qc) s
  = (s + sum count (fun j => f (a + j)%nat))%Qc.
Proof.
  intros f count; induction count as [|c IH]; intros a s.
  - cbn. ring.
  - cbn [loop]. rewrite IH, sum_first, Nat.add_0_r.
    rewrite (sum_ext c (fun j => f (S a + j)) (fun i => f (a + S i)))
      by (intros; f_equal; lia).
    ring.
Qed.

Lemma dot_inner : forall m x y, dot m x y = inner m x y.
Proof.
  intros m x y. unfold dot, inner.
  rewrite (loop_add (fun i => (x i * y i)%Qc)). cbn [Nat.add]. ring.
Qed.

Lemma inner_ext : forall m x x' y y',
  (forall i, i < m -> x i = x' i) -> (forall i, i < m -> y i = y' i) ->
  inner m x y = inner m x' y'.
Proof.
  intros m x x' y y' H1 H2. apply sum_ext. intros i Hi. rewrite H1, H2 by assumption.
  reflexivity.
Qed.

Lemma inner_sym : forall m x y, inner m x y = inner m y x.
Proof. intros. apply sum_ext. intros; ring. Qed.

Lemma inner_nonneg : forall m x, (0 <= inner m x x)%Qc.
Proof.
  unfold inner. induction m as [|m IH]; intros x; cbn [sum]; [apply Qcle_refl|].
  pose proof (IH x). pose proof (Qc_square (x m)).
  replace 0%Qc with (0 + 0)%Qc by ring. apply Qcplus_le_compat; assumption.
Qed.

Lemma inner_zero : forall m x, inner m x x = 0%Qc -> forall i, i < m -> x i = 0%Qc.
Proof.
  unfold inner. induction m as [|m IH]; intros x H i Hi; [lia|]. cbn [sum] in H.
  pose proof (inner_nonneg m x) as P. unfold inner in P. pose proof (Qc_square (x m)) as P'.
  assert (Z1 : (x m * x m)%Qc = 0%Qc).
  { apply Qc_eq_Q in H. apply Qc_eq_Q. revert H P P'.
    generalize (sum m (fun i => x i * x i)%Qc) as a. generalize (x m * x m)%Qc as b.
    intros b a H P P'. toQ. lra. }
  assert (Z2 : sum m (fun i => x i * x i)%Qc = 0%Qc).
  { rewrite Z1 in H. rewrite <- H. ring. }
  destruct (Nat.eq_dec i m) as [->|]; [apply Qc_square_0; assumption|apply IH; [assumption|lia]].
Qed.

Lemma inner_zero_l : forall m x y, inner m x x = 0%Qc -> inner m x y = 0%Qc.
Proof.
  intros m x y H. apply sum_0. intros i Hi. rewrite (inner_zero m x H i Hi). ring.
Qed.

Lemma inner_minus_r : forall m x y z,
  inner m x (fun i => y i - z i)%Qc = (inner m x y - inner m x z)%Qc.
Proof.
  intros. unfold inner. rewrite <- sum_minus. apply sum_ext. intros; ring.
Qed.

Lemma inner_plus_r : forall m x y z,
  inner m x (fun i => y i + z i)%Qc = (inner m x y + inner m x z)%Qc.
Proof.
  intros. unfold inner. rewrite <- sum_plus. apply sum_ext. intros; ring.
Qed.

Lemma inner_scale_r : forall m x c y,
  inner m x (fun i => c * y i)%Qc = (c * inner m x y)%Qc.
Proof.
  intros. unfold inner. rewrite <- sum_scale. apply sum_ext. intros; ring.
Qed.

Lemma inner_sum_r : forall m x k c (y : nat -> vector),
  inner m x (fun i => sum k (fun l => c l * y l i))%Qc
  = sum k (fun l => c l * inner m x (y l))%Qc.
Proof.
  intros m x k c y. unfold inner.
  rewrite (sum_ext m _ (fun i => sum k (fun l => c l * (x i * y l i)))%Qc).
  - rewrite sum_exchange. apply sum_ext. intros l _. rewrite sum_scale. reflexivity.
  - intros i _. rewrite <- sum_scale. apply sum_ext. intros; ring.
Qed.

Lemma coef_ext : forall m q q' a a',
  (forall i, i < m -> q i = q' i) -> (forall i, i < m -> a i = a' i) ->
  coef m q a = coef m q' a'.
Proof.
  intros m q q' a a' H1 H2. unfold coef.
  rewrite (inner_ext m q q' q q'), (inner_ext m q q' a a') by assumption. reflexivity.
Qed.

Lemma coef_inner : forall m q a, (coef m q a * inner m q q)%Qc = inner m q a.
Proof.
  intros m q a. unfold coef. destruct (Qc_eq_dec (inner m q q) 0) as [Z|N].
  - rewrite (inner_zero_l m q a Z). ring.
  - field. assumption.
Qed.

Lemma coef_minus : forall m q a b r,
  coef m q (fun i => a i - r * b i)%Qc = (coef m q a - r * coef m q b)%Qc.
Proof.
  intros m q a b r. unfold coef. destruct (Qc_eq_dec (inner m q q) 0) as [Z|N]; [ring|].
  rewrite (inner_minus_r m q a (fun i => (r * b i)%Qc)), inner_scale_r. field. assumption.
Qed.

(* ------------------------------------------------------------------- star *)

Lemma stars_star : forall m A j k, k < j -> stars m A j k = star m A k.
Proof.
  intros m A j k; induction j as [|j IH]; intros H; [lia|].
  cbn [stars]. destruct (Nat.eqb_spec k j) as [->|N].
  - unfold star. cbn [stars]. rewrite Nat.eqb_refl. reflexivity.
  - apply IH. lia.
Qed.

Lemma star_eq : forall m A j i,
  star m A j i = (A i j - sum j (fun l => mu m A l j * star m A l i))%Qc.
Proof.
  intros m A j i. unfold star at 1. cbn [stars]. rewrite Nat.eqb_refl. f_equal.
  apply sum_ext. intros l Hl. rewrite stars_star by assumption. reflexivity.
Qed.

(* The first vectors only depend on the first columns. *)
Lemma star_prefix : forall m A B j,
  (forall c i, c <= j -> A i c = B i c) -> forall i, star m A j i = star m B j i.
Proof.
  intros m A B j. induction j as [j IH] using lt_wf_ind. intros H i.
  rewrite !star_eq, H by lia. f_equal. apply sum_ext. intros l Hl.
  rewrite (IH l Hl) by (intros; apply H; lia). f_equal.
  apply coef_ext; intros; [apply (IH l Hl); intros; apply H; lia|apply H; lia].
Qed.

Lemma mu_prefix : forall m A B l j,
  l < j -> (forall c i, c <= j -> A i c = B i c) -> mu m A l j = mu m B l j.
Proof.
  intros m A B l j Hl H. apply coef_ext; intros.
  - apply star_prefix. intros; apply H; lia.
  - apply H; lia.
Qed.

Lemma star_orthogonal_lt : forall m A j i,
  i < j -> inner m (star m A i) (star m A j) = 0%Qc.
Proof.
  intros m A j. induction j as [j IH] using lt_wf_ind. intros i Hi.
  rewrite (inner_ext m _ (star m A i) _
             (fun r => A r j - sum j (fun l => mu m A l j * star m A l r))%Qc)
    by (intros; try reflexivity; apply star_eq).
  rewrite inner_minus_r, inner_sum_r.
  rewrite (sum_single j i).
  - unfold mu. rewrite coef_inner. ring.
  - assumption.
  - intros l Hl Nl. destruct (le_lt_dec l i).
    + rewrite inner_sym, (IH i Hi l) by lia. ring.
    + rewrite (IH l Hl i) by lia. ring.
Qed.

Lemma star_orthogonal : forall m A i j,
  i <> j -> inner m (star m A i) (star m A j) = 0%Qc.
Proof.
  intros m A i j N. destruct (le_lt_dec i j).
  - apply star_orthogonal_lt. lia.
  - rewrite inner_sym. apply star_orthogonal_lt. lia.
Qed.

(* The column j is a combination of the first j + 1 vectors. *)
Lemma column_star : forall m A j i,
  A i j = (star m A j i + sum j (fun l => mu m A l j * star m A l i))%Qc.
Proof. intros. rewrite star_eq. ring. Qed.

Lemma inner_star_column : forall m A l j,
  inner m (star m A l) (fun i => A i j)
  = (inner m (star m A l) (star m A j)
     + sum j (fun k => mu m A k j * inner m (star m A l) (star m A k)))%Qc.
Proof.
  intros m A l j.
  rewrite (inner_ext m _ (star m A l) _
             (fun i => star m A j i + sum j (fun k => mu m A k j * star m A k i))%Qc)
    by (intros; try reflexivity; apply column_star).
  rewrite inner_plus_r, inner_sum_r. reflexivity.
Qed.

Lemma star_above : forall m A l j, j < l ->
  inner m (star m A l) (fun i => A i j) = 0%Qc.
Proof.
  intros m A l j H. rewrite inner_star_column, star_orthogonal, sum_0 by
    (intros; try (rewrite star_orthogonal by lia; ring); lia). ring.
Qed.

Lemma mu_above : forall m A l j, j < l -> mu m A l j = 0%Qc.
Proof.
  intros m A l j H. unfold mu, coef. rewrite star_above by assumption.
  destruct (Qc_eq_dec _ 0); [reflexivity|]. unfold Qcdiv. ring.
Qed.

Lemma star_diagonal : forall m A j,
  inner m (star m A j) (fun i => A i j) = inner m (star m A j) (star m A j).
Proof.
  intros m A j. rewrite inner_star_column, sum_0; [ring|].
  intros k Hk. rewrite star_orthogonal by lia. ring.
Qed.

Lemma mu_diagonal : forall m A j,
  inner m (star m A j) (star m A j) <> 0%Qc -> mu m A j j = 1%Qc.
Proof.
  intros m A j H. unfold mu, coef.
  destruct (Qc_eq_dec (inner m (star m A j) (star m A j)) 0); [contradiction|].
  rewrite star_diagonal. field. assumption.
Qed.

(* The part of column j in the span of the first k vectors is column j, if j < k. *)
Lemma column_span : forall m A j k i, j < k -> i < m ->
  sum k (fun l => mu m A l j * star m A l i)%Qc = A i j.
Proof.
  intros m A j k i H Hi. replace k with (S j + (k - S j)) by lia. rewrite sum_split.
  rewrite (sum_0 (k - S j)) by (intros; rewrite mu_above by lia; ring).
  cbn [sum]. rewrite (column_star m A j i).
  assert (E : (mu m A j j * star m A j i)%Qc = star m A j i).
  { destruct (Qc_eq_dec (inner m (star m A j) (star m A j)) 0) as [Z|N].
    - rewrite (inner_zero m _ Z i Hi). ring.
    - rewrite mu_diagonal by assumption. ring. }
  rewrite E. ring.
Qed.

(* ------------------------------------------- UnitriangularGramSchmidt *)

Lemma gram_schmidt_R_spec : forall m j A Q R,
  (forall l i, l < j -> Q i l = star m A l i) ->
  let R' := gram_schmidt_R m j A Q R in
  (forall l, l < j -> R' l j = mu m A l j) /\
  (forall l c, c <> j -> R' l c = R l c).
Proof.
  intros m j A Q R H. unfold gram_schmidt_R. cbv zeta.
  match goal with |- context [loop 0 j ?b R] => set (body := b) end.
  assert (I : (fun k R' => (forall l, l < k -> R' l j = mu m A l j) /\
              (forall l c, c <> j -> R' l c = R l c)) (0 + j) (loop 0 j body R)).
  { apply loop_inv.
    - intros i s Hi [I1 I2]. unfold body. split.
      + intros l Hl. destruct (Nat.eq_dec l i) as [->|].
        * rewrite mset_same, !dot_inner. unfold mu, coef, column.
          rewrite (inner_ext m (fun i0 => Q i0 i) (star m A i) (fun i0 => Q i0 i) (star m A i))
            by (intros; apply H; lia).
          rewrite (inner_ext m (fun i0 => Q i0 i) (star m A i) (fun i0 => A i0 j) (fun i0 => A i0 j))
            by (intros; try reflexivity; apply H; lia).
          reflexivity.
        * rewrite mset_other by lia. apply I1. lia.
      + intros l c Hc. rewrite mset_other by lia. apply I2. assumption.
    - split; [intros; lia|reflexivity]. }
  exact I.
Qed.

Lemma gram_schmidt_Q_spec : forall j A Q R,
  let Q' := gram_schmidt_Q j A Q R in
  (forall i, Q' i j = A i j - sum j (fun l => R l j * Q i l))%Qc /\
  (forall i c, c <> j -> Q' i c = Q i c).
Proof.
  intros j A Q R. unfold gram_schmidt_Q. cbv zeta.
  match goal with |- context [loop 0 j ?b ?s] => set (body := b); set (s0 := s) end.
  assert (I : (fun k Q' => (forall i, Q' i j = A i j - sum k (fun l => R l j * Q i l))%Qc /\
              (forall i c, c <> j -> Q' i c = Q i c)) (0 + j) (loop 0 j body s0)).
  { apply loop_inv.
    - intros k s Hk [I1 I2]. unfold body, set_column. split.
      + intros i. rewrite Nat.eqb_refl, I1, (I2 i k) by lia. cbn [sum]. ring.
      + intros i c Hc. destruct (Nat.eqb_spec c j); [contradiction|]. apply I2. assumption.
    - unfold s0, set_column, column. split.
      + intros i. rewrite Nat.eqb_refl. cbn [sum]. ring.
      + intros i c Hc. destruct (Nat.eqb_spec c j); [contradiction|reflexivity]. }
  exact I.
Qed.

Lemma gram_schmidt_spec : forall m n A junk Q R,
  UnitriangularGramSchmidt m n A junk = (Q, R) ->
  (forall j i, j < n -> Q i j = star m A j i) /\
  (forall l j, l < j < n -> R l j = mu m A l j) /\
  (forall j, j < n -> R j j = 1%Qc).
Proof.
  intros m n A junk Q R E. unfold UnitriangularGramSchmidt in E.
  match type of E with loop 0 n ?b junk = _ => set (body := b) in E end.
  assert (I : (fun k (s : matrix * matrix) =>
    (forall j i, j < k -> fst s i j = star m A j i) /\
    (forall l j, l < j < k -> snd s l j = mu m A l j) /\
    (forall j, j < k -> snd s j j = 1%Qc)) (0 + n) (loop 0 n body junk)).
  { apply loop_inv.
    - intros k [Q0 R0] Hk (I1 & I2 & I3). cbn [fst snd] in *. unfold body. cbn [fst snd].
      destruct (gram_schmidt_R_spec m k A Q0 R0 ltac:(intros; apply I1; assumption))
        as [S1 S2].
      destruct (gram_schmidt_Q_spec k A Q0 (gram_schmidt_R m k A Q0 R0)) as [T1 T2].
      split; [|split].
      + intros j i Hj. destruct (Nat.eq_dec j k) as [->|].
        * rewrite T1, star_eq. f_equal. apply sum_ext. intros l Hl.
          rewrite S1, I1 by lia. reflexivity.
        * rewrite T2 by assumption. apply I1. lia.
      + intros l j Hlj. rewrite mset_other by lia.
        destruct (Nat.eq_dec j k) as [->|]; [apply S1; lia|].
        rewrite S2 by assumption. apply I2. lia.
      + intros j Hj. destruct (Nat.eq_dec j k) as [->|]; [apply mset_same|].
        rewrite mset_other by lia. rewrite S2 by assumption. apply I3. lia.
    - repeat split; intros; lia. }
  rewrite E in I. exact I.
Qed.
