(* Proofs about factorizations. *)
From Coq Require Import Reals Bool Arith Lra Lia.
From Verif Require Import Eigen_Model Eigen_Spec Eigen_Proofs Cholesky_Model Cholesky_Spec.
Local Open Scope R_scope.

(* ---------------------------------------------------------------- loops *)

Lemma iterate_inv : forall (S : Type) (P : nat -> S -> Prop) f count start s s',
  P start s ->
  (forall i s s', (start <= i < start + count)%nat -> P i s -> f i s = Some s' -> P (Datatypes.S i) s') ->
  iterate start count f s = Some s' -> P (start + count)%nat s'.
Proof.
  intros S P f count. induction count as [|count IH]; intros start s s' H0 HS E; cbn [iterate] in E.
  - injection E as <-. rewrite Nat.add_0_r. exact H0.
  - destruct (f start s) as [s1|] eqn:E1; [|discriminate].
    replace (start + Datatypes.S count)%nat with (Datatypes.S start + count)%nat by lia.
    apply (IH (Datatypes.S start) s1 s'); [apply (HS start s s1); [lia|exact H0|exact E1]| |exact E].
    intros i a b Hi. apply HS. lia.
Qed.

Lemma iterate_total : forall (S : Type) (P : nat -> S -> Prop) f count start s,
  P start s ->
  (forall i s, (start <= i < start + count)%nat -> P i s ->
     exists s', f i s = Some s' /\ P (Datatypes.S i) s') ->
  exists s', iterate start count f s = Some s' /\ P (start + count)%nat s'.
Proof.
  intros S P f count. induction count as [|count IH]; intros start s H0 HS; cbn [iterate].
  - exists s. rewrite Nat.add_0_r. split; [reflexivity|exact H0].
  - destruct (HS start s) as (s1 & E1 & H1); [lia|exact H0|]. rewrite E1.
    replace (start + Datatypes.S count)%nat with (Datatypes.S start + count)%nat by lia.
    apply (IH (Datatypes.S start) s1 H1). intros i a Hi. apply HS. lia.
Qed.

Lemma set2_same : forall A i j v, set2 A i j v i j = v.
Proof. intros. unfold set2. rewrite !Nat.eqb_refl. reflexivity. Qed.
Lemma set2_other : forall A i j v a b, a <> i \/ b <> j -> set2 A i j v a b = A a b.
Proof.
  intros A i j v a b H. unfold set2.
  destruct (Nat.eqb_spec a i), (Nat.eqb_spec b j); try reflexivity. lia.
Qed.
Lemma set1_same : forall D i v, set1 D i v i = v.
Proof. intros. unfold set1. rewrite Nat.eqb_refl. reflexivity. Qed.
Lemma set1_other : forall D i v a, a <> i -> set1 D i v a = D a.
Proof. intros D i v a H. unfold set1. destruct (Nat.eqb_spec a i); [contradiction|reflexivity]. Qed.

Lemma divide_some : forall x y v, divide x y = Some v -> y <> 0 /\ v * y = x.
Proof.
  intros x y v. unfold divide. destruct (Req_EM_T y 0); [discriminate|].
  intros H. injection H as <-. split; [assumption|]. field. assumption.
Qed.
Lemma divide_total : forall x y, y <> 0 -> divide x y = Some (x / y).
Proof. intros x y H. unfold divide. destruct (Req_EM_T y 0); [contradiction|reflexivity]. Qed.

Lemma rsum_trunc : forall n m f, (m <= n)%nat ->
  (forall k, (m <= k < n)%nat -> f k = 0) -> rsum n f = rsum m f.
Proof.
  intros n m f H Z. replace n with (m + (n - m))%nat by lia. rewrite rsum_split.
  rewrite (rsum_0 (n - m)); [ring|]. intros i Hi. apply Z. lia.
Qed.

(* ---------------------------------------------------- triangular matrices *)

Definition upper_regular (m : nat) (U : rmatrix) :=
  (forall i j, (i < m)%nat -> (j < i)%nat -> U i j = 0) /\
  (forall i, (i < m)%nat -> U i i <> 0).

Lemma upper_regular_smaller : forall m m' U, (m' <= m)%nat -> upper_regular m U -> upper_regular m' U.
Proof. intros m m' U H [H1 H2]. split; intros; [apply H1|apply H2]; lia. Qed.

Lemma triangular_solve : forall m U b, upper_regular m U ->
  exists x, (forall i, (i < m)%nat -> rapply m U x i = b i) /\ forall i, (m <= i)%nat -> x i = 0.
Proof.
  induction m as [|m IH]; intros U b H.
  - exists (fun _ => 0). split; [intros i Hi; lia|reflexivity].
  - pose proof H as [HU HD]. pose proof (HD m ltac:(lia)) as Dm.
    set (xm := b m / U m m).
    destruct (IH U (fun i => b i - U i m * xm)) as (x & HX & HZ).
    { apply (upper_regular_smaller (S m)); [lia|exact H]. }
    exists (set1 x m xm). split.
    + intros i Hi. unfold rapply. cbn [rsum]. rewrite set1_same.
      rewrite (rsum_ext m _ (fun j => U i j * x j)).
      2: { intros j Hj. rewrite set1_other by lia. reflexivity. }
      destruct (Nat.eq_dec i m) as [->|N].
      * rewrite rsum_0; [unfold xm; field; exact Dm|]. intros j Hj. rewrite HU by lia. ring.
      * change (rsum m (fun j => U i j * x j)) with (rapply m U x i). rewrite HX by lia. ring.
    + intros i Hi. rewrite set1_other by lia. apply HZ. lia.
Qed.

Lemma triangular_injective : forall m U x, upper_regular m U ->
  (forall i, (i < m)%nat -> rapply m U x i = 0) -> forall i, (i < m)%nat -> x i = 0.
Proof.
  induction m as [|m IH]; intros U x H HX i Hi; [lia|]. pose proof H as [HU HD].
  assert (Xm : x m = 0).
  { pose proof (HX m ltac:(lia)) as E. unfold rapply in E. cbn [rsum] in E.
    rewrite rsum_0 in E; [|intros j Hj; rewrite HU by lia; ring].
    apply (Rmult_eq_reg_l (U m m)); [lra|apply HD; lia]. }
  destruct (Nat.eq_dec i m) as [->|N]; [exact Xm|].
  apply (IH U x); [apply (upper_regular_smaller (S m)); [lia|exact H]| |lia].
  intros k Hk. pose proof (HX k ltac:(lia)) as E. unfold rapply in E. cbn [rsum] in E.
  rewrite Xm in E. unfold rapply. lra.
Qed.

(* -------------------------------------------------------- factorizations *)

(* W = ᵗU d U. *)
Definition factored (m : nat) (W U : rmatrix) (d : rvector) :=
  forall a b, (a < m)%nat -> (b < m)%nat -> W a b = rsum m (fun l => U l a * d l * U l b).

Lemma form_factored : forall m W U d x, factored m W U d ->
  form m W x = rsum m (fun l => d l * (rapply m U x l * rapply m U x l)).
Proof.
  intros m W U d x H. unfold form.
  transitivity (rsum m (fun i => rsum m (fun l => d l * (U l i * x i) * rapply m U x l))).
  - apply rsum_ext. intros i Hi. unfold rapply.
    transitivity (rsum m (fun j => rsum m (fun l => d l * (U l i * x i) * (U l j * x j)))).
    + apply rsum_ext. intros j Hj. rewrite (H i j Hi Hj).
      rewrite <- rsum_scale, <- rsum_scale_r. apply rsum_ext. intros; ring.
    + rewrite rsum_exchange. apply rsum_ext. intros l Hl. rewrite rsum_scale. reflexivity.
  - rewrite rsum_exchange. apply rsum_ext. intros l Hl. rewrite rsum_scale_r.
    unfold rapply at 2. rewrite rsum_scale. ring.
Qed.

Lemma form_trunc : forall n m W x, (m <= n)%nat -> (forall i, (m <= i)%nat -> x i = 0) ->
  form n W x = form m W x.
Proof.
  intros n m W x H Z. unfold form. rewrite (rsum_trunc n m); [|exact H|].
  - apply rsum_ext. intros i Hi. apply rsum_trunc; [exact H|]. intros k Hk. rewrite (Z k) by lia. ring.
  - intros k Hk. apply rsum_0. intros i Hi. rewrite (Z k) by lia. ring.
Qed.

(* The pivots of a positive definite matrix are positive. *)
Lemma positive_pivot : forall n j W U d, (j < n)%nat -> positive_definite n W ->
  factored (S j) W U d -> upper_regular (S j) U -> 0 < d j.
Proof.
  intros n j W U d Hj PD F UR.
  destruct (triangular_solve (S j) U (fun i => delta i j) UR) as (x & HX & HZ).
  assert (E : form n W x = d j).
  { rewrite (form_trunc n (S j)) by (assumption || lia).
    rewrite (form_factored (S j) W U d x F). rewrite (rsum_single (S j) j).
    - rewrite HX by lia. unfold delta. rewrite Nat.eqb_refl. ring.
    - lia.
    - intros i Hi N. rewrite HX by exact Hi. unfold delta. destruct (Nat.eqb_spec i j); [contradiction|ring]. }
  rewrite <- E. apply PD. exists j. split; [exact Hj|]. intros Z.
  pose proof (HX j ltac:(lia)) as Y. unfold rapply in Y. cbn [rsum] in Y.
  rewrite rsum_0, Z in Y.
  - unfold delta in Y. rewrite Nat.eqb_refl in Y. lra.
  - intros i Hi. destruct UR as [HU _]. rewrite HU by lia. ring.
Qed.

(* And conversely. *)
Lemma positive_pivots : forall n W U d, factored n W U d -> upper_regular n U ->
  (forall i, (i < n)%nat -> 0 < d i) -> positive_definite n W.
Proof.
  intros n W U d F UR D x (i & Hi & N). rewrite (form_factored n W U d x F).
  set (g := fun l => d l * (rapply n U x l * rapply n U x l)).
  assert (P : forall l, (l < n)%nat -> 0 <= g l).
  { intros l Hl. unfold g. specialize (D l Hl). apply Rmult_le_pos; [lra|]. nra. }
  destruct (Rle_lt_or_eq_dec 0 (rsum n g) (rsum_nonneg n g P)) as [X|X]; [exact X|]. exfalso.
  apply N. apply (triangular_injective n U x UR); [|exact Hi]. intros l Hl.
  pose proof (rsum_zero_nonneg n g P (eq_sym X) l Hl) as Y. unfold g in Y. specialize (D l Hl).
  apply Rmult_integral in Y. destruct Y as [Y|Y]; [lra|]. nra.
Qed.

(* The elements of a factorization by an upper triangular matrix. *)
Definition elements (m : nat) (A r : rmatrix) (d : rvector) :=
  forall a b, (a <= b)%nat -> (b < m)%nat ->
    A a b = rsum (S a) (fun k => r k a * r k b * d k).

Lemma elements_factored : forall m A r d, elements m A r d -> factored m (whole A) (upper r) d.
Proof.
  intros m A r d H a b Ha Hb. unfold whole.
  rewrite (H (Nat.min a b) (Nat.max a b)) by lia. symmetry.
  rewrite (rsum_trunc m (S (Nat.min a b))) by
    (try lia; intros k Hk; unfold upper;
     destruct (Nat.leb_spec k a), (Nat.leb_spec k b); try lia; ring).
  apply rsum_ext. intros k Hk. unfold upper.
  destruct (Nat.leb_spec k a); [|lia]. destruct (Nat.leb_spec k b); [|lia].
  destruct (Nat.le_ge_cases a b).
  - rewrite Nat.min_l, Nat.max_r by lia. ring.
  - rewrite Nat.min_r, Nat.max_l by lia. ring.
Qed.

Lemma upper_regular_upper : forall m r, (forall i, (i < m)%nat -> r i i <> 0) ->
  upper_regular m (upper r).
Proof.
  intros m r H. split.
  - intros i j Hi Hj. unfold upper. destruct (Nat.leb_spec i j); [lia|reflexivity].
  - intros i Hi. unfold upper. rewrite Nat.leb_refl. apply H. exact Hi.
Qed.

(* -------------------------------------------------------------- Cholesky *)

Notation ones := (fun _ : nat => 1).

Definition column_elements (j i : nat) (A r : rmatrix) (d : rvector) :=
  forall a, (a < i)%nat -> A a j = rsum (S a) (fun k => r k a * r k j * d k).

Lemma cholesky_element_spec : forall A j i r r', (i < j)%nat ->
  elements j A r ones -> column_elements j i A r ones ->
  cholesky_element A j i r = Some r' ->
  elements j A r' ones /\ column_elements j (S i) A r' ones /\
  r i i <> 0 /\ (forall a b, b <> j -> r' a b = r a b).
Proof.
  intros A j i r r' Hij HE HC E. unfold cholesky_element in E.
  destruct (divide _ _) as [v|] eqn:ED; [|discriminate]. injection E as <-.
  apply divide_some in ED. destruct ED as [N V].
  split; [|split; [|split; [exact N|]]].
  - intros a b Hab Hb. rewrite (HE a b Hab Hb). apply rsum_ext. intros k Hk.
    rewrite !set2_other by lia. reflexivity.
  - intros a Ha. destruct (Nat.eq_dec a i) as [->|Na].
    + cbn [rsum]. rewrite set2_same, set2_other by lia.
      rewrite (rsum_ext i _ (fun k => r k i * r k j)).
      * lra.
      * intros k Hk. rewrite !set2_other by lia. ring.
    + rewrite (HC a) by lia. apply rsum_ext. intros k Hk. rewrite !set2_other by lia. reflexivity.
  - intros a b Hb. apply set2_other. right. exact Hb.
Qed.

Lemma cholesky_column_spec : forall A j r r',
  elements j A r ones -> (forall i, (i < j)%nat -> 0 <= r i i) ->
  cholesky_column A j r = Some r' ->
  elements (S j) A r' ones /\ (forall i, (i < S j)%nat -> 0 <= r' i i) /\
  (forall i, (i < j)%nat -> 0 < r' i i).
Proof.
  intros A j r r' HE HP E. unfold cholesky_column in E.
  destruct (iterate 0 j (cholesky_element A j) r) as [r1|] eqn:EI; [|discriminate].
  assert (I1 : elements j A r1 ones /\ column_elements j j A r1 ones /\
            (forall a, (a < j)%nat -> r1 a a <> 0) /\ (forall a b, b <> j -> r1 a b = r a b)).
  { apply (iterate_inv _ (fun i s => elements j A s ones /\ column_elements j i A s ones /\
      (forall a, (a < i)%nat -> s a a <> 0) /\ (forall a b, b <> j -> s a b = r a b)) (cholesky_element A j) j 0 r r1);
      [| |exact EI].
    - split; [exact HE|]. split; [intros a Ha; lia|]. split; [intros a Ha; lia|reflexivity].
    - intros i s s' Hi (J1 & J2 & J3 & J4) ES.
      destruct (cholesky_element_spec A j i s s' ltac:(lia) J1 J2 ES) as (K1 & K2 & K3 & K4).
      split; [exact K1|]. split; [exact K2|]. split.
      + intros a Ha. rewrite K4 by lia. destruct (Nat.eq_dec a i) as [->|N]; [exact K3|]. apply J3. lia.
      + intros a b Hb. rewrite K4 by exact Hb. apply J4. exact Hb. }
  destruct I1 as (J1 & J2 & J3 & J4).
  destruct (square_root _) as [v|] eqn:ES; [|discriminate]. injection E as <-.
  unfold square_root in ES. destruct (Rlt_dec _ 0) as [|NN]; [discriminate|]. injection ES as <-.
  set (s := A j j - rsum j (fun k => r1 k j * r1 k j)) in *.
  split; [|split].
  - intros a b Hab Hb. destruct (Nat.eq_dec b j) as [->|Nb].
    + destruct (Nat.eq_dec a j) as [->|Na].
      * cbn [rsum]. rewrite set2_same.
        rewrite (rsum_ext j _ (fun k => r1 k j * r1 k j)).
        2: { intros k Hk. rewrite !set2_other by lia. ring. }
        rewrite sqrt_sqrt by lra. unfold s. ring.
      * rewrite (J2 a) by lia. apply rsum_ext. intros k Hk. rewrite !set2_other by lia. reflexivity.
    + rewrite (J1 a b) by lia. apply rsum_ext. intros k Hk. rewrite !set2_other by lia. reflexivity.
  - intros i Hi. destruct (Nat.eq_dec i j) as [->|N]; [rewrite set2_same; apply sqrt_pos|].
    rewrite set2_other, J4 by lia. apply HP. lia.
  - intros i Hi. rewrite set2_other by lia. pose proof (J3 i Hi) as X. rewrite J4 in * by lia.
    specialize (HP i Hi). lra.
Qed.

Lemma cholesky_spec : forall n A junk r, CholeskyDecomposition n A junk = Some r ->
  elements n A r ones /\ (forall i, (i < n)%nat -> 0 <= r i i) /\
  (forall i, (S i < n)%nat -> 0 < r i i).
Proof.
  intros n A junk r E. unfold CholeskyDecomposition in E.
  apply (iterate_inv _ (fun j s => elements j A s ones /\ (forall i, (i < j)%nat -> 0 <= s i i) /\
     (forall i, (S i < j)%nat -> 0 < s i i)) (cholesky_column A) n 0 junk r); [| |exact E].
  - split; [intros a b _ Hb; lia|]. split; intros i Hi; lia.
  - intros j s s' _ (H1 & H2 & _) ES.
    destruct (cholesky_column_spec A j s s' H1 H2 ES) as (K1 & K2 & K3).
    split; [exact K1|]. split; [exact K2|]. intros i Hi. apply K3. lia.
Qed.

Lemma cholesky_element_total : forall A j i r, r i i <> 0 ->
  exists r', cholesky_element A j i r = Some r'.
Proof. intros A j i r H. unfold cholesky_element. rewrite divide_total by exact H. eexists. reflexivity. Qed.

Lemma cholesky_total : forall n A junk, positive_definite n (whole A) ->
  exists r, CholeskyDecomposition n A junk = Some r /\ forall i, (i < n)%nat -> 0 < r i i.
Proof.
  intros n A junk PD. unfold CholeskyDecomposition.
  destruct (iterate_total _ (fun j s => elements j A s ones /\ forall i, (i < j)%nat -> 0 < s i i)
              (cholesky_column A) n 0 junk) as (r & E & _ & H).
  - split; [intros a b _ Hb; lia|intros i Hi; lia].
  - intros j s Hj [H1 H2]. unfold cholesky_column.
    destruct (iterate_total _ (fun i r => elements j A r ones /\ column_elements j i A r ones /\
      (forall a b, b <> j -> r a b = s a b)) (cholesky_element A j) j 0 s) as (r1 & E1 & J1 & J2 & J4).
    + split; [exact H1|]. split; [intros a Ha; lia|reflexivity].
    + intros i r0 Hi (J1 & J2 & J4).
      assert (N : r0 i i <> 0) by (rewrite J4 by lia; specialize (H2 i ltac:(lia)); lra).
      destruct (cholesky_element_total A j i r0 N) as (r2 & E2). exists r2. split; [exact E2|].
      destruct (cholesky_element_spec A j i r0 r2 ltac:(lia) J1 J2 E2) as (K1 & K2 & _ & K4).
      split; [exact K1|]. split; [exact K2|].
      intros a b Hb. rewrite K4 by exact Hb. apply J4. exact Hb.
    + rewrite E1. cbn [Nat.add] in J2.
      set (sj := A j j - rsum j (fun k => r1 k j * r1 k j)).
      assert (SP : 0 < sj).
      { set (d := fun k => if (k =? j)%nat then sj else 1).
        replace sj with (d j) by (unfold d; rewrite Nat.eqb_refl; reflexivity).
        apply (positive_pivot n j (whole A) (upper (set2 r1 j j 1)) d); [lia|exact PD| |].
        - apply elements_factored. intros a b Hab Hb.
          destruct (Nat.eq_dec b j) as [->|Nb].
          + destruct (Nat.eq_dec a j) as [->|Na].
            * cbn [rsum]. rewrite set2_same. unfold d at 2. rewrite Nat.eqb_refl.
              rewrite (rsum_ext j _ (fun k => r1 k j * r1 k j)); [unfold sj; ring|].
              intros k Hk. rewrite !set2_other by lia. unfold d.
              destruct (Nat.eqb_spec k j); [lia|ring].
            * rewrite (J2 a) by lia. apply rsum_ext. intros k Hk. rewrite !set2_other by lia.
              unfold d. destruct (Nat.eqb_spec k j); [lia|ring].
          + rewrite (J1 a b) by lia. apply rsum_ext. intros k Hk. rewrite !set2_other by lia.
            unfold d. destruct (Nat.eqb_spec k j); [lia|ring].
        - apply upper_regular_upper. intros i Hi. destruct (Nat.eq_dec i j) as [->|N].
          + rewrite set2_same. lra.
          + rewrite set2_other, J4 by lia. specialize (H2 i ltac:(lia)). lra. }
      assert (EC : cholesky_column A j s = Some (set2 r1 j j (sqrt sj))).
      { unfold cholesky_column. rewrite E1. fold sj. unfold square_root.
        destruct (Rlt_dec sj 0); [lra|reflexivity]. }
      exists (set2 r1 j j (sqrt sj)). split.
      * unfold square_root. fold sj. destruct (Rlt_dec sj 0); [lra|reflexivity].
      * destruct (cholesky_column_spec A j s _ H1 ltac:(intros i Hi; specialize (H2 i Hi); lra) EC)
          as (K1 & _ & K3).
        split; [exact K1|]. intros i Hi. destruct (Nat.eq_dec i j) as [->|N]; [|apply K3; lia].
        rewrite set2_same. apply sqrt_lt_R0. exact SP.
  - exists r. split; [exact E|exact H].
Qed.

(* ------------------------------------------------------------------ ᵗRDR *)

(* The rows of R that are known. *)
Definition rows (n i : nat) (A r : rmatrix) (d : rvector) :=
  forall a b, (a < i)%nat -> (a <= b)%nat -> (b < n)%nat ->
    A a b = rsum (S a) (fun k => r k a * r k b * d k).

Lemma rdr_row_spec : forall n A i r d r' d', (i < n)%nat ->
  rows n i A r d -> (forall k, (k < i)%nat -> r k k = 1) ->
  rdr_row n A i (r, d) = Some (r', d') ->
  rows n (S i) A r' d' /\ (forall k, (k < S i)%nat -> r' k k = 1) /\
  ((S i < n)%nat -> d' i <> 0) /\ (forall k, (k < i)%nat -> d' k = d k) /\
  d' i = A i i - rsum i (fun k => r k i * r k i * d k) /\
  (forall k b, (k < i)%nat -> r' k b = r k b).
Proof.
  intros n A i r d r' d' Hi HR HD E. unfold rdr_row in E.
  set (di := A i i - rsum i (fun k => r k i * r k i * d k)) in *.
  set (d1 := set1 d i di) in *.
  destruct (iterate _ _ _ r) as [r1|] eqn:EI; [|discriminate]. injection E as <- <-.
  assert (I1 : (forall a b, (a < i)%nat -> r1 a b = r a b) /\ (r1 i i = r i i) /\
     ((S i < n)%nat -> di <> 0) /\
     forall b, (i < b < n)%nat -> A i b = rsum i (fun k => r k i * r k b * d k) + r1 i b * di).
  { assert (G : (forall a b, (a < i)%nat -> r1 a b = r a b) /\ (r1 i i = r i i) /\
       ((i + 1 < i + 1 + (n - (i + 1)))%nat -> di <> 0) /\
       forall b, (i < b < i + 1 + (n - (i + 1)))%nat ->
         A i b = rsum i (fun k => r k i * r k b * d k) + r1 i b * di).
    { apply (iterate_inv _ (fun j s => (forall a b, (a < i)%nat -> s a b = r a b) /\ (s i i = r i i) /\
       ((i + 1 < j)%nat -> di <> 0) /\
       forall b, (i < b < j)%nat -> A i b = rsum i (fun k => r k i * r k b * d k) + s i b * di)
       (rdr_element A d1 i) (n - (i + 1))%nat (i + 1)%nat r r1); [| |exact EI].
      - split; [reflexivity|]. split; [reflexivity|]. split; [lia|]. intros b Hb. lia.
      - intros j s s' Hj (K1 & K2 & K3 & K4) ES. unfold rdr_element in ES.
        destruct (divide _ _) as [v|] eqn:ED; [|discriminate]. injection ES as <-.
        apply divide_some in ED. destruct ED as [N V].
        unfold d1 in N, V. rewrite set1_same in N, V.
        split; [intros a b Ha; rewrite set2_other by lia; apply K1; exact Ha|].
        split; [rewrite set2_other by lia; exact K2|]. split; [intros _; exact N|].
        intros b Hb. destruct (Nat.eq_dec b j) as [->|Nb].
        + rewrite set2_same, V.
          rewrite (rsum_ext i (fun k => s k i * s k j * set1 d i di k) (fun k => r k i * r k j * d k)); [ring|].
          intros k Hk. rewrite set1_other, !K1 by lia. reflexivity.
        + rewrite set2_other by lia. apply K4. lia. }
    destruct G as (G1 & G2 & G3 & G4). split; [exact G1|]. split; [exact G2|].
    split; [intros H; apply G3; lia|]. intros b Hb. apply G4. lia. }
  destruct I1 as (J1 & J2 & J3 & J4).
  split; [|split; [|split; [|split; [|split]]]].
  - intros a b Ha Hab Hb. destruct (Nat.eq_dec a i) as [->|Na].
    + cbn [rsum]. rewrite set2_same. unfold d1 at 2. rewrite set1_same.
      rewrite (rsum_ext i _ (fun k => r k i * r k b * d k)).
      2: { intros k Hk. unfold d1. rewrite set1_other, !set2_other, !J1 by lia. reflexivity. }
      destruct (Nat.eq_dec b i) as [->|Nb].
      * rewrite set2_same. unfold di. ring.
      * rewrite set2_other by lia. rewrite (J4 b) by lia. ring.
    + rewrite (HR a b) by lia. apply rsum_ext. intros k Hk.
      unfold d1. rewrite set1_other, !set2_other, !J1 by lia. reflexivity.
  - intros k Hk. destruct (Nat.eq_dec k i) as [->|N]; [apply set2_same|].
    rewrite set2_other, J1 by lia. apply HD. lia.
  - intros H. unfold d1. rewrite set1_same. apply J3. exact H.
  - intros k Hk. unfold d1. apply set1_other. lia.
  - unfold d1. apply set1_same.
  - intros k b Hk. rewrite set2_other, J1 by lia. reflexivity.
Qed.

Lemma rdr_spec : forall n A junk r d, RDRDecomposition n A junk = Some (r, d) ->
  rows n n A r d /\ (forall i, (i < n)%nat -> r i i = 1) /\
  (forall i, (S i < n)%nat -> d i <> 0).
Proof.
  intros n A junk r d E. unfold RDRDecomposition in E.
  apply (iterate_inv _ (fun i s => rows n i A (fst s) (snd s) /\
     (forall k, (k < i)%nat -> fst s k k = 1) /\
     (forall k, (k < i)%nat -> (S k < n)%nat -> snd s k <> 0)) (rdr_row n A) n 0 junk (r, d)) in E.
  - cbn [fst snd Nat.add] in E. destruct E as (H1 & H2 & H3). split; [exact H1|]. split; [exact H2|].
    intros i Hi. apply H3; lia.
  - split; [intros a b Ha; lia|]. split; intros k Hk; lia.
  - intros i [r0 d0] [r1 d1] Hi (H1 & H2 & H3) ES. cbn [fst snd] in *.
    destruct (rdr_row_spec n A i r0 d0 r1 d1 ltac:(lia) H1 H2 ES) as (K1 & K2 & K3 & K4 & _).
    split; [exact K1|]. split; [exact K2|]. intros k Hk Hk'.
    destruct (Nat.eq_dec k i) as [->|N]; [apply K3; exact Hk'|]. rewrite K4 by lia. apply H3; lia.
Qed.

Lemma rows_elements : forall n i A r d, (i <= n)%nat -> rows n i A r d -> elements i A r d.
Proof. intros n i A r d H HR a b Hab Hb. apply HR; lia. Qed.

Lemma rdr_total : forall n A junk, positive_definite n (whole A) ->
  exists r d, RDRDecomposition n A junk = Some (r, d) /\ forall i, (i < n)%nat -> 0 < d i.
Proof.
  intros n A junk PD. unfold RDRDecomposition.
  destruct (iterate_total _ (fun i s => rows n i A (fst s) (snd s) /\
     (forall k, (k < i)%nat -> fst s k k = 1) /\
     (forall k, (k < i)%nat -> 0 < snd s k)) (rdr_row n A) n 0 junk) as ([r d] & E & _ & _ & H).
  - split; [intros a b Ha; lia|]. split; intros k Hk; lia.
  - intros i [r d] Hi (H1 & H2 & H3). cbn [fst snd] in *.
    set (di := A i i - rsum i (fun k => r k i * r k i * d k)).
    assert (DP : 0 < di).
    { replace di with (set1 d i di i) by apply set1_same.
      apply (positive_pivot n i (whole A) (upper (set2 r i i 1)) (set1 d i di)); [lia|exact PD| |].
      - apply elements_factored. intros a b Hab Hb. destruct (Nat.eq_dec a i) as [->|Na].
        + replace b with i by lia. cbn [rsum]. rewrite set2_same, set1_same.
          rewrite (rsum_ext i _ (fun k => r k i * r k i * d k)); [unfold di; ring|].
          intros k Hk. rewrite set1_other, !set2_other by lia. reflexivity.
        + rewrite (H1 a b) by lia. apply rsum_ext. intros k Hk.
          rewrite set1_other, !set2_other by lia. reflexivity.
      - apply upper_regular_upper. intros k Hk. destruct (Nat.eq_dec k i) as [->|N].
        + rewrite set2_same. lra.
        + rewrite set2_other, H2 by lia. lra. }
    assert (T : exists r', rdr_row n A i (r, d) = Some (r', set1 d i di)).
    { unfold rdr_row. fold di.
      destruct (iterate_total _ (fun _ _ => True) (rdr_element A (set1 d i di) i) (n - (i + 1)) (i + 1) r I)
        as (r1 & -> & _); [|eexists; reflexivity].
      intros j s _ _. unfold rdr_element. rewrite divide_total by (rewrite set1_same; lra).
      eexists. split; [reflexivity|exact I]. }
    destruct T as (r' & E). exists (r', set1 d i di). split; [exact E|]. cbn [fst snd].
    destruct (rdr_row_spec n A i r d r' _ ltac:(lia) H1 H2 E) as (K1 & K2 & _).
    split; [exact K1|]. split; [exact K2|]. intros k Hk.
    destruct (Nat.eq_dec k i) as [->|N]; [rewrite set1_same; exact DP|].
    rewrite set1_other by lia. apply H3. lia.
  - exists r, d. split; [exact E|exact H].
Qed.

(* ---------------------------------------------------------- Gram-Schmidt *)

Lemma gs_coefficients : forall n A q j r,
  exists r1, iterate 0 j (fun i r => Some (set2 r i j (rsum n (fun k => q k i * A k j)))) r = Some r1 /\
    (forall a, (a < j)%nat -> r1 a j = rsum n (fun k => q k a * A k j)) /\
    (forall a b, b <> j -> r1 a b = r a b).
Proof.
  intros n A q j r.
  destruct (iterate_total _ (fun i (s : rmatrix) =>
     (forall a, (a < i)%nat -> s a j = rsum n (fun k => q k a * A k j)) /\
     (forall a b, b <> j -> s a b = r a b))
     (fun i r => Some (set2 r i j (rsum n (fun k => q k i * A k j)))) j 0 r) as (r1 & E & H1 & H2).
  - split; [intros a Ha; lia|reflexivity].
  - intros i s Hi [H1 H2]. eexists. split; [reflexivity|]. split.
    + intros a Ha. destruct (Nat.eq_dec a i) as [->|N]; [apply set2_same|].
      rewrite set2_other by lia. apply H1. lia.
    + intros a b Hb. rewrite set2_other by lia. apply H2. exact Hb.
  - exists r1. split; [exact E|]. split; [exact H1|exact H2].
Qed.

Lemma gs_residual : forall (c : rvector) (q : rmatrix) j (v : rvector),
  exists w, iterate 0 j (fun k (v : rvector) => Some (fun i => v i - c k * q i k)) v = Some w /\
    forall i, w i = v i - rsum j (fun k => c k * q i k).
Proof.
  intros c q j v.
  destruct (iterate_total _ (fun m (w : rvector) => forall i, w i = v i - rsum m (fun k => c k * q i k))
     (fun k (v : rvector) => Some (fun i => v i - c k * q i k)) j 0 v) as (w & E & H).
  - intros i. cbn [rsum]. ring.
  - intros m w _ H. eexists. split; [reflexivity|]. intros i. cbn [rsum]. rewrite H. ring.
  - exists w. split; [exact E|exact H].
Qed.

Definition gs_inv (n : nat) (A : rmatrix) (j : nat) (s : rmatrix * rmatrix) :=
  (forall a b, (a < j)%nat -> (b < j)%nat -> rsum n (fun i => fst s i a * fst s i b) = delta a b) /\
  (forall i b, (i < n)%nat -> (b < j)%nat ->
     A i b = rsum (S b) (fun k => fst s i k * snd s k b)) /\
  (forall b, (b < j)%nat -> 0 < snd s b b).

(* The vector that is normalized. *)
Lemma gs_column_spec : forall n A j q r, gs_inv n A j (q, r) ->
  exists w r1, (forall i, w i = A i j - rsum j (fun k => r1 k j * q i k)) /\
    (forall a b, b <> j -> r1 a b = r a b) /\
    let norm := sqrt (rsum n (fun i => w i * w i)) in
    (norm = 0 -> gs_column n A j (q, r) = None) /\
    (norm <> 0 -> exists s, gs_column n A j (q, r) = Some s /\ gs_inv n A (S j) s).
Proof.
  intros n A j q r (HO & HF & HP). cbn [fst snd] in *. unfold gs_column.
  destruct (gs_coefficients n A q j r) as (r1 & E1 & R1 & R2). rewrite E1.
  destruct (gs_residual (fun k => r1 k j) q j (fun i => A i j)) as (w & E2 & W). rewrite E2.
  exists w, r1. split; [exact W|]. split; [exact R2|].
  set (norm := sqrt (rsum n (fun i => w i * w i))). cbv zeta.
  rewrite !set2_same. destruct (Req_EM_T norm 0) as [Z|Z].
  - split; [reflexivity|contradiction].
  - split; [contradiction|]. intros _. eexists. split; [reflexivity|].
    assert (NN : norm * norm = rsum n (fun i => w i * w i)).
    { unfold norm. apply sqrt_sqrt. apply rsum_nonneg. intros i _. nra. }
    assert (OW : forall a, (a < j)%nat -> rsum n (fun i => q i a * w i) = 0).
    { intros a Ha. rewrite (rsum_ext n _ (fun i => q i a * A i j - rsum j (fun k => r1 k j * (q i a * q i k)))).
      2: { intros i Hi. rewrite W. rewrite Rmult_minus_distr_l. f_equal. rewrite <- rsum_scale.
           apply rsum_ext. intros; ring. }
      rewrite rsum_minus, rsum_exchange, <- R1 by exact Ha.
      rewrite (rsum_ext j _ (fun k => r1 k j * delta a k)).
      2: { intros k Hk. rewrite rsum_scale. f_equal. apply HO; assumption. }
      rewrite (rsum_single j a); [|exact Ha|].
      - unfold delta. rewrite Nat.eqb_refl. ring.
      - intros k Hk N. unfold delta. destruct (Nat.eqb_spec a k); [congruence|ring]. }
    split; [|split]; cbn [fst snd].
    + intros a b Ha Hb. destruct (Nat.eqb_spec a j) as [->|Na], (Nat.eqb_spec b j) as [->|Nb].
      * rewrite (rsum_ext n _ (fun i => / (norm * norm) * (w i * w i))).
        2: { intros i Hi. field. exact Z. }
        rewrite rsum_scale, <- NN. unfold delta. rewrite Nat.eqb_refl. field. exact Z.
      * rewrite (rsum_ext n _ (fun i => / norm * (q i b * w i))).
        2: { intros i Hi. field. exact Z. }
        rewrite rsum_scale, OW by lia. unfold delta. destruct (Nat.eqb_spec j b); [congruence|ring].
      * rewrite (rsum_ext n _ (fun i => / norm * (q i a * w i))).
        2: { intros i Hi. field. exact Z. }
        rewrite rsum_scale, OW by lia. unfold delta. destruct (Nat.eqb_spec a j); [congruence|ring].
      * apply HO; lia.
    + intros i b Hi Hb. destruct (Nat.eq_dec b j) as [->|Nb].
      * cbn [rsum]. rewrite Nat.eqb_refl, set2_same.
        rewrite (rsum_ext j _ (fun k => r1 k j * q i k)).
        2: { intros k Hk. rewrite set2_other by lia. destruct (Nat.eqb_spec k j); [lia|ring]. }
        rewrite W. field. exact Z.
      * rewrite (HF i b Hi) by lia. apply rsum_ext. intros k Hk.
        destruct (Nat.eqb_spec k j); [lia|]. rewrite set2_other, R2 by lia. reflexivity.
    + intros b Hb. destruct (Nat.eq_dec b j) as [->|Nb].
      * rewrite set2_same. pose proof (sqrt_pos (rsum n (fun i => w i * w i))). fold norm in H. lra.
      * rewrite set2_other, R2 by lia. apply HP. lia.
Qed.

Lemma gs_inv_0 : forall n A s, gs_inv n A 0 s.
Proof. intros. split; [intros; lia|]. split; intros; lia. Qed.

Lemma gs_spec : forall n A junk s, ClassicalGramSchmidt n A junk = Some s -> gs_inv n A n s.
Proof.
  intros n A junk s E. unfold ClassicalGramSchmidt in E.
  apply (iterate_inv _ (gs_inv n A) (gs_column n A) n 0 junk s (gs_inv_0 n A junk)); [|exact E].
  intros j [q r] s' _ H ES. destruct (gs_column_spec n A j q r H) as (w & r1 & _ & _ & H1 & H2).
  destruct (Req_EM_T (sqrt (rsum n (fun i => w i * w i))) 0) as [Z|Z].
  - rewrite (H1 Z) in ES. discriminate.
  - destruct (H2 Z) as (s2 & E2 & I2). rewrite E2 in ES. injection ES as <-. exact I2.
Qed.

Lemma gs_total : forall n A junk, independent_columns n A ->
  exists s, ClassicalGramSchmidt n A junk = Some s.
Proof.
  intros n A junk IC. unfold ClassicalGramSchmidt.
  destruct (iterate_total _ (gs_inv n A) (gs_column n A) n 0 junk (gs_inv_0 n A junk)) as (s & E & _).
  2: { exists s. exact E. }
  intros j [q r] Hj H. destruct (gs_column_spec n A j q r H) as (w & r1 & W & R2 & _ & H2).
  apply H2. intros Z. destruct H as (HO & HF & HP). cbn [fst snd] in *.
  assert (WZ : forall i, (i < n)%nat -> w i = 0).
  { intros i Hi. apply sqrt_eq_0 in Z; [|apply rsum_nonneg; intros k _; nra].
    pose proof (rsum_zero_nonneg n (fun i => w i * w i) ltac:(intros; nra) Z i Hi) as Y.
    cbv beta in Y. nra. }
  destruct (triangular_solve j (upper r) (fun k => r1 k j)) as (y & HY & YZ).
  { apply upper_regular_upper. intros i Hi. specialize (HP i Hi). lra. }
  assert (X : set1 y j (-1) j = 0).
  { apply (IC (set1 y j (-1))); [|lia]. intros i Hi. unfold rapply.
    rewrite (rsum_trunc n (S j)).
    2: lia.
    2: { intros k Hk. rewrite set1_other by lia. rewrite YZ by lia. ring. }
    cbn [rsum]. rewrite set1_same.
    rewrite (rsum_ext j _ (fun b => rsum j (fun k => q i k * (upper r k b * y b)))).
    2: { intros b Hb. rewrite set1_other by lia. rewrite (HF i b Hi) by lia.
         rewrite <- rsum_scale_r. rewrite (rsum_trunc j (S b));
           [|lia|intros k Hk; unfold upper; destruct (Nat.leb_spec k b); [lia|ring]].
         apply rsum_ext. intros k Hk. unfold upper. destruct (Nat.leb_spec k b); [ring|lia]. }
    rewrite rsum_exchange.
    rewrite (rsum_ext j _ (fun k => r1 k j * q i k)).
    2: { intros k Hk. rewrite rsum_scale. unfold rapply in HY. rewrite (HY k Hk). ring. }
    pose proof (WZ i Hi) as V. rewrite W in V. lra. }
  rewrite set1_same in X. lra.
Qed.

(* --------------------------------------------------- Rayleigh's quotient *)

Lemma normalize_unit : forall n x y, normalize n x = Some y -> unit n y.
Proof.
  intros n x y E. unfold normalize in E. destruct (Req_EM_T _ 0) as [|N]; [discriminate|].
  injection E as <-. unfold unit. set (norm := sqrt (rsum n (fun i => x i * x i))) in *.
  rewrite (rsum_ext n _ (fun i => / (norm * norm) * (x i * x i))).
  2: { intros i Hi. field. exact N. }
  rewrite rsum_scale. replace (rsum n (fun i => x i * x i)) with (norm * norm).
  - field. exact N.
  - apply sqrt_sqrt. apply rsum_nonneg. intros i _. nra.
Qed.

Lemma rayleigh_form : forall n A x, unit n x -> RayleighQuotient n A x = Some (form n A x).
Proof.
  intros n A x U. unfold RayleighQuotient. rewrite U. rewrite divide_total by lra. f_equal.
  unfold form, Rdiv. rewrite Rinv_1, Rmult_1_r. apply rsum_ext. intros i Hi. rewrite <- rsum_scale.
  apply rsum_ext. intros; ring.
Qed.

Lemma shift_apply : forall n A mu x i, (i < n)%nat ->
  rsum n (fun j => shift A mu i j * x j) = rapply n A x i - mu * x i.
Proof.
  intros n A mu x i Hi. unfold rapply, shift.
  rewrite (rsum_ext n _ (fun j => A i j * x j - mu * (delta i j * x j))).
  - rewrite rsum_minus, rsum_scale, rsum_delta_l by exact Hi. reflexivity.
  - intros j Hj. unfold delta. destruct (Nat.eqb_spec i j); ring.
Qed.

Lemma residual2_shift : forall n A x mu,
  rsum n (fun i => rsum n (fun j => shift A mu i j * x j) * rsum n (fun j => shift A mu i j * x j))
  = residual2 n A x mu.
Proof. intros. apply rsum_ext. intros i Hi. rewrite shift_apply by exact Hi. reflexivity. Qed.

Lemma residual2_square : forall n A x mu, unit n x ->
  residual2 n A x mu
  = rsum n (fun i => rapply n A x i * rapply n A x i) - form n A x * form n A x
    + (mu - form n A x) * (mu - form n A x).
Proof.
  intros n A x mu U. unfold residual2.
  rewrite (rsum_ext n _ (fun i => rapply n A x i * rapply n A x i
     - 2 * mu * (x i * rapply n A x i) + mu * mu * (x i * x i))) by (intros; ring).
  rewrite rsum_plus, rsum_minus, !rsum_scale, U.
  replace (rsum n (fun i => x i * rapply n A x i)) with (form n A x); [ring|].
  unfold form. apply rsum_ext. intros i Hi. unfold rapply. rewrite <- rsum_scale.
  apply rsum_ext. intros; ring.
Qed.

Lemma residual2_minimal : forall n A x mu, unit n x ->
  residual2 n A x (form n A x) <= residual2 n A x mu.
Proof.
  intros n A x mu U. rewrite !residual2_square by exact U.
  pose proof (Rle_0_sqr (mu - form n A x)). unfold Rsqr in H. lra.
Qed.

Lemma rayleigh_loop_spec : forall solve threshold iterations n A x mu x' mu',
  unit n x ->
  rayleigh_loop solve threshold iterations n A x mu = Some (x', mu') ->
  unit n x' /\
  ((mu' = form n A x' /\ sqrt (residual2 n A x' mu') < threshold) \/
   (iterations = O /\ x' = x /\ mu' = mu) \/
   (exists y z, unit n y /\ mu' = form n A y /\ threshold <= sqrt (residual2 n A y mu') /\
      solve (shift A mu') y = Some z /\ normalize n z = Some x')).
Proof.
  intros solve threshold iterations. induction iterations as [|k IH]; intros n A x mu x' mu' U E.
  - cbn [rayleigh_loop] in E. injection E as <- <-. split; [exact U|]. right. left. auto.
  - cbn [rayleigh_loop] in E. rewrite rayleigh_form in E by exact U. cbv zeta in E.
    rewrite residual2_shift in E.
    destruct (Rlt_dec _ threshold) as [L|L].
    + injection E as <- <-. split; [exact U|]. left. split; [reflexivity|exact L].
    + destruct (solve _ x) as [z|] eqn:ES; [|discriminate].
      destruct (normalize n z) as [y|] eqn:EN; [|discriminate].
      destruct (IH n A y _ x' mu' (normalize_unit n z y EN) E) as (U' & [C|[(-> & -> & ->)|C]]).
      * split; [exact U'|]. left. exact C.
      * split; [exact U'|]. right. right. exists x, z. split; [exact U|]. split; [reflexivity|].
        split; [apply Rnot_lt_le; exact L|]. split; [exact ES|exact EN].
      * split; [exact U'|]. right. right. exact C.
Qed.

Lemma rayleigh_eigenvector : forall solve threshold iterations n A x mu0 lambda,
  unit n x -> 0 < threshold -> (forall i, (i < n)%nat -> rapply n A x i = lambda * x i) ->
  rayleigh_loop solve threshold (S iterations) n A x mu0 = Some (x, lambda).
Proof.
  intros solve threshold iterations n A x mu0 lambda U T H. cbn [rayleigh_loop].
  rewrite rayleigh_form by exact U. cbv zeta. rewrite residual2_shift.
  assert (F : form n A x = lambda).
  { unfold form. rewrite (rsum_ext n _ (fun i => lambda * (x i * x i))).
    - rewrite rsum_scale, U. ring.
    - intros i Hi. transitivity (x i * rapply n A x i); [|rewrite H by exact Hi; ring].
      unfold rapply. rewrite <- rsum_scale. apply rsum_ext. intros; ring. }
  rewrite F. replace (residual2 n A x lambda) with 0.
  - rewrite sqrt_0. destruct (Rlt_dec 0 threshold); [reflexivity|contradiction].
  - symmetry. unfold residual2. apply rsum_0. intros i Hi. rewrite H by exact Hi. ring.
Qed.

Lemma D3_rayleigh : forall x, unit 3 x -> form 3 D3 x = x 1%nat * x 1%nat - x 2%nat * x 2%nat.
Proof. intros x _. unfold form, D3, diagonal. cbn [rsum Nat.eqb]. ring. Qed.

Lemma D3_solve : forall solve mu x z, sound 3 solve -> solve (shift D3 mu) x = Some z ->
  - mu * z 0%nat = x 0%nat /\ (1 - mu) * z 1%nat = x 1%nat /\ (- 1 - mu) * z 2%nat = x 2%nat.
Proof.
  intros solve mu x z S E. pose proof (S _ _ _ E) as H. unfold rapply in H.
  pose proof (H 0%nat ltac:(lia)) as H0. pose proof (H 1%nat ltac:(lia)) as H1.
  pose proof (H 2%nat ltac:(lia)) as H2.
  unfold shift, D3, diagonal in H0, H1, H2. cbn [rsum Nat.eqb] in H0, H1, H2.
  repeat split; lra.
Qed.

Lemma near_scale : forall x c, near x -> near (fun i => x i / c).
Proof.
  intros x c H. unfold near in *. unfold Rdiv.
  pose proof (Rle_0_sqr (/ c)) as P. unfold Rsqr in P. set (k := / c) in *.
  replace (16 * (x 1%nat * k * (x 1%nat * k) + x 2%nat * k * (x 2%nat * k)))
    with (16 * (x 1%nat * x 1%nat + x 2%nat * x 2%nat) * (k * k)) by ring.
  replace (x 0%nat * k * (x 0%nat * k)) with (x 0%nat * x 0%nat * (k * k)) by ring.
  apply Rmult_le_compat_r; assumption.
Qed.

Lemma normalize_scale : forall n z y, normalize n z = Some y -> exists c, y = fun i => z i / c.
Proof.
  intros n z y E. unfold normalize in E. destruct (Req_EM_T _ 0); [discriminate|].
  injection E as <-. eexists. reflexivity.
Qed.

(* A bound on the Rayleigh quotient and on the solution suffices. *)
Lemma near_step : forall solve mu x z, sound 3 solve -> unit 3 x -> x 0%nat <> 0 ->
  - (1 / 10) <= mu <= 1 / 10 ->
  16 * 100 * (mu * mu) * (x 1%nat * x 1%nat + x 2%nat * x 2%nat) <= 81 * (x 0%nat * x 0%nat) ->
  solve (shift D3 mu) x = Some z -> near z.
Proof.
  intros solve mu x z S U X0 [M1 M2] H E. apply D3_solve in E; [|exact S].
  destruct E as (E0 & E1 & E2). unfold near. unfold unit in U. cbn [rsum] in U.
  rewrite <- E0, <- E1, <- E2 in H.
  set (a := z 0%nat) in *. set (b := z 1%nat) in *. set (c := z 2%nat) in *.
  destruct (Req_EM_T mu 0) as [->|N].
  - exfalso. apply X0. rewrite <- E0. ring.
  - assert (MM : 0 < mu * mu) by nra.
    assert (B1 : 81 / 100 * (b * b) <= (1 - mu) * b * ((1 - mu) * b)).
    { replace ((1 - mu) * b * ((1 - mu) * b)) with ((1 - mu) * (1 - mu) * (b * b)) by ring.
      apply Rmult_le_compat_r; nra. }
    assert (B2 : 81 / 100 * (c * c) <= (- 1 - mu) * c * ((- 1 - mu) * c)).
    { replace ((- 1 - mu) * c * ((- 1 - mu) * c)) with ((1 + mu) * (1 + mu) * (c * c)) by ring.
      apply Rmult_le_compat_r; nra. }
    apply (Rmult_le_reg_l (81 * (mu * mu))); [lra|].
    replace (81 * (mu * mu) * (a * a)) with (81 * (- mu * a * (- mu * a))) by ring.
    apply (Rle_trans _ (16 * 100 * (mu * mu) *
             ((1 - mu) * b * ((1 - mu) * b) + (- 1 - mu) * c * ((- 1 - mu) * c)))); [|exact H].
    replace (81 * (mu * mu) * (16 * (b * b + c * c)))
      with (16 * 100 * (mu * mu) * (81 / 100 * (b * b) + 81 / 100 * (c * c))) by field.
    apply Rmult_le_compat_l; lra.
Qed.

Lemma near_loop : forall solve threshold iterations x mu x' mu', sound 3 solve ->
  unit 3 x -> near x ->
  rayleigh_loop solve threshold iterations 3 D3 x mu = Some (x', mu') -> near x'.
Proof.
  intros solve threshold iterations. induction iterations as [|k IH]; intros x mu x' mu' S U N E.
  - cbn [rayleigh_loop] in E. injection E as <- _. exact N.
  - cbn [rayleigh_loop] in E. rewrite rayleigh_form in E by exact U. cbv zeta in E.
    destruct (Rlt_dec _ threshold); [injection E as <- _; exact N|].
    destruct (solve _ x) as [z|] eqn:ES; [|discriminate].
    destruct (normalize 3 z) as [y|] eqn:EN; [|discriminate].
    apply (IH y (form 3 D3 x) x' mu' S (normalize_unit 3 z y EN)); [|exact E].
    destruct (normalize_scale 3 z y EN) as (c & ->). apply near_scale.
    pose proof (D3_rayleigh x U) as F. unfold near in N. unfold unit in U. cbn [rsum] in U.
    pose proof (Rle_0_sqr (x 1%nat)) as P1. pose proof (Rle_0_sqr (x 2%nat)) as P2. unfold Rsqr in P1, P2.
    apply (near_step solve (form 3 D3 x) x z S).
    + unfold unit. cbn [rsum]. lra.
    + intros Z. rewrite Z in *. lra.
    + rewrite F. lra.
    + assert (M : form 3 D3 x * form 3 D3 x <= 1) by (rewrite F; nra).
      assert (M2 : form 3 D3 x * form 3 D3 x <= 1 / 289) by (rewrite F; nra).
      nra.
    + exact ES.
Qed.

Lemma x3_normalized : exists c, 0 < c /\ c * c = 329 /\ normalize 3 x3 = Some (fun i => x3 i / c).
Proof.
  exists (sqrt 329). assert (P : 0 < sqrt 329) by (apply sqrt_lt_R0; lra).
  split; [exact P|]. split; [apply sqrt_sqrt; lra|]. unfold normalize.
  replace (rsum 3 (fun i => x3 i * x3 i)) with 329 by (unfold x3; cbn [rsum]; ring).
  destruct (Req_EM_T (sqrt 329) 0); [lra|reflexivity].
Qed.

Lemma rayleigh_far : forall solve threshold iterations junk x' mu', sound 3 solve ->
  threshold <= 1 / 2 -> (0 < iterations)%nat ->
  RayleighQuotientIteration solve threshold iterations 3 D3 x3 junk = Some (x', mu') -> near x'.
Proof.
  intros solve threshold iterations junk x' mu' S T HI E. unfold RayleighQuotientIteration in E.
  destruct x3_normalized as (c & P & C & EN). rewrite EN in E.
  pose proof (normalize_unit 3 _ _ EN) as U. set (x := fun i => x3 i / c) in *.
  assert (I2 : / c * / c = 1 / 329) by (rewrite <- Rinv_mult, C; lra).
  assert (X0 : x 0%nat * x 0%nat = 64 / 329).
  { unfold x, x3, Rdiv. replace (8 * / c * (8 * / c)) with (64 * (/ c * / c)) by ring. rewrite I2. lra. }
  assert (X1 : x 1%nat * x 1%nat = 144 / 329).
  { unfold x, x3, Rdiv. replace (12 * / c * (12 * / c)) with (144 * (/ c * / c)) by ring. rewrite I2. lra. }
  assert (X2 : x 2%nat * x 2%nat = 121 / 329).
  { unfold x, x3, Rdiv. replace (11 * / c * (11 * / c)) with (121 * (/ c * / c)) by ring. rewrite I2. lra. }
  destruct iterations as [|k]; [lia|].
  cbn [rayleigh_loop] in E. rewrite rayleigh_form in E by exact U. cbv zeta in E.
  rewrite residual2_shift in E. pose proof (D3_rayleigh x U) as F. rewrite X1, X2 in F.
  destruct (Rlt_dec _ threshold) as [L|L].
  - exfalso. assert (Q : 1 / 2 <= sqrt (residual2 3 D3 x (form 3 D3 x))).
    { replace (1 / 2) with (sqrt (1 / 4)).
      - apply sqrt_le_1_alt. rewrite residual2_square by exact U. rewrite F.
        unfold rapply, D3, diagonal. cbn [rsum Nat.eqb].
        replace (0 * x 0%nat + 0 * x 1%nat + 0 * x 2%nat) with 0 by ring.
        nra.
      - replace (1 / 4) with ((1 / 2) * (1 / 2)) by lra. apply sqrt_square. lra. }
    lra.
  - destruct (solve _ x) as [z|] eqn:ES; [|discriminate].
    destruct (normalize 3 z) as [y|] eqn:EN2; [|discriminate].
    apply (near_loop solve threshold k y (form 3 D3 x) x' mu' S (normalize_unit 3 z y EN2)); [|exact E].
    destruct (normalize_scale 3 z y EN2) as (d & ->). apply near_scale.
    apply (near_step solve (form 3 D3 x) x z S U).
    + intros Z. rewrite Z in X0. lra.
    + rewrite F. lra.
    + rewrite F, X0, X1, X2. lra.
    + exact ES.
Qed.

(* The vector (1, 1, 1). *)
Lemma rayleigh_fails : forall solve threshold iterations junk, sound 3 solve ->
  threshold <= 1 / 2 -> (0 < iterations)%nat ->
  RayleighQuotientIteration solve threshold iterations 3 D3 (fun _ => 1) junk = None.
Proof.
  intros solve threshold iterations junk S T HI. unfold RayleighQuotientIteration.
  assert (P : 0 < sqrt 3) by (apply sqrt_lt_R0; lra).
  assert (C : sqrt 3 * sqrt 3 = 3) by (apply sqrt_sqrt; lra).
  assert (EN : normalize 3 (fun _ => 1) = Some (fun _ => 1 / sqrt 3)).
  { unfold normalize. replace (rsum 3 (fun i => 1 * 1)) with 3 by (cbn [rsum]; ring).
    destruct (Req_EM_T (sqrt 3) 0); [lra|reflexivity]. }
  rewrite EN. pose proof (normalize_unit 3 _ _ EN) as U. set (x := fun _ : nat => 1 / sqrt 3) in *.
  destruct iterations as [|k]; [lia|]. cbn [rayleigh_loop]. rewrite rayleigh_form by exact U. cbv zeta.
  pose proof (D3_rayleigh x U) as F. assert (F0 : form 3 D3 x = 0) by (rewrite F; unfold x; ring).
  rewrite residual2_shift. rewrite F0.
  assert (I2 : 1 / sqrt 3 * (1 / sqrt 3) = 1 / 3).
  { unfold Rdiv. replace (1 * / sqrt 3 * (1 * / sqrt 3)) with (/ sqrt 3 * / sqrt 3) by ring.
    rewrite <- Rinv_mult, C. lra. }
  destruct (Rlt_dec _ threshold) as [L|L].
  - exfalso. assert (Q : 1 / 2 <= sqrt (residual2 3 D3 x 0)).
    { replace (1 / 2) with (sqrt (1 / 4)).
      - apply sqrt_le_1_alt. rewrite residual2_square by exact U. rewrite F0.
        unfold rapply, D3, diagonal, x. cbn [rsum Nat.eqb]. set (k3 := 1 / sqrt 3) in *. nra.
      - replace (1 / 4) with ((1 / 2) * (1 / 2)) by lra. apply sqrt_square. lra. }
    lra.
  - destruct (solve _ x) as [z|] eqn:ES; [|reflexivity]. exfalso.
    apply D3_solve in ES; [|exact S]. destruct ES as (E0 & _).
    unfold x in E0. assert (0 < 1 / sqrt 3) by (apply Rdiv_lt_0_compat; lra). lra.
Qed.
