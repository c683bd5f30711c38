(* The reduction of Nguyễn and Stehlé in exact arithmetic, for independent columns:
   the result is reduced. *)
From Coq Require Import ZArith QArith Qcanon Qcabs List Bool Arith Lia Lqa.
From Verif Require Import Matrix_Model Matrix_Spec Matrix_Proofs.
From Verif Require Import Lattice_Model Lattice_Spec Lattice_Proofs Lattice_Proofs2.
From Verif Require Import Lattice_Proofs3.
From Verif Require Import NguyenStehle_Model NguyenStehle_Spec NguyenStehle_Proofs.
Import ListNotations.
Local Open Scope nat_scope.

Notation O_ := exact_ops.
Ltac qring := match goal with |- @eq _ ?a ?b => change (@eq Qc a b) end; ring.

Lemma fget_fset : forall g i j (x : Qc) a c,
  fget O_ (fset O_ g i j x) a c = if (a =? i) && (c =? j) then x else fget O_ g a c.
Proof. intros. apply (gget_gset (f_of_Z O_ 0)). Qed.
Lemma vget_vset : forall s i (x : Qc) a,
  vget O_ (vset O_ s i x) a = if a =? i then x else vget O_ s a.
Proof. intros. apply (nth_lset (f_of_Z O_ 0)). Qed.

(* ------------------------------------------------- orthogonalization *)

Lemma star_rows : forall m A B j,
  (forall c i, c <= j -> i < m -> A i c = B i c) ->
  forall i, i < m -> star m A j i = star m B j i.
Proof.
  intros m A B j. induction j as [j IH] using lt_wf_ind. intros H i Hi.
  rewrite !star_eq, H by lia. f_equal. apply sum_ext. intros l Hl.
  rewrite (IH l Hl) by (try (intros; apply H); lia). f_equal.
  apply coef_ext; intros; [apply (IH l Hl); try (intros; apply H); lia|apply H; lia].
Qed.

Lemma mu_rows : forall m A B l j, l <= j ->
  (forall c i, c <= j -> i < m -> A i c = B i c) -> mu m A l j = mu m B l j.
Proof.
  intros m A B l j Hl H. apply coef_ext; intros.
  - apply star_rows; [intros; apply H; lia|assumption].
  - apply H; lia.
Qed.

(* What remains of the column k after the projection on the first l vectors. *)
Definition residue (m : nat) (A : matrix) (k l : nat) : vector :=
  fun i => (A i k - sum l (fun j => mu m A j k * star m A j i))%Qc.
Definition tail (m : nat) (A : matrix) (k l : nat) : Qc :=
  (inner m (fun i => A i k) (fun i => A i k)
   - sum l (fun j => mu m A j k * inner m (star m A j) (fun i => A i k)))%Qc.

Lemma inner_residue : forall m A k l x,
  inner m x (residue m A k l)
  = (inner m x (fun i => A i k)
     - sum l (fun j => mu m A j k * inner m x (star m A j)))%Qc.
Proof.
  intros m A k l x. unfold residue.
  rewrite (inner_minus_r m x (fun i => A i k)
             (fun i => sum l (fun j => mu m A j k * star m A j i)%Qc)).
  rewrite inner_sum_r. reflexivity.
Qed.

Lemma residue_orthogonal : forall m A k l j, j < l ->
  inner m (star m A j) (residue m A k l) = 0%Qc.
Proof.
  intros m A k l j H. rewrite inner_residue.
  rewrite (sum_single l j); [|assumption|].
  - unfold mu. rewrite coef_inner. ring.
  - intros i Hi N. rewrite star_orthogonal by lia. ring.
Qed.

Lemma tail_residue : forall m A k l,
  inner m (residue m A k l) (residue m A k l) = tail m A k l.
Proof.
  intros m A k l. rewrite inner_residue.
  rewrite (sum_0 l).
  2:{ intros j Hj. rewrite (inner_sym m _ (star m A j)), residue_orthogonal by assumption. ring. }
  rewrite inner_sym, inner_residue. unfold tail.
  rewrite (sum_ext l _ (fun j => mu m A j k * inner m (star m A j) (fun i => A i k))%Qc)
    by (intros; f_equal; apply inner_sym). ring.
Qed.

Lemma star_residue : forall m A k i, star m A k i = residue m A k k i.
Proof. intros. apply star_eq. Qed.

Lemma tail_star2 : forall m A k, tail m A k k = star2 m A k.
Proof.
  intros. rewrite <- tail_residue. apply inner_ext; intros; symmetry; apply star_residue.
Qed.

Lemma star_column : forall m A j k,
  inner m (star m A j) (fun i => A i k)
  = (inner m (fun i => A i j) (fun i => A i k)
     - sum j (fun l => mu m A l j * inner m (star m A l) (fun i => A i k)))%Qc.
Proof.
  intros m A j k. rewrite (inner_sym m (star m A j)).
  rewrite (inner_ext m _ (fun i => A i k) _ (residue m A j j))
    by (intros; try reflexivity; apply star_residue).
  rewrite inner_residue, (inner_sym m (fun i => A i k)). f_equal.
  apply sum_ext. intros l _. f_equal. apply inner_sym.
Qed.

Lemma of_Z_gram : forall n v i j,
  of_Z (gram n v i j) = inner n (fun r => to_Qc v r i) (fun r => to_Qc v r j).
Proof.
  intros. unfold gram. rewrite of_Z_zsum. apply sum_ext. intros. apply of_Z_mul.
Qed.

(* ------------------------------------------------------------ Cholesky *)

Definition good (n k : nat) (v : zmatrix) (f : factors O_) :=
  (forall j i, j <= i < k ->
     fget O_ (fr O_ f) j i = inner n (star n (to_Qc v) j) (fun r => to_Qc v r i)) /\
  (forall j i, j < i < k -> fget O_ (fmu O_ f) j i = mu n (to_Qc v) j i).

Definition column_ok (n k : nat) (v : zmatrix) (f : factors O_) :=
  (forall j, j <= k ->
     fget O_ (fr O_ f) j k = inner n (star n (to_Qc v) j) (fun r => to_Qc v r k)) /\
  (forall j, j < k -> fget O_ (fmu O_ f) j k = mu n (to_Qc v) j k) /\
  (forall l, l <= k -> vget O_ (fs O_ f) l = tail n (to_Qc v) k l).

Lemma good_ext : forall n k v v' f,
  (forall i c, i < n -> c < k -> zof v' i c = zof v i c) ->
  good n k (zof v) f -> good n k (zof v') f.
Proof.
  intros n k v v' f H [G1 G2].
  assert (E : forall i c, i < n -> c < k -> to_Qc (zof v') i c = to_Qc (zof v) i c).
  { intros i c Hi Hc. unfold to_Qc. rewrite H by assumption. reflexivity. }
  split.
  - intros j i Hij. rewrite G1 by assumption. apply inner_ext.
    + intros r Hr. symmetry. apply star_rows; [intros; apply E; lia|assumption].
    + intros r Hr. symmetry. apply E; lia.
  - intros j i Hij. rewrite G2 by assumption. symmetry. apply mu_rows; [lia|].
    intros; apply E; lia.
Qed.

Lemma cholesky_spec : forall n d k b G f, 0 < k < d -> is_gram n d b G ->
  (forall j, j < k -> star2 n (to_Qc (zof b)) j <> 0%Qc) -> good n k (zof b) f ->
  good n k (zof b) (CholeskyFactorization O_ k G f) /\
  column_ok n k (zof b) (CholeskyFactorization O_ k G f).
Proof.
  intros n d k b G f Hk HG NZ HF. set (A := to_Qc (zof b)) in *.
  pose (P := fun m f' =>
    good n k (zof b) f' /\
    (forall j, j < m ->
       fget O_ (fr O_ f') j k = inner n (star n A j) (fun r => A r k)) /\
    (forall j, j < m -> fget O_ (fmu O_ f') j k = mu n A j k) /\
    (0 < m -> forall l, l <= m -> vget O_ (fs O_ f') l = tail n A k l) /\
    (0 < m -> fget O_ (fr O_ f') k k = vget O_ (fs O_ f') k)).
  assert (R : P k (CholeskyFactorization O_ k G f)).
  { unfold CholeskyFactorization. refine (loop0_inv P _ _ _ _ _); unfold P.
    - split; [exact HF|]. repeat split; intros; lia.
    - intros j f1 Hj (I0 & I1 & I2 & _ & _). unfold cholesky_step.
      (* Steps 3 and 4. *)
      set (r0 := fset O_ (fr O_ f1) j k (f_of_Z O_ (zget G k j))).
      match goal with |- context [loop 0 j ?body r0] => set (lb := body) end.
      assert (R1 : forall a c, fget O_ (loop 0 j lb r0) a c
        = if (a =? j) && (c =? k) then inner n (star n A j) (fun r => A r k)
          else fget O_ (fr O_ f1) a c).
      { rewrite star_column.
        refine (loop0_inv (fun m r => forall a c, fget O_ r a c
          = if (a =? j) && (c =? k) then
              (inner n (fun i => A i j) (fun i => A i k)
               - sum m (fun l => mu n A l j * inner n (star n A l) (fun i => A i k)))%Qc
            else fget O_ (fr O_ f1) a c) _ _ _ _ _); cbv beta.
        - intros a c. unfold r0. rewrite fget_fset. destruct (_ && _); [|reflexivity].
          cbn [sum]. change (f_of_Z O_ (zget G k j)) with (of_Z (zof G k j)).
          rewrite HG by lia. rewrite of_Z_gram, inner_sym. fold A. qring.
        - intros l r Hl IH a c. unfold lb. rewrite fget_fset. cbn [sum].
          destruct ((a =? j) && (c =? k)) eqn:E; [|rewrite IH, E; reflexivity].
          rewrite !IH, !Nat.eqb_refl. cbn [andb].
          destruct (Nat.eqb_spec l j); [lia|]. cbn [andb].
          rewrite I1 by assumption. rewrite (proj2 I0) by lia. fold A.
          cbn [f_sub f_mul O_]. qring. }
      set (r1 := loop 0 j lb r0) in *. clearbody r1. clear r0 lb.
      (* Step 5. *)
      set (mu1 := fset O_ (fmu O_ f1) j k _).
      assert (M1 : forall a c, fget O_ mu1 a c
        = if (a =? j) && (c =? k) then mu n A j k else fget O_ (fmu O_ f1) a c).
      { intros a c. unfold mu1. rewrite fget_fset. destruct (_ && _); [|reflexivity].
        rewrite !R1, !Nat.eqb_refl. cbn [andb].
        destruct (Nat.eqb_spec j k); [lia|]. cbn [andb].
        rewrite (proj1 I0) by lia. fold A. rewrite star_diagonal.
        unfold mu, coef. fold (star2 n A j).
        destruct (Qc_eq_dec (star2 n A j) 0) as [Z|_]; [|reflexivity].
        exfalso. apply (NZ j); assumption. }
      clearbody mu1.
      (* Step 6. *)
      match goal with |- context [loop 1 k ?body ?s0] => set (s1 := loop 1 k body s0) end.
      assert (S1 : forall l, l <= S j -> vget O_ s1 l = tail n A k l).
      { pose (Q := fun m s => forall l, l < m -> l <= S j -> vget O_ s l = tail n A k l).
        assert (QQ : Q (1 + k) s1).
        { unfold s1. refine (loop_inv Q _ _ _ _ _ _); unfold Q.
          - intros l Hl _. assert (l = 0) by lia. subst l. rewrite vget_vset. cbn [Nat.eqb].
            change (f_of_Z O_ (zget G k k)) with (of_Z (zof G k k)).
            rewrite HG by lia. rewrite of_Z_gram. unfold tail. cbn [sum]. fold A. qring.
          - intros m s Hm IH l Hl Hl'. rewrite vget_vset.
            destruct (Nat.eqb_spec l m) as [->|N]; [|apply IH; lia].
            rewrite IH by lia.
            assert (E1 : fget O_ mu1 (m - 1) k = mu n A (m - 1) k).
            { rewrite M1, Nat.eqb_refl, andb_true_r.
              destruct (Nat.eqb_spec (m - 1) j) as [->|]; [reflexivity|]. apply I2. lia. }
            assert (E2 : fget O_ r1 (m - 1) k
                         = inner n (star n A (m - 1)) (fun r => A r k)).
            { rewrite R1, Nat.eqb_refl, andb_true_r.
              destruct (Nat.eqb_spec (m - 1) j) as [->|]; [reflexivity|]. apply I1. lia. }
            rewrite E1, E2. unfold tail. replace m with (S (m - 1)) at 4 by lia.
            cbn [sum f_sub f_mul O_]. qring. }
        intros l Hl. apply QQ; lia. }
      clearbody s1.
      cbn [fr fmu fs].
      split; [|split; [|split; [|split]]].
      + destruct I0 as [J1 J2]. split; cbn [fr fmu].
        * intros a c Hac. rewrite fget_fset, R1.
          destruct (Nat.eqb_spec c k); [lia|]. rewrite !andb_false_r. apply J1. lia.
        * intros a c Hac. rewrite M1. destruct (Nat.eqb_spec c k); [lia|].
          rewrite andb_false_r. apply J2. lia.
      + intros a Ha. rewrite fget_fset, R1, Nat.eqb_refl, !andb_true_r.
        destruct (Nat.eqb_spec a k); [lia|].
        destruct (Nat.eqb_spec a j) as [->|]; [reflexivity|apply I1; lia].
      + intros a Ha. rewrite M1, Nat.eqb_refl, andb_true_r.
        destruct (Nat.eqb_spec a j) as [->|]; [reflexivity|apply I2; lia].
      + intros _. exact S1.
      + intros _. rewrite fget_fset, Nat.eqb_refl. reflexivity. }
  destruct R as (R0 & R1 & R2 & R3 & R4). split; [exact R0|].
  split; [|split].
  - intros j Hj. destruct (Nat.eq_dec j k) as [->|N]; [|apply R1; lia].
    rewrite R4 by lia. rewrite R3 by lia. rewrite tail_star2. symmetry. apply star_diagonal.
  - exact R2.
  - apply R3. lia.
Qed.

(* ---------------------------------------------------------- SizeReduce *)

Lemma compute_X_other : forall k mu X p mu',
  compute_X O_ k mu = (X, p, mu') ->
  forall a c, c <> k -> fget O_ mu' a c = fget O_ mu a c.
Proof.
  intros k mu X p mu' E. unfold compute_X in E.
  match type of E with loop_down k ?body ?s = _ =>
    assert (H : (fun (_ : nat) '(_, _, mu') => forall a c, c <> k ->
                   fget O_ mu' a c = fget O_ mu a c) 0 (loop_down k body s))
  end.
  { apply (loop_down_inv (fun (_ : nat) '(_, _, mu') => forall a c, c <> k ->
                   fget O_ mu' a c = fget O_ mu a c)).
    - reflexivity.
    - intros i [[X1 p1] mu1] Hi IH. cbv beta iota in IH |- *. intros a c Hc.
      refine (loop0_inv (fun _ g => fget O_ g a c = fget O_ mu a c) _ _ _ _ _); cbv beta.
      + apply IH. exact Hc.
      + intros j g _ IH'. rewrite fget_fset. destruct (Nat.eqb_spec c k); [contradiction|].
        rewrite andb_false_r. exact IH'. }
  rewrite E in H. exact H.
Qed.

Definition exact_eta : Qc := Q2Qc (21 # 40).
Definition exact_delta : Qc := Q2Qc (7 # 8).

Lemma size_reduced_spec : forall k mu,
  size_reduced O_ k mu = true <->
  forall j, j < k -> (Qcabs (fget O_ mu j k) <= exact_eta)%Qc.
Proof.
  intros k mu. unfold size_reduced. rewrite forallb_forall. split.
  - intros H j Hj. specialize (H j ltac:(apply in_seq; lia)).
    cbn [f_gt f_abs f_eta O_] in H. unfold exact_eta.
    destruct (Qclt_le_dec _ _) as [|L]; [discriminate H|exact L].
  - intros H j Hj. apply in_seq in Hj. specialize (H j ltac:(lia)).
    cbn [f_gt f_abs f_eta O_]. unfold exact_eta in H.
    destruct (Qclt_le_dec _ _) as [L|L]; [|reflexivity].
    exfalso. apply (Qclt_not_le _ _ L). exact H.
Qed.

Definition same_star (n : nat) (v v' : zmatrix) :=
  forall c i, i < n -> star n (to_Qc v') c i = star n (to_Qc v) c i.

Lemma same_star_closed : forall n, closed n (same_star n).
Proof.
  intros n. split.
  - intros v v' H c i Hi. apply star_rows; [|assumption].
    intros c' i' _ Hi'. unfold to_Qc. rewrite H by assumption. reflexivity.
  - intros u v w H1 H2 c i Hi. rewrite H2 by assumption. apply H1. assumption.
Qed.

Lemma subtract_star : forall n v k j r, j < k -> same_star n v (subtract_column v k j r).
Proof.
  intros n v k j r Hj c i Hi.
  rewrite (star_ext n _ (subcol (to_Qc v) k j (of_Z r))) by (intros; apply to_Qc_subtract).
  apply subcol_star; assumption.
Qed.

Lemma update_b_star : forall n k X b, same_star n (zof b) (zof (update_b n k X b)).
Proof.
  intros n k X b. apply update_b_rel; [apply same_star_closed|]. intros. apply subtract_star.
  assumption.
Qed.

Lemma star2_same : forall n v v' j, same_star n v v' ->
  star2 n (to_Qc v') j = star2 n (to_Qc v) j.
Proof. intros n v v' j H. apply inner_ext; intros; apply H; assumption. Qed.

Lemma SizeReduce_exact : forall fuel n d k b G f b' G' f', 0 < k < d ->
  is_gram n d b G -> (forall j, j < k -> star2 n (to_Qc (zof b)) j <> 0%Qc) ->
  good n k (zof b) f ->
  SizeReduce O_ fuel n d k b G f = Done (b', G', f') ->
  is_gram n d b' G' /\ same_star n (zof b) (zof b') /\
  (forall i c, i < n -> c <> k -> zof b' i c = zof b i c) /\
  good n k (zof b') f' /\ column_ok n k (zof b') f' /\
  (forall j, j < k -> (Qcabs (mu n (to_Qc (zof b')) j k) <= exact_eta)%Qc).
Proof.
  intros fuel n d k; induction fuel as [|fuel IH]; intros b G f b' G' f' Hk HG NZ HF E;
    cbn [SizeReduce] in E; [discriminate E|].
  destruct (cholesky_spec n d k b G f Hk HG NZ HF) as [C1 C2].
  set (f1 := CholeskyFactorization O_ k G f) in *. clearbody f1.
  destruct (size_reduced O_ k (fmu O_ f1)) eqn:ES.
  - injection E as <- <- <-. split; [exact HG|]. split; [|split; [|split; [|split]]].
    + intros c i _; reflexivity.
    + reflexivity.
    + exact C1.
    + exact C2.
    + intros j Hj. destruct C2 as (_ & C2 & _). rewrite <- C2 by assumption.
      revert j Hj. apply size_reduced_spec. exact ES.
  - destruct (compute_X O_ k (fmu O_ f1)) as [[X p] mu1] eqn:EX.
    destruct p; [|discriminate E].
    pose proof (update_b_star n k X b) as SS.
    destruct (update_b_spec n d k X b ltac:(lia)) as [UB _].
    destruct (IH (update_b n k X b) (update_G d k X G) (mkFactors O_ (fr O_ f1) mu1 (fs O_ f1))
                b' G' f' Hk) as (I1 & I2 & I3 & I4 & I5 & I6).
    + apply update_G_spec; [lia|assumption].
    + intros j Hj. rewrite (star2_same n _ _ j SS). apply NZ. assumption.
    + apply (good_ext n k b).
      * intros i c Hi Hc. rewrite UB by assumption.
        destruct (Nat.eqb_spec c k); [lia|reflexivity].
      * destruct C1 as [C1 C1']. split; cbn [fr fmu]; [exact C1|].
        intros j i Hij. rewrite (compute_X_other k _ X _ mu1 EX) by lia. apply C1'. assumption.
    + exact E.
    + split; [exact I1|]. split; [|split; [|split; [exact I4|split; [exact I5|exact I6]]]].
      * eapply same_star_closed; [exact SS|exact I2].
      * intros i c Hi Hc. rewrite I3, UB by assumption.
        destruct (Nat.eqb_spec c k); [contradiction|reflexivity].
Qed.

(* ----------------------------------------------------------- insertion *)

Lemma find_insertion_spec : forall fuel k f, k <= fuel ->
  let k2 := find_insertion O_ fuel 0 k f in
  k2 <= k /\
  (forall l, k2 <= l < k ->
     (vget O_ (fs O_ f) l <= exact_delta * fget O_ (fr O_ f) l l)%Qc) /\
  (0 < k2 ->
     (exact_delta * fget O_ (fr O_ f) (k2 - 1) (k2 - 1) < vget O_ (fs O_ f) (k2 - 1))%Qc).
Proof.
  intros fuel; induction fuel as [|fuel IH]; intros k f H; cbv zeta; cbn [find_insertion].
  - repeat split; intros; lia.
  - destruct (Nat.leb_spec 1 k) as [L|L]; cbn [andb].
    + cbn [f_ge f_mul f_delta O_]. fold exact_delta.
      destruct (Qclt_le_dec _ _) as [C|C].
      * split; [lia|]. split; [intros; lia|]. intros _. exact C.
      * destruct (IH (k - 1) f ltac:(lia)) as (I1 & I2 & I3). split; [lia|]. split; [|exact I3].
        intros l Hl. destruct (Nat.eq_dec l (k - 1)) as [->|]; [exact C|apply I2; lia].
    + repeat split; intros; lia.
Qed.

Lemma move_factors_spec : forall k2 k f, k2 <= k ->
  let f' := move_factors O_ 0 k2 k f in
  (forall a c, fget O_ (fr O_ f') a c
     = if c =? k2 then
         (if a <? k2 then fget O_ (fr O_ f) a k
          else if a =? k2 then vget O_ (fs O_ f) k2 else fget O_ (fr O_ f) a c)
       else fget O_ (fr O_ f) a c) /\
  (forall a c, fget O_ (fmu O_ f') a c
     = if (c =? k2) && (a <? k2) then fget O_ (fmu O_ f) a k else fget O_ (fmu O_ f) a c).
Proof.
  intros k2 k f H. unfold move_factors. cbv zeta. rewrite Nat.sub_0_r.
  match goal with |- context [loop 0 k2 ?body f] => set (f1 := loop 0 k2 body f) end.
  assert (E : (forall a c, fget O_ (fr O_ f1) a c
      = if (c =? k2) && (a <? k2) then fget O_ (fr O_ f) a k else fget O_ (fr O_ f) a c) /\
    (forall a c, fget O_ (fmu O_ f1) a c
      = if (c =? k2) && (a <? k2) then fget O_ (fmu O_ f) a k else fget O_ (fmu O_ f) a c) /\
    fs O_ f1 = fs O_ f).
  { unfold f1. refine (loop0_inv (fun m f1 => 
      (forall a c, fget O_ (fr O_ f1) a c
        = if (c =? k2) && (a <? m) then fget O_ (fr O_ f) a k else fget O_ (fr O_ f) a c) /\
      (forall a c, fget O_ (fmu O_ f1) a c
        = if (c =? k2) && (a <? m) then fget O_ (fmu O_ f) a k else fget O_ (fmu O_ f) a c) /\
      fs O_ f1 = fs O_ f) _ _ _ _ _); cbv beta.
    - split; [|split]; [| |reflexivity]; intros a c; cbn [Nat.ltb Nat.leb];
        rewrite andb_false_r; reflexivity.
    - intros i f2 Hi (I1 & I2 & I3). cbn [fr fmu fs].
      split; [|split; [|exact I3]]; intros a c; rewrite fget_fset, ?I1, ?I2;
        destruct (Nat.eqb_spec a i) as [->|N]; destruct (Nat.eqb_spec c k2) as [->|N'];
        cbn [andb].
      all: try (destruct (Nat.ltb_spec i i); [lia|]).
      all: try (destruct (Nat.ltb_spec i (S i)); [|lia]).
      all: try reflexivity.
      all: try (rewrite andb_false_r; reflexivity).
      all: try (destruct (Nat.ltb_spec a i); destruct (Nat.ltb_spec a (S i)); try lia;
                reflexivity). }
  destruct E as (E1 & E2 & E3). cbn [fr fmu fs]. split.
  - intros a c. rewrite fget_fset, E1, E3.
    destruct (Nat.eqb_spec c k2) as [->|]; [|rewrite andb_false_r; reflexivity].
    rewrite andb_true_r. cbn [andb].
    destruct (Nat.eqb_spec a k2) as [->|].
    + destruct (Nat.ltb_spec k2 k2); [lia|reflexivity].
    + reflexivity.
  - exact E2.
Qed.
