(* The reduction of Nguyễn and Stehlé in exact arithmetic, for independent columns:
   termination. *)
From Coq Require Import ZArith QArith Qround Qcanon Qcabs List Bool Arith Lia Lqa.
From Verif Require Import Matrix_Model Matrix_Spec Matrix_Proofs.
From Verif Require Import Lattice_Model Lattice_Spec Lattice_Proofs Lattice_Proofs2.
From Verif Require Import Lattice_Proofs3.
From Verif Require Import NguyenStehle_Model NguyenStehle_Spec NguyenStehle_Proofs.
From Verif Require Import NguyenStehle_Proofs2 NguyenStehle_Proofs3.
Import ListNotations.
Local Open Scope nat_scope.

Notation M_ := largest_convertible_integer.

(* ------------------------------------------------------------- rounding *)

Lemma llround_near : forall x : Qc,
  (Qcabs (x - of_Z (f_llround O_ x)) <= half)%Qc.
Proof.
  intros x. apply Qcabs_Qcle_condition. cbn [f_llround exact_ops].
  unfold llround_ratio, half, of_Z. toQ.
  destruct (this x) as [p q]. cbn [Qnum Qden].
  pose proof (Z.div_mod (2 * Z.abs p + Zpos q) (2 * Zpos q) ltac:(lia)) as D.
  pose proof (Z.mod_pos_bound (2 * Z.abs p + Zpos q) (2 * Zpos q) ltac:(lia)) as B.
  set (r := ((2 * Z.abs p + Zpos q) / (2 * Zpos q))%Z) in *.
  set (s := ((2 * Z.abs p + Zpos q) mod (2 * Zpos q))%Z) in *.
  unfold Qle, Qminus, Qplus, Qopp, inject_Z; cbn [Qnum Qden].
  destruct p as [|p|p]; cbn [Z.sgn Z.abs] in *; split; nia.
Qed.

Lemma saturating_spec : forall x : Qc, let s := of_Z (saturating_round O_ x) in
  (of_Z (- M_) <= x <= of_Z M_ /\ Qcabs (x - s) <= half)%Qc \/
  (of_Z M_ < x /\ s = of_Z M_)%Qc \/ (x < of_Z (- M_) /\ s = of_Z (- M_))%Qc.
Proof.
  intros x. cbv zeta. unfold saturating_round. cbn [f_gt exact_ops].
  change (f_of_Z exact_ops) with of_Z.
  destruct (Qclt_le_dec (of_Z M_) x) as [L|L]; [right; left; split; [exact L|reflexivity]|].
  destruct (Qclt_le_dec x (of_Z (- M_))) as [L'|L']; [right; right; split; [exact L'|reflexivity]|].
  left. split; [split; assumption|]. apply llround_near.
Qed.

(* ------------------------------------------------------------ compute_X *)

Definition above (k l : nat) (f : nat -> Qc) : Qc := sum k (fun m => if l <? m then f m else 0%Qc).

Lemma above_update : forall k a i X1 x (f : nat -> Qc), a < i < k ->
  above k a (fun m => if (i <=? m)%nat then of_Z (nth m (lset 0%Z X1 i x) 0%Z) * f m else 0)%Qc
  = (above k a (fun m => if (S i <=? m)%nat then of_Z (nth m X1 0%Z) * f m else 0) + of_Z x * f i)%Qc.
Proof.
  intros k a i X1 x f H. unfold above.
  rewrite (sum_ext k _
    (fun m => (if (a <? m)%nat then if (S i <=? m)%nat then of_Z (nth m X1 0%Z) * f m else 0 else 0)
              + (if (m =? i)%nat then of_Z x * f i else 0))%Qc).
  - rewrite sum_plus, (sum_single k i (fun m => if m =? i then _ else 0%Qc)).
    + rewrite Nat.eqb_refl. reflexivity.
    + lia.
    + intros m _ Nm. destruct (Nat.eqb_spec m i); [contradiction|reflexivity].
  - intros m Hm. rewrite nth_lset. destruct (Nat.eqb_spec m i) as [->|Nm].
    + destruct (Nat.ltb_spec a i); [|lia]. rewrite Nat.leb_refl.
      destruct (Nat.leb_spec (S i) i); [lia|]. ring.
    + destruct (Nat.ltb_spec a m); [|ring].
      destruct (Nat.leb_spec i m), (Nat.leb_spec (S i) m); try lia; ring.
Qed.

Lemma compute_X_spec : forall k mu X p mu', compute_X O_ k mu = (X, p, mu') ->
  forall l, l < k ->
    nth l X 0%Z = saturating_round O_
      (fget O_ mu l k - above k l (fun m => of_Z (nth m X 0%Z) * fget O_ mu l m))%Qc /\
    (p = false -> nth l X 0%Z = 0%Z).
Proof.
  intros k mu X p mu' E.
  pose (P := fun i (s : list Z * bool * grid (F O_)) => let '(X, p, mu1) := s in
    (forall a c, c <> k -> fget O_ mu1 a c = fget O_ mu a c) /\
    (forall a, a < k -> @eq Qc (fget O_ mu1 a k)
       (fget O_ mu a k - above k a (fun m => if i <=? m then of_Z (nth m X 0%Z) * fget O_ mu a m else 0))%Qc) /\
    (forall l, i <= l < k -> nth l X 0%Z = saturating_round O_
      (fget O_ mu l k - above k l (fun m => of_Z (nth m X 0%Z) * fget O_ mu l m))%Qc) /\
    (p = false -> forall l, i <= l < k -> nth l X 0%Z = 0%Z)).
  assert (H : P 0 (compute_X O_ k mu)).
  { unfold compute_X. refine (loop_down_inv P _ _ _ _ _); cbv beta.
    - unfold P. split; [reflexivity|]. split; [|split; intros; lia].
      intros a Ha. unfold above. rewrite sum_0; [symmetry; qring|].
      intros m Hm. destruct (a <? m); [|reflexivity]. destruct (Nat.leb_spec k m); [lia|reflexivity].
    - intros i [[X1 p1] mu1] Hi (H1 & H2 & H3 & H4).
      set (x := saturating_round O_ (fget O_ mu1 i k)).
      assert (Ex : x = saturating_round O_ (fget O_ mu1 i k)) by reflexivity. clearbody x.
      assert (L : forall a c, @eq Qc (fget O_ (loop 0 i (fun j g =>
          fset O_ g j k (f_sub O_ (fget O_ g j k) (f_mul O_ (f_of_Z O_ x) (fget O_ g j i)))) mu1) a c)
        (if (c =? k) && (a <? i) then (fget O_ mu1 a k - of_Z x * fget O_ mu1 a i)%Qc
         else fget O_ mu1 a c)).
      { pose (Q := fun j (g : grid (F O_)) => forall a c, @eq Qc (fget O_ g a c)
          (if (c =? k) && (a <? j) then (fget O_ mu1 a k - of_Z x * fget O_ mu1 a i)%Qc
           else fget O_ mu1 a c)).
        change (Q i (loop 0 i (fun j g =>
          fset O_ g j k (f_sub O_ (fget O_ g j k) (f_mul O_ (f_of_Z O_ x) (fget O_ g j i)))) mu1)).
        refine (loop0_inv Q _ _ _ _ _); cbv beta.
        - intros a c. destruct (Nat.ltb_spec a 0); [lia|]. rewrite andb_false_r. reflexivity.
        - intros j g Hj IH a c. rewrite fget_fset.
          destruct (Nat.eqb_spec c k) as [->|Nc]; cbn [andb].
          + destruct (Nat.eqb_spec a j) as [->|Na]; cbn [andb].
            * destruct (Nat.ltb_spec j (S j)); [|lia].
              pose proof (IH j k) as E1. rewrite Nat.eqb_refl in E1. cbn [andb] in E1.
              destruct (Nat.ltb_spec j j); [lia|].
              pose proof (IH j i) as E2. destruct (Nat.eqb_spec i k); [lia|]. cbn [andb] in E2.
              cbn [f_sub f_mul exact_ops]. change (f_of_Z exact_ops x) with (of_Z x).
              rewrite E1, E2. reflexivity.
            * pose proof (IH a k) as E1. rewrite Nat.eqb_refl in E1. cbn [andb] in E1.
              rewrite E1. destruct (Nat.ltb_spec a j), (Nat.ltb_spec a (S j)); try lia; reflexivity.
          + rewrite andb_false_r. pose proof (IH a c) as E1.
            destruct (Nat.eqb_spec c k); [contradiction|]. exact E1. }
      assert (EX : forall m, S i <= m -> nth m (lset 0%Z X1 i x) 0%Z = nth m X1 0%Z).
      { intros m Hm. rewrite nth_lset. destruct (Nat.eqb_spec m i); [lia|reflexivity]. }
      assert (EI : nth i (lset 0%Z X1 i x) 0%Z = x) by (rewrite nth_lset, Nat.eqb_refl; reflexivity).
      unfold P. split; [|split; [|split]].
      + intros a c Hc. rewrite (L a c). destruct (Nat.eqb_spec c k); [contradiction|].
        apply H1. exact Hc.
      + intros a Ha. rewrite L, Nat.eqb_refl. cbn [andb].
        destruct (Nat.ltb_spec a i) as [La|La].
        * rewrite H2 by assumption. rewrite (H1 a i) by lia.
          rewrite (above_update k a i X1 x (fun m => fget O_ mu a m : Qc)) by lia.
          generalize (above k a (fun m => if S i <=? m
            then (of_Z (nth m X1 0%Z) * fget O_ mu a m)%Qc else 0%Qc)) as y.
          generalize (fget O_ mu a k : Qc) as z, (fget O_ mu a i : Qc) as w.
          intros w z y. change (F exact_ops) with Qc in *. ring.
        * rewrite H2 by assumption. f_equal. apply sum_ext. intros m Hm.
          destruct (Nat.ltb_spec a m); [|reflexivity].
          destruct (Nat.leb_spec i m), (Nat.leb_spec (S i) m); try lia. rewrite EX by lia. reflexivity.
      + intros l Hl. destruct (Nat.eq_dec l i) as [->|Nl].
        * rewrite EI, Ex at 1. f_equal. rewrite H2 by assumption. f_equal.
          apply sum_ext. intros m Hm. destruct (Nat.ltb_spec i m); [|reflexivity].
          destruct (Nat.leb_spec (S i) m); [|lia]. rewrite EX by lia. reflexivity.
        * rewrite EX by lia. rewrite H3 by lia. f_equal. f_equal.
          apply sum_ext. intros m Hm. destruct (Nat.ltb_spec l m); [|reflexivity].
          rewrite EX by lia. reflexivity.
      + intros Hp l Hl. apply orb_false_elim in Hp. destruct Hp as [Hp Hx].
        destruct (Nat.eq_dec l i) as [->|Nl].
        * rewrite EI. destruct (Z.eqb_spec x 0) as [E0|E0]; [exact E0|discriminate Hx].
        * rewrite EX by lia. apply H4; [exact Hp|lia]. }
  rewrite E in H. destruct H as (_ & _ & H3 & H4). intros l Hl. split.
  - apply H3. lia.
  - intros Hp. apply H4; [exact Hp|lia].
Qed.

(* ------------------------------------------------------ the new μ *)

Lemma update_b_mu : forall n d k X b i, k < d -> i < k ->
  (forall j, j < k -> star2 n (to_Qc (zof b)) j <> 0%Qc) ->
  mu n (to_Qc (zof (update_b n k X b))) i k
  = (mu n (to_Qc (zof b)) i k
     - above k i (fun m => of_Z (nth m X 0%Z) * mu n (to_Qc (zof b)) i m)
     - of_Z (nth i X 0%Z))%Qc.
Proof.
  intros n d k X b i Hk Hi NZ.
  destruct (update_b_spec n d k X b Hk) as [U _].
  pose proof (update_b_star n k X b) as SS.
  set (A := to_Qc (zof b)) in *. set (A' := to_Qc (zof (update_b n k X b))) in *.
  pose proof (NZ i Hi) as N. unfold star2 in N.
  assert (C : forall B, inner n (star n B i) (star n B i) = inner n (star n A i) (star n A i) ->
    mu n B i k = (inner n (star n B i) (fun r => B r k) / inner n (star n A i) (star n A i))%Qc).
  { intros B EB. unfold mu. pose proof (coef_inner n (star n B i) (fun r => B r k)) as CI.
    rewrite EB in CI. rewrite <- CI. field. exact N. }
  rewrite (C A') by (apply inner_ext; intros; apply SS; assumption).
  rewrite (C A) by reflexivity.
  assert (E : inner n (star n A' i) (fun r => A' r k)
    = (inner n (star n A i) (fun r => A r k)
       - sum k (fun m => of_Z (nth m X 0%Z) * inner n (star n A i) (fun r => A r m)))%Qc).
  { rewrite <- inner_sum_r, <- inner_minus_r. apply inner_ext; intros r Hr.
    - apply SS. assumption.
    - unfold A', A, to_Qc. rewrite U by assumption. rewrite Nat.eqb_refl.
      rewrite of_Z_sub, of_Z_zsum. f_equal. apply sum_ext. intros m _. apply of_Z_mul. }
  rewrite E.
  rewrite (sum_ext k _ (fun m => (if i <? m then (of_Z (nth m X 0%Z) * mu n A i m)
       * inner n (star n A i) (star n A i) else 0)
     + (if m =? i then of_Z (nth i X 0%Z) * inner n (star n A i) (star n A i) else 0))%Qc).
  - rewrite sum_plus, (sum_single k i (fun m => if m =? i then _ else 0%Qc)).
    + rewrite Nat.eqb_refl.
      rewrite (sum_ext k (fun m => if i <? m then _ else 0%Qc)
        (fun m => (if i <? m then of_Z (nth m X 0%Z) * mu n A i m else 0)
                  * inner n (star n A i) (star n A i))%Qc)
        by (intros m _; destruct (i <? m); ring).
      rewrite sum_scale_r. unfold above. field. exact N.
    + assumption.
    + intros m _ Nm. destruct (Nat.eqb_spec m i); [contradiction|reflexivity].
  - intros m Hm. destruct (Nat.eqb_spec m i) as [->|Nm].
    + destruct (Nat.ltb_spec i i); [lia|]. rewrite star_diagonal. ring.
    + destruct (Nat.ltb_spec i m) as [L|L].
      * rewrite <- (coef_inner n (star n A i) (fun r => A r m)).
        change (coef n (star n A i) (fun r => A r m)) with (mu n A i m). ring.
      * rewrite star_above by lia. ring.
Qed.

(* ------------------------------------------------------------- bounds *)

Lemma above_last : forall k l f, k <= S l -> above k l f = 0%Qc.
Proof.
  intros k l f H. apply sum_0. intros m Hm. destruct (Nat.ltb_spec l m); [lia|reflexivity].
Qed.

Lemma above_step : forall k l f, S l < k -> above k l f = (f (S l) + above k (S l) f)%Qc.
Proof.
  intros k l f H. unfold above.
  rewrite (sum_ext k _ (fun m => (if m =? S l then f (S l) else 0) + (if S l <? m then f m else 0))%Qc).
  - rewrite sum_plus, (sum_single k (S l) (fun m => if m =? S l then _ else 0%Qc)).
    + rewrite Nat.eqb_refl. reflexivity.
    + assumption.
    + intros m _ Nm. destruct (Nat.eqb_spec m (S l)); [contradiction|reflexivity].
  - intros m _. destruct (Nat.eqb_spec m (S l)) as [->|].
    + destruct (Nat.ltb_spec l (S l)), (Nat.ltb_spec (S l) (S l)); try lia. ring.
    + destruct (Nat.ltb_spec l m), (Nat.ltb_spec (S l) m); try lia; ring.
Qed.

Lemma above_abs : forall k l f g, (forall m, l < m < k -> (Qcabs (f m) <= g m)%Qc) ->
  (Qcabs (above k l f) <= above k l g)%Qc.
Proof.
  intros k l f g H. unfold above. apply Qcabs_Qcle_condition.
  assert (K : forall q, q <= k -> 
    (- sum q (fun m => if (l <? m)%nat then g m else 0)
       <= sum q (fun m => if (l <? m)%nat then f m else 0)
       <= sum q (fun m => if (l <? m)%nat then g m else 0))%Qc).
  { induction q as [|q IH]; intros Hq; cbn [sum].
    - split; apply Qcle_refl || (toQ; lra).
    - specialize (IH ltac:(lia)). destruct (Nat.ltb_spec l q) as [L|L].
      + pose proof (H q ltac:(lia)) as B. apply Qcabs_Qcle_condition in B. revert IH B.
        generalize (f q) as a. generalize (g q) as c.
        generalize (sum q (fun m => if l <? m then f m else 0%Qc)) as x.
        generalize (sum q (fun m => if l <? m then g m else 0%Qc)) as y.
        clear. intros y x c a. toQ. intros; split; lra.
      + revert IH. 
        generalize (sum q (fun m => if l <? m then f m else 0%Qc)) as x.
        generalize (sum q (fun m => if l <? m then g m else 0%Qc)) as y.
        clear. intros y x. toQ. intros; split; lra. }
  apply K. lia.
Qed.

Section Bounds.
  Variables (k i : nat) (X : list Z) (mm : nat -> nat -> Qc).
  Hypothesis HX : forall l, l < k -> nth l X 0%Z = saturating_round O_
    (mm l k - above k l (fun m => of_Z (nth m X 0%Z) * mm l m))%Qc.
  Hypothesis Hmm : forall l m, l < m < k -> (Qcabs (mm l m) <= 1)%Qc.
  Hypothesis Hgood : forall l, i < l < k -> (Qcabs (mm l k) <= half)%Qc.

  Definition err (l : nat) : Qc := above k l (fun m => of_Z (nth m X 0%Z) * mm l m)%Qc.
  Definition size (l : nat) : Qc := above k l (fun m => Qcabs (of_Z (nth m X 0%Z))).

  Lemma err_size : forall l, (Qcabs (err l) <= size l)%Qc.
  Proof.
    intros l. apply above_abs. intros m Hm. rewrite Qcabs_Qcmult.
    specialize (Hmm l m Hm). pose proof (Qcabs_nonneg (of_Z (nth m X 0%Z))) as P.
    revert P Hmm. generalize (Qcabs (of_Z (nth m X 0%Z))) as a. generalize (Qcabs (mm l m)) as c.
    intros c a. toQ. intros. nra.
  Qed.

  Lemma saturating_abs : forall x,
    (Qcabs (of_Z (saturating_round O_ x)) <= Qcabs x + half)%Qc.
  Proof.
    intros x.
    assert (N : (of_Z (- M_) = - of_Z M_)%Qc) by (apply Qc_is_canon; unfold of_Z; toQ; reflexivity).
    assert (P : (0 <= of_Z M_)%Qc) by (rewrite <- of_Z_0; apply of_Z_le; discriminate).
    assert (B : (- Qcabs x <= x <= Qcabs x)%Qc) by (apply Qcabs_Qcle_condition, Qcle_refl).
    pose proof (saturating_spec x) as S. cbv zeta in S. rewrite N in S.
    apply Qcabs_Qcle_condition.
    revert S P B. generalize (of_Z M_) as y. generalize (of_Z (saturating_round O_ x)) as s.
    generalize (Qcabs x) as a. intros a s y S P B.
    destruct S as [[S1 S2]|[[S1 S2]|[S1 S2]]].
    - apply Qcabs_Qcle_condition in S2. revert P B S1 S2. unfold half. toQ. intros; split; lra.
    - subst s. revert P B S1. unfold half. toQ. intros; split; lra.
    - subst s. revert P B S1. unfold half. toQ. intros; split; lra.
  Qed.

  Lemma size_bound : forall t l, l + t = k - 1 -> i <= l < k ->
    (size l + 1 <= of_Z (2 ^ Z.of_nat t))%Qc.
  Proof.
    induction t as [|t IH]; intros l Ht Hl.
    - unfold size. rewrite above_last by lia. discriminate.
    - unfold size. rewrite above_step by lia. fold (size (S l)).
      pose proof (IH (S l) ltac:(lia) ltac:(lia)) as B.
      pose proof (err_size (S l)) as E.
      pose proof (Hgood (S l) ltac:(lia)) as G.
      pose proof (saturating_abs (mm (S l) k - err (S l))%Qc) as A.
      unfold err at 1 in A. rewrite <- HX in A by lia.
      assert (T : (Qcabs (mm (S l) k - err (S l)) <= half + size (S l))%Qc).
      { apply Qcabs_Qcle_condition. apply Qcabs_Qcle_condition in E. apply Qcabs_Qcle_condition in G.
        revert E G. generalize (mm (S l) k) as a, (err (S l)) as e, (size (S l)) as s.
        intros a e s. toQ. intros; split; lra. }
      rewrite Nat2Z.inj_succ, Z.pow_succ_r, of_Z_mul by lia.
      revert B A T. generalize (of_Z (2 ^ Z.of_nat t)) as p.
      generalize (Qcabs (of_Z (nth (S l) X 0%Z))) as x.
      generalize (Qcabs (mm (S l) k - err (S l))) as y, (size (S l)) as s.
      intros s y x p. unfold half, of_Z. toQ. intros. change (inject_Z 2) with 2%Q. lra.
  Qed.

  Lemma size_M : forall l, k <= 55 -> i <= l < k -> (size l + 1 <= of_Z M_)%Qc.
  Proof.
    intros l Hk Hl. eapply Qcle_trans; [apply (size_bound (k - 1 - l)); lia|].
    apply of_Z_le. unfold M_.
    apply (Z.le_trans _ (2 ^ 54)); [apply Z.pow_le_mono_r; lia|discriminate].
  Qed.

  (* The coefficients above i remain reduced. *)
  Lemma stays_reduced : forall l, k <= 55 -> i < l < k ->
    (Qcabs (mm l k - err l - of_Z (nth l X 0%Z)) <= half)%Qc.
  Proof.
    intros l Hk Hl. rewrite HX by lia. fold (err l).
    pose proof (size_M l Hk ltac:(lia)) as B. pose proof (err_size l) as E.
    pose proof (Hgood l Hl) as G.
    apply Qcabs_Qcle_condition in E. apply Qcabs_Qcle_condition in G.
    assert (N : (of_Z (- M_) = - of_Z M_)%Qc) by (apply Qc_is_canon; unfold of_Z; toQ; reflexivity).
    pose proof (saturating_spec (mm l k - err l)%Qc) as S. cbv zeta in S. rewrite N in S.
    destruct S as [[S1 S2]|[[S1 S2]|[S1 S2]]]; [exact S2| |]; exfalso; revert B E G S1;
      generalize (mm l k) as a, (err l) as e, (size l) as s, (of_Z M_) as y;
      intros a e s y; unfold half; toQ; intros; lra.
  Qed.

  (* The largest index that is not reduced becomes so, or decreases. *)
  Lemma decreases : k <= 55 -> i < k ->
    (Qcabs (mm i k - err i - of_Z (nth i X 0%Z)) <= half)%Qc \/
    (Qcabs (mm i k - err i - of_Z (nth i X 0%Z)) + 1 <= Qcabs (mm i k))%Qc.
  Proof.
    intros Hk Hi. rewrite HX by lia. fold (err i).
    pose proof (size_M i Hk ltac:(lia)) as B. pose proof (err_size i) as E.
    apply Qcabs_Qcle_condition in E.
    assert (N : (of_Z (- M_) = - of_Z M_)%Qc) by (apply Qc_is_canon; unfold of_Z; toQ; reflexivity).
    assert (C : (- Qcabs (mm i k) <= mm i k <= Qcabs (mm i k))%Qc)
      by (apply Qcabs_Qcle_condition, Qcle_refl).
    pose proof (saturating_spec (mm i k - err i)%Qc) as S. cbv zeta in S. rewrite N in S.
    destruct S as [[S1 S2]|[[S1 S2]|[S1 S2]]]; [left; exact S2| |]; right; rewrite S2.
    - rewrite Qcabs_pos.
      + revert B E C S1.
        generalize (mm i k) as a, (err i) as e, (size i) as s, (of_Z M_) as y.
        intros a e s y. toQ. intros. lra.
      + revert S1. generalize (mm i k) as a, (err i) as e, (of_Z M_) as y.
        intros a e y. toQ. intros. lra.
    - rewrite Qcabs_neg.
      + revert B E C S1.
        generalize (mm i k) as a, (err i) as e, (size i) as s, (of_Z M_) as y.
        intros a e s y. toQ. intros. lra.
      + revert S1. generalize (mm i k) as a, (err i) as e, (of_Z M_) as y.
        intros a e y. toQ. intros. lra.
  Qed.
End Bounds.
