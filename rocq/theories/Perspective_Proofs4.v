(* Proofs about perspectives: the visible part of a segment in exact arithmetic. *)
From Coq Require Import Reals List Bool Lra Psatz.
From Verif Require Import Geometry_Model Hermite_Model Hermite_Proofs.
From Verif Require Import Perspective_Model Perspective_Spec Perspective_Proofs Perspective_Proofs2 Perspective_Proofs3.
Import ListNotations.
Local Open Scope R_scope.

(* ------------------------------------------------------------------- quadratics *)

Lemma solve_exact : forall a0 a1 a2, 0 < a2 -> exists l,
  solve_quadratic exact (Fin 0) (Fin a0) (Fin a1) (Fin a2) = map Fin l /\
  (forall y, In y l <-> a0 + a1 * y + a2 * (y * y) = 0) /\
  (0 < a1 * a1 - 4 * a0 * a2 -> exists y1 y2, l = [y1; y2] /\ y1 <> y2).
Proof.
  intros a0 a1 a2 A2.
  assert (W : exists l, solve_quadratic exact (Fin 0) (Fin a0) (Fin a1) (Fin a2) = map Fin l /\
    SolveQuadraticEquation 0 a0 a1 a2 = map Fin l /\ (0 < a1 * a1 - 4 * a0 * a2 -> length l = 2%nat)).
  { unfold solve_quadratic, SolveQuadraticEquation. cbv zeta. cbn [exact discriminant equal nought xminus xtimes less].
    set (D := a1 * a1 - 4 * a0 * a2). unfold xequal. cbn [ele elt].
    destruct (Req_EM_T D 0) as [E|E].
    - destruct (Rle_dec D 0) as [_|N]; [|lra]. destruct (Rle_dec 0 D) as [_|N]; [|lra]. cbn [andb].
      exists [0 - 1 / 2 * a1 / a2]. cbn [times over minus half exact xtimes xover map].
      rewrite !ediv_nonzero by lra. split; [reflexivity|]. split; [reflexivity|lra].
    - replace ((if Rle_dec D 0 then true else false) && (if Rle_dec 0 D then true else false)) with false
        by (destruct (Rle_dec D 0); destruct (Rle_dec 0 D); cbn; try reflexivity; lra).
      destruct (Rlt_dec D 0) as [N|N].
      + exists []. split; [reflexivity|]. split; [reflexivity|lra].
      + cbn [square_root xsqrt opposite minus plus over times two exact xopp]. cbn [xsqrt]. destruct (Rlt_dec D 0); [contradiction|].
        set (nu := if Rlt_dec 0 a1 then - a1 - sqrt D else - a1 + sqrt D).
        assert (E' : (if if Rlt_dec 0 a1 then true else false then xminus (Fin (- a1)) (Fin (sqrt D)) else xplus (Fin (- a1)) (Fin (sqrt D)))
          = Fin nu) by (unfold nu; destruct (Rlt_dec 0 a1); reflexivity).
        rewrite E'. cbn [xover xtimes].
        assert (NU : nu <> 0) by (pose proof (sqrt_lt_R0 D ltac:(lra)); unfold nu; destruct (Rlt_dec 0 a1); lra).
        rewrite !ediv_nonzero by lra. cbn [xplus eadd elt].
        destruct (Rlt_dec (0 + nu / (2 * a2)) (0 + 2 * a0 / nu)).
        * exists [0 + nu / (2 * a2); 0 + 2 * a0 / nu]. repeat split.
        * exists [0 + 2 * a0 / nu; 0 + nu / (2 * a2)]. repeat split. }
  destruct W as (l & E1 & E2 & L). exists l. split; [exact E1|]. split.
  - intros y. pose proof (solve_quadratic_ok 0 a0 a1 a2 y ltac:(right; lra)) as OK. rewrite E2 in OK.
    rewrite Rminus_0_r in OK. rewrite <- OK. split; [apply in_map|].
    intros H. apply in_map_iff in H. destruct H as (z & H & I). injection H as ->. exact I.
  - intros P. specialize (L P). destruct l as [|y1 [|y2 [|]]]; try discriminate. exists y1, y2. split; [reflexivity|].
    assert (y1 < y2); [|lra]. exact (solve_quadratic_sorted 0 a0 a1 a2 y1 y2 [] [] E2).
Qed.

(* ---------------------------------------------------------------------- sorting *)

Lemma ele_trans : forall x y z, ele x y = true -> ele y z = true -> ele x z = true.
Proof.
  intros [x| | |] [y| | |] [z| | |]; cbn; try discriminate; try reflexivity.
  destruct (Rle_dec x y); destruct (Rle_dec y z); destruct (Rle_dec x z); try discriminate; try reflexivity. intros; lra.
Qed.
Lemma ele_refl : forall x, x <> NaN -> ele x x = true.
Proof. intros [x| | |] H; cbn; try reflexivity; [|contradiction]. destruct (Rle_dec x x); [reflexivity|lra]. Qed.
Lemma elt_ele : forall x y, elt x y = true -> ele x y = true.
Proof.
  intros [x| | |] [y| | |]; cbn; try discriminate; try reflexivity.
  destruct (Rlt_dec x y); destruct (Rle_dec x y); try discriminate; try reflexivity. intros; lra.
Qed.
Lemma not_elt : forall x y, x <> NaN -> y <> NaN -> elt x y = negb (ele y x).
Proof.
  intros [x| | |] [y| | |] H1 H2; cbn; try reflexivity; try contradiction.
  destruct (Rlt_dec x y); destruct (Rle_dec y x); try reflexivity; lra.
Qed.
Lemma elt_trans1 : forall x y z, ele x y = true -> elt y z = true -> elt x z = true.
Proof.
  intros [x| | |] [y| | |] [z| | |]; cbn; try discriminate; try reflexivity.
  destruct (Rle_dec x y); destruct (Rlt_dec y z); destruct (Rlt_dec x z); try discriminate; try reflexivity. intros; lra.
Qed.
Lemma elt_trans2 : forall x y z, elt x y = true -> ele y z = true -> elt x z = true.
Proof.
  intros [x| | |] [y| | |] [z| | |]; cbn; try discriminate; try reflexivity.
  destruct (Rlt_dec x y); destruct (Rle_dec y z); destruct (Rlt_dec x z); try discriminate; try reflexivity. intros; lra.
Qed.

Fixpoint ascending (l : list extended) : Prop :=
  match l with [] => True | x :: l' => (forall y, In y l' -> ele x y = true) /\ ascending l' end.

Lemma insert_in : forall x l y, In y (insert exact x l) <-> y = x \/ In y l.
Proof.
  intros x l y. induction l as [|z l IH]; cbn [insert].
  - cbn. intuition.
  - cbn [less exact]. destruct (elt x z); cbn [In]; [intuition|]. rewrite IH. intuition.
Qed.
Lemma insert_ascending : forall x l, x <> NaN -> (forall y, In y l -> y <> NaN) -> ascending l -> ascending (insert exact x l).
Proof.
  intros x l N NL. induction l as [|z l IH]; intros H; cbn [insert].
  - cbn. split; [contradiction|trivial].
  - cbn [less exact]. destruct H as [H1 H2]. destruct (elt x z) eqn:E.
    + cbn [ascending]. split; [|split; assumption]. apply elt_ele in E. intros y [<-|I]; [exact E|].
      exact (ele_trans _ _ _ E (H1 y I)).
    + cbn [ascending]. split.
      * intros y I. apply insert_in in I. destruct I as [->|I]; [|apply H1, I].
        rewrite not_elt in E; [|exact N|apply NL; left; reflexivity]. destruct (ele z x); [reflexivity|discriminate].
      * apply IH; [|exact H2]. intros y I. apply NL. right. exact I.
Qed.
Lemma sort_in : forall l y, In y (sort exact l) <-> In y l.
Proof.
  induction l as [|x l IH]; intros y; cbn; [reflexivity|]. rewrite insert_in. unfold sort in IH. rewrite IH. intuition.
Qed.
Lemma sort_ascending : forall l, (forall y, In y l -> y <> NaN) -> ascending (sort exact l).
Proof.
  induction l as [|x l IH]; intros H; cbn; [trivial|]. apply insert_ascending.
  - apply H. left. reflexivity.
  - intros y I. apply (sort_in l y) in I. apply H. right. exact I.
  - apply IH. intros y I. apply H. right. exact I.
Qed.
Lemma ascending_last : forall l x, (forall y, In y (x :: l) -> y <> NaN) -> ascending (x :: l) ->
  In (last (x :: l) x) (x :: l) /\ forall y, In y (x :: l) -> ele y (last (x :: l) x) = true.
Proof.
  intros l x. assert (G : forall l x d, (forall y, In y (x :: l) -> y <> NaN) -> ascending (x :: l) ->
    In (last (x :: l) d) (x :: l) /\ forall y, In y (x :: l) -> ele y (last (x :: l) d) = true).
  { clear. induction l as [|z l IH]; intros x d N H.
    - cbn. split; [left; reflexivity|]. intros y [<-|[]]. apply ele_refl, N. left. reflexivity.
    - destruct H as [H1 H2]. destruct (IH z d) as [I J]; [intros y Hy; apply N; right; exact Hy|exact H2|].
      change (last (x :: z :: l) d) with (last (z :: l) d). split; [right; exact I|].
      intros y [<-|Hy]; [|apply J, Hy]. apply H1, I. }
  intros N H. apply G; assumption.
Qed.

(* The least and the greatest of the sorted list. *)
Lemma sorted_extremes : forall l, (forall y, In y l -> y <> NaN) ->
  match sort exact l with
  | [] => l = []
  | m :: _ => In m l /\ (forall y, In y l -> ele m y = true) /\
      In (last (sort exact l) m) l /\ (forall y, In y l -> ele y (last (sort exact l) m) = true)
  end.
Proof.
  intros l N. pose proof (sort_in l) as I. pose proof (sort_ascending l N) as A. destruct (sort exact l) as [|m l'] eqn:E.
  - destruct l as [|x l]; [reflexivity|]. destruct (proj2 (I x) (or_introl eq_refl)).
  - assert (N' : forall y, In y (m :: l') -> y <> NaN) by (intros y H; apply N, I, H).
    destruct (ascending_last l' m N' A) as [L1 L2]. destruct A as [A1 A2].
    split; [apply I; left; reflexivity|]. split.
    + intros y H. apply I in H. destruct H as [<-|H]; [apply ele_refl, N'; left; reflexivity|apply A1, H].
    + split; [apply I, L1|]. intros y H. apply L2, I, H.
Qed.

(* ----------------------------------------------------------------------- cutting *)

Lemma abscissa_inj : forall U V t1 t2, 0 < Norm2 (sub3 V U) -> abscissa U V t1 = abscissa U V t2 -> t1 = t2.
Proof.
  intros U V t1 t2 N E. assert (E' : Dot (sub3 V U) (sub3 (abscissa U V t1) (abscissa U V t2)) = 0)
    by (rewrite E; unfold Dot, sub3; cbn; ring).
  replace (Dot (sub3 V U) (sub3 (abscissa U V t1) (abscissa U V t2))) with ((t1 - t2) * Norm2 (sub3 V U)) in E'
    by (unfold abscissa, Dot, Norm2, sub3, add3, scal3; cbn; ring).
  nra.
Qed.
Lemma between_abscissae : forall U V t1 t2 t, 0 < Norm2 (sub3 V U) -> t1 <= t2 ->
  between (abscissa U V t1) (abscissa U V t2) (abscissa U V t) <-> t1 <= t <= t2.
Proof.
  intros U V t1 t2 t N L.
  assert (E : forall w, abscissa (abscissa U V t1) (abscissa U V t2) w = abscissa U V (t1 + w * (t2 - t1)))
    by (intros w; unfold abscissa; apply eq3; cbn; ring).
  unfold between. split.
  - intros (w & W & H). rewrite E in H. apply abscissa_inj in H; [|exact N]. rewrite H. nra.
  - intros T. destruct (Req_EM_T t1 t2) as [Q|Q].
    + exists 0. split; [lra|]. rewrite E. f_equal. lra.
    + exists ((t - t1) / (t2 - t1)).
      assert (0 < t2 - t1) by lra. assert (I : (t - t1) / (t2 - t1) * (t2 - t1) = t - t1) by (field; lra).
      split; [|rewrite E, I; f_equal; lra]. split.
      * apply (Rmult_le_reg_r (t2 - t1)); lra.
      * apply (Rmult_le_reg_r (t2 - t1)); lra.
Qed.

Lemma abscissa_0 : forall U V, abscissa U V 0 = U.
Proof. intros. apply eq3; cbn; ring. Qed.
Lemma abscissa_1 : forall U V, abscissa U V 1 = V.
Proof. intros. apply eq3; cbn; ring. Qed.

Lemma correct_whole : forall U V (H : R3 -> Prop), (forall t, 0 <= t <= 1 -> ~ H (abscissa U V t)) -> correct U V H [(U, V)].
Proof.
  intros U V H N. split; [cbn; lia|]. split; [|split].
  - intros s [<-|[]]. exists 0, 1. split; [lra|]. split; [lra|]. rewrite abscissa_0, abscissa_1. reflexivity.
  - intros t T _. apply N, T.
  - intros t T _. exists (U, V). split; [left; reflexivity|]. exists t. split; [lra|reflexivity].
Qed.
Lemma correct_none : forall U V (H : R3 -> Prop), (forall t, 0 < t < 1 -> H (abscissa U V t)) -> correct U V H [].
Proof.
  intros U V H N. split; [cbn; lia|]. split; [intros s []|]. split.
  - intros t _ (s & [] & _).
  - intros t T NH. destruct (NH (N t T)).
Qed.

Lemma cut_correct : forall U V (H : R3 -> Prop) l, 0 < Norm2 (sub3 V U) -> (forall y, In y l -> y <> NaN) ->
  (forall t, H (abscissa U V t) <-> (exists e, In e l /\ elt e (Fin t) = true) /\ (exists e, In e l /\ elt (Fin t) e = true)) ->
  exists l', cut exact false (lift2 (U, V)) (lift (sub3 V U)) (sort exact l) = Value (map lift2 l') /\ correct U V H l'.
Proof.
  intros U V H l N NN HL. pose proof (sorted_extremes l NN) as SE. unfold cut. destruct (sort exact l) as [|m l0] eqn:E.
  { exists [(U, V)]. split; [reflexivity|]. apply correct_whole. intros t T Ht. apply HL in Ht. destruct Ht as [(e & I & _) _].
    rewrite SE in I. destruct I. }
  destruct SE as (M1 & M2 & M3 & M4). set (M := last (m :: l0) m) in *.
  assert (HM : forall t, H (abscissa U V t) <-> elt m (Fin t) = true /\ elt (Fin t) M = true).
  { intros t. rewrite HL. split.
    - intros [(e1 & I1 & L1) (e2 & I2 & L2)]. split; [exact (elt_trans1 _ _ _ (M2 _ I1) L1)|exact (elt_trans2 _ _ _ L2 (M4 _ I2))].
    - intros [L1 L2]. split; [exists m|exists M]; split; assumption. }
  assert (NM1 : m <> NaN) by (apply NN, M1). assert (NM2 : M <> NaN) by (apply NN, M3).
  assert (mM : ele m M = true) by (apply M2, M3).
  cbv zeta. clear HL M1 M2 M3 M4 E NN. clearbody M. cbn [less less_or_equal one nought exact].
  assert (P : forall t, vplus exact (fst (lift2 (U, V))) (vscale exact (Fin t) (lift (sub3 V U))) = lift (abscissa U V t))
    by (intros t; reflexivity).
  destruct (ele (Fin 1) m || ele M (Fin 0)) eqn:C1.
  { exists [(U, V)]. split; [reflexivity|]. apply correct_whole. intros t T Ht. apply HM in Ht. destruct Ht as [L1 L2].
    apply orb_true_iff in C1. destruct C1 as [C1|C1].
    - pose proof (elt_trans1 _ _ _ C1 L1) as L. apply (proj1 (elt_fin _ _)) in L. lra.
    - pose proof (elt_trans2 _ _ _ L2 C1) as L. apply (proj1 (elt_fin _ _)) in L. lra. }
  apply orb_false_iff in C1. destruct C1 as [C1 C1'].
  assert (m1 : elt m (Fin 1) = true) by (rewrite not_elt, C1; [reflexivity|exact NM1|discriminate]).
  assert (M0 : elt (Fin 0) M = true) by (rewrite not_elt, C1'; [reflexivity|discriminate|exact NM2]).
  destruct (ele m (Fin 0) && ele (Fin 1) M) eqn:C2.
  { exists []. split; [reflexivity|]. apply andb_true_iff in C2. destruct C2 as [C2 C2']. apply correct_none.
    intros t T. apply HM. split.
    - apply (elt_trans1 _ _ _ C2). apply elt_fin. lra.
    - apply (elt_trans2 _ (Fin 1)); [apply elt_fin; lra|exact C2']. }
  destruct (elt (Fin 0) m && elt M (Fin 1)) eqn:C3.
  { apply andb_true_iff in C3. destruct C3 as [C3 C3'].
    destruct m as [m| | |]; try discriminate. destruct M as [M| | |]; try discriminate.
    apply (proj1 (elt_fin _ _)) in C3. apply (proj1 (elt_fin _ _)) in C3'. apply (proj1 (ele_fin _ _)) in mM.
    exists [(U, abscissa U V m); (abscissa U V M, V)]. split; [rewrite !P; reflexivity|].
    assert (HM' : forall t, H (abscissa U V t) <-> m < t < M) by (intros t; rewrite HM, !elt_fin; reflexivity). 
    split; [cbn; lia|]. split; [|split].
    - intros s [<-|[<-|[]]].
      + exists 0, m. rewrite abscissa_0. repeat split; lra.
      + exists M, 1. rewrite abscissa_1. repeat split; lra.
    - intros t T (s & [<-|[<-|[]]] & Bt) Ht; apply HM' in Ht; cbn [fst snd] in Bt.
      + rewrite <- (abscissa_0 U V) in Bt at 1. apply between_abscissae in Bt; lra.
      + rewrite <- (abscissa_1 U V) in Bt at 2. apply between_abscissae in Bt; lra.
    - intros t T Ht. rewrite HM' in Ht. destruct (Rle_dec t m) as [L|L].
      + exists (U, abscissa U V m). split; [left; reflexivity|]. cbn [fst snd]. rewrite <- (abscissa_0 U V) at 1.
        apply between_abscissae; lra.
      + exists (abscissa U V M, V). split; [right; left; reflexivity|]. cbn [fst snd]. rewrite <- (abscissa_1 U V) at 2.
        apply between_abscissae; lra. }
  cbn [andb]. destruct (ele m (Fin 0)) eqn:C4.
  { cbn [andb] in C2. assert (M1 : elt M (Fin 1) = true) by (rewrite not_elt, C2; [reflexivity|exact NM2|discriminate]).
    destruct M as [M| | |]; try discriminate; try contradiction.
    apply (proj1 (elt_fin _ _)) in M0. apply (proj1 (elt_fin _ _)) in M1.
    exists [(abscissa U V M, V)]. split; [rewrite P; reflexivity|].
    assert (HM' : forall t, 0 < t -> H (abscissa U V t) <-> t < M).
    { intros t T. rewrite HM, elt_fin. split; [intros [_ L]; exact L|]. intros L. split; [|exact L].
      apply (elt_trans1 _ _ _ C4). apply elt_fin. exact T. }
    split; [cbn; lia|]. split; [|split].
    - intros s [<-|[]]. exists M, 1. rewrite abscissa_1. repeat split; lra.
    - intros t T (s & [<-|[]] & Bt) Ht. cbn [fst snd] in Bt. rewrite <- (abscissa_1 U V) in Bt at 2.
      apply between_abscissae in Bt; [|exact N|lra]. apply HM' in Ht; lra.
    - intros t T Ht. rewrite HM' in Ht by lra.
      exists (abscissa U V M, V). split; [left; reflexivity|]. cbn [fst snd]. rewrite <- (abscissa_1 U V) at 2.
      apply between_abscissae; lra. }
  assert (m0 : elt (Fin 0) m = true) by (rewrite not_elt, C4; [reflexivity|discriminate|exact NM1]).
  rewrite m0 in C3. cbn [andb] in C3.
  assert (M1 : ele (Fin 1) M = true).
  { rewrite not_elt in C3; [|exact NM2|discriminate]. destruct (ele (Fin 1) M); [reflexivity|discriminate]. }
  destruct m as [m| | |]; try discriminate; try contradiction.
  apply (proj1 (elt_fin _ _)) in m0. apply (proj1 (elt_fin _ _)) in m1.
  exists [(U, abscissa U V m)]. split; [rewrite P; reflexivity|].
  assert (HM' : forall t, t < 1 -> H (abscissa U V t) <-> m < t).
  { intros t T. rewrite HM, elt_fin. split; [intros [L _]; exact L|]. intros L. split; [exact L|].
    apply (elt_trans2 _ (Fin 1)); [apply elt_fin; exact T|exact M1]. }
  split; [cbn; lia|]. split; [|split].
  - intros s [<-|[]]. exists 0, m. rewrite abscissa_0. repeat split; lra.
  - intros t T (s & [<-|[]] & Bt) Ht. cbn [fst snd] in Bt. rewrite <- (abscissa_0 U V) in Bt at 1.
    apply between_abscissae in Bt; [|exact N|lra]. apply HM' in Ht; lra.
  - intros t T Ht. rewrite HM' in Ht by lra.
    exists (U, abscissa U V m). split; [left; reflexivity|]. cbn [fst snd]. rewrite <- (abscissa_0 U V) at 1.
    apply between_abscissae; lra.
Qed.
