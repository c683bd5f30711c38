(* Proofs about DoubleBrent, for any arithmetic. *)
From Coq Require Import List Bool Arith ZArith Lia Sorted.
From Verif Require Import Extrema_Model Extrema_Spec.
Import ListNotations.

Section Sets.
Context {T : Type} (A : arithmetic T).
Notation ordered := (Sorted (fun x y => less A x y = true)).

Lemma insert_in : forall x l y, In y (insert A x l) -> y = x \/ In y l.
Proof.
  intros x. induction l as [|z l IH]; intros y H; cbn [insert] in H.
  - destruct H as [<-|[]]. auto.
  - destruct (less A x z); [destruct H as [<-|H]; auto|].
    destruct (less A z x); [|auto]. destruct H as [<-|H]; [right; left; reflexivity|].
    destruct (IH y H); [auto|right; right; assumption].
Qed.

Lemma insert_incl : forall x l, incl l (insert A x l).
Proof.
  intros x. induction l as [|z l IH]; intros y H; [destruct H|]. cbn [insert].
  destruct (less A x z); [right; exact H|]. destruct (less A z x); [|exact H].
  destruct H as [<-|H]; [left; reflexivity|right; apply IH; exact H].
Qed.

Lemma insert_member : forall x l, less A x x = false -> member A x (insert A x l).
Proof.
  intros x l I. induction l as [|z l IH]; cbn [insert].
  - exists x. cbn. auto.
  - destruct (less A x z) eqn:E; [exists x; cbn; auto|].
    destruct (less A z x) eqn:E'; [|exists z; cbn; auto].
    destruct IH as (y & H & H1). exists y. split; [right; exact H|exact H1].
Qed.

Lemma insert_ordered : forall x l, ordered l -> ordered (insert A x l).
Proof.
  intros x. induction l as [|z l IH]; intros H; cbn [insert]; [repeat constructor|].
  destruct (less A x z) eqn:E; [constructor; [exact H|constructor; exact E]|].
  destruct (less A z x) eqn:E'; [|exact H]. apply Sorted_inv in H. destruct H as [H1 H2].
  constructor; [apply IH; exact H1|]. destruct l as [|y l]; cbn [insert]; [constructor; exact E'|].
  destruct (less A x y); [constructor; exact E'|]. apply HdRel_inv in H2.
  destruct (less A y x); constructor; exact H2.
Qed.

Lemma insert_nonempty : forall x l, insert A x l <> [].
Proof. intros x [|y l]; cbn [insert]; [discriminate|]. destruct (less A x y), (less A y x); discriminate. Qed.

Lemma fold_in : forall m l y, In y (fold_left (fun l x => insert A x l) m l) -> In y l \/ In y m.
Proof.
  induction m as [|x m IH]; intros l y H; cbn [fold_left] in H; [auto|].
  destruct (IH _ _ H) as [H1|H1]; [|right; right; exact H1].
  destruct (insert_in _ _ _ H1) as [->|H2]; [right; left; reflexivity|left; exact H2].
Qed.
Lemma fold_incl : forall m l, incl l (fold_left (fun l x => insert A x l) m l).
Proof.
  induction m as [|x m IH]; intros l; cbn [fold_left]; [apply incl_refl|].
  eapply incl_tran; [apply (insert_incl x)|apply IH].
Qed.
Lemma fold_ordered : forall m l, ordered l -> ordered (fold_left (fun l x => insert A x l) m l).
Proof. induction m as [|x m IH]; intros l H; cbn [fold_left]; [exact H|]. apply IH, insert_ordered, H. Qed.
Lemma fold_nonempty : forall m l, m <> [] -> fold_left (fun l x => insert A x l) m l <> [].
Proof.
  intros [|x m] l H; [congruence|]. cbn [fold_left]. pose proof (fold_incl m (insert A x l)) as I.
  destruct (insert A x l) as [|z k] eqn:E; [exfalso; exact (insert_nonempty x l E)|].
  intros C. rewrite C in I. exact (I z (or_introl eq_refl)).
Qed.

End Sets.

Section DoubleBrent.
Context {T : Type} (A : arithmetic T).
Variable f : T -> T.
Variable eps : T.
Variables zero minimum maximum : T -> T -> outcome T.
Notation ordered := (Sorted (fun x y => less A x y = true)).
Notation db := (DoubleBrent A f eps zero minimum maximum).
Notation ab := (at_bound A eps minimum maximum).

(* What is returned by the searches on both sides. *)
Lemma both_inv : forall rec zeroes a b x l, both A rec zeroes a b x = Returned l ->
  exists l1 l2, rec x b = Returned l1 /\ rec a x = Returned l2 /\ l = merge A zeroes l1 l2.
Proof.
  intros rec zeroes a b x l E. unfold both in E. destruct (rec x b) as [l1| |]; try discriminate.
  destruct (rec a x) as [l2| |]; try discriminate. injection E as <-. eauto.
Qed.

Lemma at_bound_inv : forall rec zeroes a b l, ab rec zeroes a b = Returned l ->
  l = zeroes \/
  exists x l1 l2, (minimum a b = Returned x \/ maximum a b = Returned x) /\ effective A eps a b x = true /\
    rec x b = Returned l1 /\ rec a x = Returned l2 /\ l = merge A zeroes l1 l2.
Proof.
  intros rec zeroes a b l E. unfold at_bound in E. destruct (minimum a b) as [x| |] eqn:M; try discriminate.
  destruct (effective A eps a b x) eqn:F.
  - apply both_inv in E. destruct E as (l1 & l2 & E). right. exists x, l1, l2. tauto.
  - destruct (maximum a b) as [y| |] eqn:M'; try discriminate.
    destruct (effective A eps a b y) eqn:F'; [|injection E as <-; auto].
    apply both_inv in E. destruct E as (l1 & l2 & E). right. exists y, l1, l2. tauto.
Qed.

(* The zeroes at the bounds. *)
Definition bounds (a b : T) : list T :=
  let zeroes := if equal A (f a) (nought A) then insert A a [] else [] in
  if equal A (f b) (nought A) then insert A b zeroes else zeroes.

(* The ways in which the search returns. *)
Lemma db_inv : forall n a b l, db (S n) a b = Returned l ->
  (* Nothing more than the bounds, or nothing. *)
  (l = bounds a b /\ ((equal A (f a) (nought A) || equal A (f b) (nought A)) = true \/
                      Bool.eqb (negative A (f a)) (negative A (f b)) = true)) \/
  (* A zero at a bound. *)
  (exists c, crossing A f zero c /\ zero a b = Returned c /\ l = insert A c []) \/
  (* A division of the interval. *)
  (exists x l1 l2 zeroes, db n x b = Returned l1 /\ db n a x = Returned l2 /\ l = merge A zeroes l1 l2 /\
     ((zeroes = bounds a b /\ effective A eps a b x = true /\ (minimum a b = Returned x \/ maximum a b = Returned x)) \/
      (zeroes = bounds a b /\ zero a b = Returned x /\ equal A a x = false /\ equal A b x = false) \/
      (exists c, crossing A f zero c /\ zero a b = Returned c /\ zeroes = insert A c [] /\
         effective A eps a b x = true /\ (minimum a b = Returned x \/ maximum a b = Returned x)))).
Proof.
  intros n a b l E. cbn [DoubleBrent] in E. fold (bounds a b) in E.
  destruct (equal A (f a) (nought A) || equal A (f b) (nought A)) eqn:Z.
  - apply at_bound_inv in E. destruct E as [E|(x & l1 & l2 & M & F & E1 & E2 & E3)]; [auto|].
    right. right. exists x, l1, l2, (bounds a b). auto 8.
  - apply orb_false_iff in Z. destruct Z as [Za Zb].
    assert (B : bounds a b = []) by (unfold bounds; rewrite Za, Zb; reflexivity).
    destruct (Bool.eqb (negative A (f a)) (negative A (f b))) eqn:S.
    + assert (M : exists x, (minimum a b = Returned x \/ maximum a b = Returned x) /\
        (if effective A eps a b x then both A (db n) (bounds a b) a b x else Returned []) = Returned l).
      { destruct (negb (negative A (f a))); [destruct (minimum a b) as [x| |]|destruct (maximum a b) as [x| |]];
          try discriminate; exists x; auto. }
      destruct M as (x & M & E'). destruct (effective A eps a b x) eqn:F.
      * apply both_inv in E'. destruct E' as (l1 & l2 & E1 & E2 & E3).
        right. right. exists x, l1, l2, (bounds a b). auto 8.
      * injection E' as <-. left. rewrite B. auto.
    + destruct (zero a b) as [c| |] eqn:ZE; try discriminate.
      destruct (equal A a c || equal A b c) eqn:Q.
      * assert (CR : crossing A f zero c).
        { exists a, b. repeat split; auto. intros N. rewrite N, Bool.eqb_reflx in S. discriminate. }
        rewrite B in E. apply at_bound_inv in E. destruct E as [E|(x & l1 & l2 & M & F & E1 & E2 & E3)].
        -- right. left. exists c. auto.
        -- right. right. exists x, l1, l2, (insert A c []). repeat split; auto.
           right. right. exists c. auto.
      * apply orb_false_iff in Q. destruct Q as [Qa Qb]. apply both_inv in E.
        destruct E as (l1 & l2 & E1 & E2 & E3).
        right. right. exists c, l1, l2, (bounds a b). repeat split; auto 8.
Qed.

Lemma bounds_in : forall a b y, In y (bounds a b) -> equal A (f y) (nought A) = true /\ (y = a \/ y = b).
Proof.
  intros a b y H. unfold bounds in H. destruct (equal A (f b) (nought A)) eqn:Zb.
  - apply insert_in in H. destruct H as [->|H]; [auto|].
    destruct (equal A (f a) (nought A)) eqn:Za; [|destruct H]. apply insert_in in H. destruct H as [->|[]]. auto.
  - destruct (equal A (f a) (nought A)) eqn:Za; [|destruct H]. apply insert_in in H. destruct H as [->|[]]. auto.
Qed.

Lemma bounds_ordered : forall a b, ordered (bounds a b).
Proof.
  intros a b. unfold bounds. destruct (equal A (f b) (nought A)), (equal A (f a) (nought A));
    repeat apply insert_ordered; constructor.
Qed.

(* Everything that is returned is a zero, or a bound returned by the search for a zero. *)
Theorem db_sound : forall n a b l y, db n a b = Returned l -> In y l ->
  equal A (f y) (nought A) = true \/ crossing A f zero y.
Proof.
  induction n as [|n IH]; intros a b l y E H; [discriminate|].
  destruct (db_inv n a b l E) as [(-> & _)|[(c & C & _ & ->)|(x & l1 & l2 & z & E1 & E2 & -> & Z)]].
  - left. apply (bounds_in a b y H).
  - apply insert_in in H. destruct H as [->|[]]. auto.
  - unfold merge in H. apply fold_in in H. destruct H as [H|H].
    + destruct Z as [(-> & _)|[(-> & _)|(c & C & _ & -> & _)]].
      * left. apply (bounds_in a b y H).
      * left. apply (bounds_in a b y H).
      * apply insert_in in H. destruct H as [->|[]]. auto.
    + apply in_app_or in H. destruct H as [H|H]; [exact (IH _ _ _ _ E1 H)|exact (IH _ _ _ _ E2 H)].
Qed.

Theorem db_ordered : forall n a b l, db n a b = Returned l -> ordered l.
Proof.
  destruct n as [|n]; intros a b l E; [discriminate|].
  destruct (db_inv n a b l E) as [(-> & _)|[(c & C & _ & ->)|(x & l1 & l2 & z & E1 & E2 & -> & Z)]].
  - apply bounds_ordered.
  - apply insert_ordered. constructor.
  - unfold merge. apply fold_ordered.
    destruct Z as [(-> & _)|[(-> & _)|(c & C & _ & -> & _)]]; try apply bounds_ordered.
    apply insert_ordered. constructor.
Qed.

Lemma member_incl : forall x l l', incl l l' -> member A x l -> member A x l'.
Proof. intros x l l' I (y & H & H1). exists y. split; [apply I; exact H|exact H1]. Qed.

Lemma crossing_bounds : forall n a b l, db (S n) a b = Returned l ->
  (equal A (f a) (nought A) || equal A (f b) (nought A)) = true -> incl (bounds a b) l.
Proof.
  intros n a b l E Z. cbn [DoubleBrent] in E. fold (bounds a b) in E. rewrite Z in E.
  apply at_bound_inv in E. destruct E as [->|(x & l1 & l2 & _ & _ & _ & _ & ->)]; [apply incl_refl|].
  apply fold_incl.
Qed.

(* The bounds are not missed. *)
Theorem db_bounds : forall n a b l, db n a b = Returned l ->
  (equal A (f a) (nought A) = true -> less A a a = false -> member A a l) /\
  (equal A (f b) (nought A) = true -> less A b b = false -> member A b l).
Proof.
  destruct n as [|n]; intros a b l E; [discriminate|]. split; intros Z I.
  - apply (member_incl a (bounds a b)).
    + apply (crossing_bounds n a b l E). rewrite Z. reflexivity.
    + unfold bounds. rewrite Z.
      destruct (equal A (f b) (nought A)); [|apply insert_member; exact I].
      apply (member_incl a (insert A a [])); [apply insert_incl|apply insert_member; exact I].
  - apply (member_incl b (bounds a b)).
    + apply (crossing_bounds n a b l E). rewrite Z. apply orb_true_r.
    + unfold bounds. rewrite Z. apply insert_member; exact I.
Qed.

(* A change of sign is not missed. *)
Theorem db_change : forall n a b l, db n a b = Returned l -> negative A (f a) <> negative A (f b) -> l <> [].
Proof.
  induction n as [|n IH]; intros a b l E D; [discriminate|].
  destruct (equal A (f a) (nought A) || equal A (f b) (nought A)) eqn:Z.
  - pose proof (crossing_bounds n a b l E Z) as I. intros C. rewrite C in I.
    destruct (bounds a b) as [|y k] eqn:B; [|exact (I y (or_introl eq_refl))].
    unfold bounds in B. apply orb_true_iff in Z.
    destruct (equal A (f b) (nought A)); [exact (insert_nonempty A _ _ B)|].
    destruct (equal A (f a) (nought A)); [exact (insert_nonempty A _ _ B)|]. destruct Z; discriminate.
  - cbn [DoubleBrent] in E. fold (bounds a b) in E. rewrite Z in E.
    destruct (Bool.eqb (negative A (f a)) (negative A (f b))) eqn:S; [apply eqb_prop in S; congruence|].
    destruct (zero a b) as [c| |]; try discriminate.
    destruct (equal A a c || equal A b c).
    + set (z := insert A c (bounds a b)) in *.
      assert (N : z <> []) by apply insert_nonempty.
      apply at_bound_inv in E. destruct E as [->|(x & l1 & l2 & _ & _ & _ & _ & ->)]; [exact N|].
      unfold merge. pose proof (fold_incl A (l1 ++ l2) z) as I. intros C. rewrite C in I.
      destruct z as [|y k]; [congruence|]. exact (I y (or_introl eq_refl)).
    + apply both_inv in E. destruct E as (l1 & l2 & E1 & E2 & ->). unfold merge. apply fold_nonempty.
      intros C. apply app_eq_nil in C. destruct C as [-> ->].
      destruct (bool_dec (negative A (f a)) (negative A (f c))) as [Q|Q].
      * apply (IH _ _ _ E1); [congruence|reflexivity].
      * apply (IH _ _ _ E2); [exact Q|reflexivity].
Qed.

(* The interval is divided until there is no reason to do so. *)
Lemma subdivided_app : forall (R : T -> T -> Prop) l1 a x l2 b, subdivided R a l1 x -> subdivided R x l2 b ->
  subdivided R a (l1 ++ x :: l2) b.
Proof.
  intros R. induction l1 as [|y l1 IH]; intros a x l2 b H1 H2; cbn in *; [auto|].
  destruct H1 as [H1 H3]. split; [exact H1|]. apply IH; assumption.
Qed.

Theorem db_exhausted : forall n a b l, db n a b = Returned l ->
  exists points, subdivided (exhausted A f eps zero minimum maximum) a points b.
Proof.
  induction n as [|n IH]; intros a b l E; [discriminate|].
  assert (Bo : forall zeroes x, both A (db n) zeroes a b x = Returned l ->
    exists points, subdivided (exhausted A f eps zero minimum maximum) a points b).
  { intros zeroes x H. apply both_inv in H. destruct H as (l1 & l2 & H1 & H2 & _).
    destruct (IH _ _ _ H1) as [p1 P1]. destruct (IH _ _ _ H2) as [p2 P2].
    exists (p2 ++ x :: p1). apply subdivided_app; assumption. }
  assert (At : forall zeroes, ab (db n) zeroes a b = Returned l ->
    (equal A (f a) (nought A) = true \/ equal A (f b) (nought A) = true \/
     (negative A (f a) <> negative A (f b) /\ exists c, zero a b = Returned c /\ (equal A a c || equal A b c) = true)) ->
    exists points, subdivided (exhausted A f eps zero minimum maximum) a points b).
  { intros zeroes H R. unfold at_bound in H. destruct (minimum a b) as [x| |] eqn:M; try discriminate.
    destruct (effective A eps a b x) eqn:F; [exact (Bo _ _ H)|].
    destruct (maximum a b) as [y| |] eqn:M'; try discriminate.
    destruct (effective A eps a b y) eqn:F'; [exact (Bo _ _ H)|].
    exists []. right. right. split; [exact R|]. split; eauto. }
  cbn [DoubleBrent] in E. fold (bounds a b) in E.
  destruct (equal A (f a) (nought A)) eqn:Za; [apply (At _ E); auto|].
  destruct (equal A (f b) (nought A)) eqn:Zb; [apply (At _ E); auto|]. cbn [orb] in E.
  destruct (Bool.eqb (negative A (f a)) (negative A (f b))) eqn:S.
  - apply eqb_prop in S. destruct (negative A (f a)) eqn:N; cbn [negb] in E.
    + destruct (maximum a b) as [x| |] eqn:M; try discriminate.
      destruct (effective A eps a b x) eqn:F; [exact (Bo _ _ E)|].
      exists []. right. left. repeat split; eauto.
    + destruct (minimum a b) as [x| |] eqn:M; try discriminate.
      destruct (effective A eps a b x) eqn:F; [exact (Bo _ _ E)|].
      exists []. left. repeat split; eauto.
  - destruct (zero a b) as [c| |] eqn:ZE; try discriminate.
    destruct (equal A a c || equal A b c) eqn:Q; [|exact (Bo _ _ E)].
    apply (At _ E). right. right. split; [|eauto].
    intros N. rewrite N, Bool.eqb_reflx in S. discriminate.
Qed.

(* Everything is in the interval. *)
Section Within.
Variable P : T -> Prop.
Hypothesis TP : total_preorder P (less_or_equal A).
Hypothesis stays : forall s a b x, In s [zero; minimum; maximum] -> P a -> P b ->
  less_or_equal A a b = true -> s a b = Returned x ->
  P x /\ less_or_equal A a x = true /\ less_or_equal A x b = true.

Theorem db_within : forall n a b l y, db n a b = Returned l -> P a -> P b -> less_or_equal A a b = true ->
  In y l -> P y /\ less_or_equal A a y = true /\ less_or_equal A y b = true.
Proof.
  destruct TP as [To Tr].
  induction n as [|n IH]; intros a b l y E Pa Pb L H; [discriminate|].
  assert (R : forall z, P z -> less_or_equal A z z = true) by (intros z Pz; destruct (To z z Pz Pz); assumption).
  assert (B : In y (bounds a b) -> P y /\ less_or_equal A a y = true /\ less_or_equal A y b = true).
  { intros HB. apply bounds_in in HB. destruct HB as [_ [->| ->]]; auto. }
  assert (C : forall c, zero a b = Returned c -> In y (insert A c []) ->
     P y /\ less_or_equal A a y = true /\ less_or_equal A y b = true).
  { intros c Ec HC. apply insert_in in HC. destruct HC as [->|[]].
    apply (stays zero a b); cbn; auto. }
  destruct (db_inv n a b l E) as [(-> & _)|[(c & _ & Ec & ->)|(x & l1 & l2 & z & E1 & E2 & -> & Z)]].
  - auto.
  - apply (C c); assumption.
  - assert (X : P x /\ less_or_equal A a x = true /\ less_or_equal A x b = true).
    { destruct Z as [(_ & _ & [M|M])|[(_ & M & _)|(c & _ & _ & _ & _ & [M|M])]].
      - apply (stays minimum a b); cbn; auto.
      - apply (stays maximum a b); cbn; auto.
      - apply (stays zero a b); cbn; auto.
      - apply (stays minimum a b); cbn; auto.
      - apply (stays maximum a b); cbn; auto. }
    destruct X as (Px & X1 & X2).
    unfold merge in H. apply fold_in in H. destruct H as [H|H].
    + destruct Z as [(-> & _)|[(-> & _)|(c & _ & Ec & -> & _)]]; eauto.
    + apply in_app_or in H. destruct H as [H|H].
      * destruct (IH _ _ _ _ E1 Px Pb X2 H) as (Py & Y1 & Y2). eauto.
      * destruct (IH _ _ _ _ E2 Pa Px X1 H) as (Py & Y1 & Y2). eauto.
Qed.
End Within.

(* Termination, when an effective extremum, or a zero that is not a bound, makes the interval
   smaller. *)
Section Terminates.
Variable D : T -> T -> Prop.
Variable size : T -> T -> nat.
Hypothesis returns : forall s a b, In s [zero; minimum; maximum] -> D a b -> exists x, s a b = Returned x.
Hypothesis extremum_smaller : forall s a b x, In s [minimum; maximum] -> D a b -> s a b = Returned x ->
  effective A eps a b x = true -> D a x /\ D x b /\ (size a x < size a b)%nat /\ (size x b < size a b)%nat.
Hypothesis zero_smaller : forall a b x, D a b -> zero a b = Returned x -> equal A a x = false -> equal A b x = false ->
  D a x /\ D x b /\ (size a x < size a b)%nat /\ (size x b < size a b)%nat.

Theorem db_terminates : forall n a b, D a b -> (size a b < n)%nat -> exists l, db n a b = Returned l.
Proof.
  induction n as [|n IH]; intros a b H S; [lia|].
  assert (Bo : forall zeroes x, D a x /\ D x b /\ (size a x < size a b)%nat /\ (size x b < size a b)%nat ->
    exists l, both A (db n) zeroes a b x = Returned l).
  { intros zeroes x (D1 & D2 & S1 & S2). unfold both.
    destruct (IH x b D2 ltac:(lia)) as [l1 ->]. destruct (IH a x D1 ltac:(lia)) as [l2 ->]. eauto. }
  assert (At : forall zeroes, exists l, ab (db n) zeroes a b = Returned l).
  { intros zeroes. unfold at_bound. destruct (returns minimum a b ltac:(cbn; auto) H) as [x E]. rewrite E.
    destruct (effective A eps a b x) eqn:F.
    - apply Bo. apply (extremum_smaller minimum); cbn; auto.
    - destruct (returns maximum a b ltac:(cbn; auto) H) as [y E']. rewrite E'.
      destruct (effective A eps a b y) eqn:F'; [|eauto].
      apply Bo. apply (extremum_smaller maximum); cbn; auto. }
  cbn [DoubleBrent]. fold (bounds a b). destruct (_ || _); [apply At|].
  destruct (Bool.eqb _ _).
  - assert (M : forall s, In s [minimum; maximum] -> exists l,
      match s a b with
      | Returned x => if effective A eps a b x then both A (db n) (bounds a b) a b x else Returned []
      | Failed => Failed | Running => Running end = Returned l).
    { intros s Is. destruct (returns s a b ltac:(cbn in *; tauto) H) as [x E]. rewrite E.
      destruct (effective A eps a b x) eqn:F; [|eauto]. apply Bo. apply (extremum_smaller s); auto. }
    destruct (negb _); apply M; cbn; auto.
  - destruct (returns zero a b ltac:(cbn; auto) H) as [c E]. rewrite E.
    destruct (equal A a c || equal A b c) eqn:Q; [apply At|].
    apply orb_false_iff in Q. destruct Q. apply Bo. apply zero_smaller; assumption.
Qed.
End Terminates.

End DoubleBrent.
