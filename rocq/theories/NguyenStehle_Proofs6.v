(* Executions of the reduction of Nguyễn and Stehlé that do not terminate. *)
From Coq Require Import ZArith List Bool Arith Lia Floats.SpecFloat.
From Verif Require Import NguyenStehle_Model NguyenStehle_Proofs5.
Import ListNotations.
Local Open Scope nat_scope.

Section Executions.
  Variables (ops : float_ops) (n d : nat).

  (* One iteration of SizeReduce, when it is not the last. *)
  Definition sr_next (k : nat) (s : grid Z * grid Z * factors ops)
    : option (grid Z * grid Z * factors ops) :=
    let '(b, G, f) := s in
    let f := CholeskyFactorization ops k G f in
    if size_reduced ops k (fmu ops f) then None
    else
      let '(X, p, mu) := compute_X ops k (fmu ops f) in
      if p then Some (update_b n k X b, update_G d k X G, mkFactors ops (fr ops f) mu (fs ops f))
      else None.

  (* One iteration of the loop of NguyễnStehlé, with [q] iterations of SizeReduce. *)
  Definition ns_next (q : nat) (s : nat * nat * grid Z * grid Z * factors ops)
    : option (nat * nat * grid Z * grid Z * factors ops) :=
    let '(z, k, b, G, f) := s in
    if k <? d then
      match SizeReduce ops q n d k b G f with
      | Done (b1, G1, f1) =>
        let k2 := find_insertion ops k z k f1 in
        let f2 := move_factors ops z k2 k f1 in
        let '(b2, G2) := if k =? k2 then (b1, G1) else Insert k k2 n d b1 G1 in
        let z := if is_zero_column n k2 b2 then S z else z in
        Some (z, Nat.max (S z) (S k2), b2, G2, f2)
      | _ => None
      end
    else None.

  Fixpoint iter {S : Type} (next : S -> option S) (t : nat) (s : S) : option S :=
    match t with
    | O => Some s
    | S t' => match next s with Some s' => iter next t' s' | None => None end
    end.

  Lemma iter_add : forall {S} (next : S -> option S) a b s s',
    iter next a s = Some s' -> iter next (a + b) s = iter next b s'.
  Proof.
    intros S next a; induction a as [|a IH]; intros b s s' E; cbn [iter Nat.add] in *.
    - injection E as ->. reflexivity.
    - destruct (next s) as [s1|]; [|discriminate E]. apply IH. exact E.
  Qed.

  Lemma iter_le : forall {S} (next : S -> option S) a b s,
    a <= b -> iter next b s <> None -> iter next a s <> None.
  Proof.
    intros S next a; induction a as [|a IH]; intros b s L N; [discriminate|].
    destruct b as [|b]; [lia|]. cbn [iter] in *.
    destruct (next s) as [s1|]; [|congruence]. apply (IH b); [lia|exact N].
  Qed.

  (* A cycle goes on forever. *)
  Lemma iter_cycle : forall {S} (next : S -> option S) p s,
    iter next (Datatypes.S p) s = Some s -> forall t, iter next t s <> None.
  Proof.
    intros S next p s E t.
    assert (K : forall m, iter next (m * Datatypes.S p) s = Some s).
    { induction m as [|m IH]; [reflexivity|].
      change (Datatypes.S m * Datatypes.S p) with (Datatypes.S p + m * Datatypes.S p).
      rewrite (iter_add next _ _ s s E). exact IH. }
    apply (iter_le next t (t * Datatypes.S p)); [nia|]. rewrite K. discriminate.
  Qed.

  Lemma sr_forever : forall k fuel b G f,
    (forall t, iter (sr_next k) t (b, G, f) <> None) ->
    SizeReduce ops fuel n d k b G f = Unfinished.
  Proof.
    intros k fuel; induction fuel as [|fuel IH]; intros b G f H; [reflexivity|].
    pose proof (H 1) as H1. cbn [iter] in H1. unfold sr_next in H1. cbn [SizeReduce]. cbv zeta.
    destruct (size_reduced ops k _) eqn:E1; [congruence|].
    destruct (compute_X ops k _) as [[X p] mu] eqn:E2. destruct p; [|congruence].
    apply IH. intros t. specialize (H (S t)). cbn [iter] in H. unfold sr_next at 1 in H.
    rewrite E1, E2 in H. exact H.
  Qed.

  Lemma ns_step_unfinished : forall q fuel z k b G f s',
    ns_next q (z, k, b, G, f) = Some s' ->
    (let '(z', k', b', G', f') := s' in ns_loop ops fuel n d z' k' b' G' f' = Unfinished) ->
    ns_loop ops (S fuel) n d z k b G f = Unfinished.
  Proof.
    intros q fuel z k b G f s' E H. unfold ns_next in E. cbn [ns_loop].
    destruct (k <? d); [|discriminate E].
    destruct (SizeReduce ops q n d k b G f) as [[[b1 G1] f1]| |] eqn:ES; try discriminate E.
    assert (K : SizeReduce ops (S fuel) n d k b G f = Unfinished \/
                SizeReduce ops (S fuel) n d k b G f = Done (b1, G1, f1)).
    { destruct (SizeReduce ops (S fuel) n d k b G f) as [r| |] eqn:ES'; [right|exfalso|left; reflexivity];
        apply (SizeReduce_more ops _ (q + S fuel)) in ES; try discriminate; try lia;
        apply (SizeReduce_more ops _ (q + S fuel)) in ES'; try discriminate; try lia; congruence. }
    destruct K as [K|K]; rewrite K; [reflexivity|]. cbv zeta in E |- *.
    destruct (if k =? find_insertion ops k z k f1 then (b1, G1)
              else Insert k (find_insertion ops k z k f1) n d b1 G1) as [b2 G2].
    injection E as <-. exact H.
  Qed.

  Lemma ns_forever : forall q fuel z k b G f,
    (forall t, iter (ns_next q) t (z, k, b, G, f) <> None) ->
    ns_loop ops fuel n d z k b G f = Unfinished.
  Proof.
    intros q fuel; induction fuel as [|fuel IH]; intros z k b G f H.
    - pose proof (H 1) as H1. cbn [iter] in H1. unfold ns_next in H1. cbn [ns_loop].
      destruct (k <? d); [reflexivity|congruence].
    - pose proof (H 1) as H1. cbn [iter] in H1.
      destruct (ns_next q (z, k, b, G, f)) as [[[[[z' k'] b'] G'] f']|] eqn:E; [|congruence].
      apply (ns_step_unfinished q fuel z k b G f _ E). apply IH.
      intros t. specialize (H (S t)). cbn [iter] in H. rewrite E in H. exact H.
  Qed.

  Lemma ns_reaches : forall q t fuel z k b G f z' k' b' G' f',
    iter (ns_next q) t (z, k, b, G, f) = Some (z', k', b', G', f') ->
    (forall fuel, ns_loop ops fuel n d z' k' b' G' f' = Unfinished) ->
    ns_loop ops fuel n d z k b G f = Unfinished.
  Proof.
    intros q t; induction t as [|t IH]; intros fuel z k b G f z' k' b' G' f' E H.
    - cbn [iter] in E. injection E as -> -> -> -> ->. apply H.
    - cbn [iter] in E.
      destruct (ns_next q (z, k, b, G, f)) as [[[[[z1 k1] b1] G1] f1]|] eqn:E1; [|discriminate E].
      destruct fuel as [|fuel].
      + unfold ns_next in E1. cbn [ns_loop]. destruct (k <? d); [reflexivity|discriminate E1].
      + apply (ns_step_unfinished q fuel z k b G f _ E1). apply (IH fuel _ _ _ _ _ _ _ _ _ _ E H).
  Qed.

  Lemma ns_size_reduce_forever : forall fuel z k b G f, k < d ->
    (forall fuel, SizeReduce ops fuel n d k b G f = Unfinished) ->
    ns_loop ops fuel n d z k b G f = Unfinished.
  Proof.
    intros fuel z k b G f Hk H. destruct fuel as [|fuel]; cbn [ns_loop];
      destruct (Nat.ltb_spec k d); try lia; [reflexivity|]. rewrite H. reflexivity.
  Qed.
End Executions.

(* ----------------------------------------------------------- instances *)

Definition junk_ (ops : float_ops) : factors ops := mkFactors ops [] [] [].
Definition start (ops : float_ops) (n d : nat) (L : grid Z) :=
  let G := Gram n d L [] in
  (0, 1, L, G, mkFactors ops (fset ops (fr ops (junk_ ops)) 0 0 (f_of_Z ops (zget G 0 0)))
                 (fmu ops (junk_ ops)) (fs ops (junk_ ops))).

Lemma forever_inside : forall ops n d L q t z k b G f t' p s,
  iter (ns_next ops n d q) t (start ops n d L) = Some (z, k, b, G, f) -> k < d ->
  iter (sr_next ops n d k) t' (b, G, f) = Some s ->
  iter (sr_next ops n d k) (S p) s = Some s ->
  forall fuel, NguyenStehle ops fuel n d L [] (junk_ ops) = Unfinished.
Proof.
  intros ops n d L q t z k b G f t' p s E1 Hk E2 E3 fuel.
  apply (ns_reaches ops n d q t fuel 0 1 L (Gram n d L []) _ z k b G f E1).
  intros fuel'. apply ns_size_reduce_forever; [exact Hk|]. intros fuel''. apply sr_forever.
  intros x. apply (iter_le _ x (t' + x)); [lia|]. rewrite (iter_add _ t' x _ _ E2).
  apply (iter_cycle _ p). exact E3.
Qed.

Lemma forever_outside : forall ops n d L q t p s,
  iter (ns_next ops n d q) t (start ops n d L) = Some s ->
  iter (ns_next ops n d q) (S p) s = Some s ->
  forall fuel, NguyenStehle ops fuel n d L [] (junk_ ops) = Unfinished.
Proof.
  intros ops n d L q t p s E1 E2 fuel.
  apply (ns_forever ops n d q fuel 0 1 L (Gram n d L [])).
  intros x. change (iter (ns_next ops n d q) x (start ops n d L) <> None).
  apply (iter_le _ x (t + x)); [lia|].
  rewrite (iter_add _ t x _ _ E1). apply (iter_cycle _ p). exact E2.
Qed.

Definition B_ := binary64_ops 0.

(* The contents of a state, to compare the states by computation. *)
Definition plain (s : grid Z * grid Z * factors B_)
  : grid Z * grid Z * grid spec_float * grid spec_float * list spec_float :=
  let '(b, G, f) := s in (b, G, fr B_ f, fmu B_ f, fs B_ f).
Definition plain' (s : nat * nat * grid Z * grid Z * factors B_) :=
  let '(z, k, b, G, f) := s in (z, k, plain (b, G, f)).

Lemma plain_eq : forall o s, option_map plain o = Some (plain s) -> o = Some s.
Proof.
  intros [[[b G] [r mu v]]|] [[b' G'] [r' mu' v']] H; [|discriminate H].
  unfold plain, option_map in H. cbn [fr fmu fs] in H. congruence.
Qed.
Lemma plain_eq' : forall o s, option_map plain' o = Some (plain' s) -> o = Some s.
Proof.
  intros [[[[[z k] b] G] [r mu v]]|] [[[[z' k'] b'] G'] [r' mu' v']] H; [|discriminate H].
  unfold plain', plain, option_map in H. cbn [fr fmu fs] in H. congruence.
Qed.

Definition dependent_columns : grid Z := [[1; 2; 1000]; [0; 0; 1]]%Z.
Definition dependent_state :=
  Eval vm_compute in
    match iter (ns_next B_ 2 3 9) 1 (start B_ 2 3 dependent_columns) with
    | Some (_, _, b, G, f) => (b, G, f)
    | None => ([], [], junk_ B_)
    end.
Definition dependent_cycle :=
  Eval vm_compute in
    match iter (sr_next B_ 2 3 2) 2 dependent_state with
    | Some s => s
    | None => ([], [], junk_ B_)
    end.

Lemma dependent_forever : forall fuel,
  NguyenStehle B_ fuel 2 3 dependent_columns [] (junk_ B_) = Unfinished.
Proof.
  apply (forever_inside B_ 2 3 dependent_columns 9 1 1 2 (fst (fst dependent_state))
           (snd (fst dependent_state)) (snd dependent_state) 2 1 dependent_cycle).
  - apply plain_eq'. vm_compute. reflexivity.
  - lia.
  - apply plain_eq. vm_compute. reflexivity.
  - apply plain_eq. vm_compute. reflexivity.
Qed.

Definition large_columns : grid Z := [[2 ^ 600; 2 ^ 600]; [0; 1]]%Z.
Definition large_cycle :=
  Eval vm_compute in
    match iter (ns_next B_ 2 2 2) 1 (start B_ 2 2 large_columns) with
    | Some s => s
    | None => (0, 0, [], [], junk_ B_)
    end.

Lemma large_forever : forall fuel,
  NguyenStehle B_ fuel 2 2 large_columns [] (junk_ B_) = Unfinished.
Proof.
  apply (forever_outside B_ 2 2 large_columns 2 1 1 large_cycle);
    apply plain_eq'; vm_compute; reflexivity.
Qed.
