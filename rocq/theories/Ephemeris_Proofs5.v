(** The inputs that the constructor of an ephemeris rejects. *)
From Coq Require Import Reals List Permutation.
From Verif Require Import Ephemeris_Model Ephemeris_Proofs.
Import ListNotations.

Lemma entries_bodies e : consistent e -> map (fun x => address (fst (fst x))) (entries e) = map address (bodies_ e).
Proof.
  intros (O & S & gs & _ & _ & _ & _ & _ & _ & LT & LP & LV & _). unfold entries.
  revert LT LP LV. generalize (trajectories_ e) as t, (state_positions e) as p, (state_velocities e) as v.
  induction (bodies_ e) as [|b l IH]; intros t p v LT LP LV; [reflexivity|].
  destruct t, p, v; try discriminate. cbn. f_equal. apply IH; [now injection LT|now injection LP|now injection LV].
Qed.
Lemma make_rejects inputs : make_ephemeris inputs = None <-> inputs = [] \/ ~ NoDup (map (fun x => address (fst (fst x))) inputs).
Proof.
  destruct inputs as [|x l]; [split; auto; intros _; reflexivity|]. destruct (make_consistent (x :: l) ltac:(discriminate)) as [A B]. split.
  - intros H. right. exact (A H).
  - intros [H|H]; [discriminate|]. destruct (make_ephemeris (x :: l)) as [e|]; [|reflexivity]. exfalso. apply H.
    destruct (B e eq_refl) as (C & P & _). apply (Permutation_NoDup (Permutation_map (fun x => address (fst (fst x))) P)).
    rewrite (entries_bodies e C). destruct C as (O & S & gs & C). tauto.
Qed.
