(* What is expected of the inputs and outputs. *)
From Coq Require Import List.
From Verif Require Import Recurring_Model.
Import ListNotations.

(* [subsequence l l']: [l] is obtained by dropping elements of [l']. *)
Inductive subsequence {X} : list X -> list X -> Prop :=
| sub_nil : subsequence [] []
| sub_drop x l l' : subsequence l l' -> subsequence l (x :: l')
| sub_keep x l l' : subsequence l l' -> subsequence (x :: l) (x :: l').

(* The outputs of the action when it is run on some inputs, in order, after some other ones. *)
Fixpoint outputs {I O} (action : list I -> I -> option O) (before l : list I) : list O :=
  match l with
  | [] => []
  | i :: l' => match action before i with Some o => [o] | None => [] end ++ outputs action (before ++ [i]) l'
  end.

(* The calls which change the thread. *)
Definition controls {I} (e : event I) : bool :=
  match e with Start | Stop | Restart | Destroy => true | _ => false end.
Definition starts {I} (e : event I) : bool := match e with Start | Restart => true | _ => false end.
Definition is_put {I} (e : event I) : bool := match e with Put _ => true | _ => false end.
Definition is_step {I} (e : event I) : bool := match e with Step => true | _ => false end.
Definition count {X} (f : X -> bool) (l : list X) : nat := length (filter f l).
