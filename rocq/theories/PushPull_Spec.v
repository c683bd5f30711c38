(* What a task that is given a callback should compute: the same thing as if the callback was an ordinary function. *)
From Coq Require Import List.
From Verif Require Import PushPull_Model.
Import ListNotations.

(* The function may have a state: its result depends on the calls made so far.  The result is that of the task, and the list of the
   calls, with their results. *)
Fixpoint direct {A R T} (answer : list (A * R) -> A -> R) (m : task A R T) (calls : list (A * R)) : T * list (A * R) :=
  match m with
  | Return t => (t, calls)
  | Call a k => direct answer (k (answer calls a)) (calls ++ [(a, answer calls a)])
  end.
