(** C49: ksp_plugin/part_subsets.cpp, pile-ups after collection are exactly the collected subsets. *)
From Coq Require Import List Arith Bool ZArith.
From Verif Require Import PartSubsets_Model PartSubsets_Proofs.
Import ListNotations.

Theorem C49_frames : forall ps s ps' ops cs,
  reachable ps s -> NoDup ps' ->
  (forall p, In p ps' -> In p ps \/ (containing s p = None /\ forall u, ~ In p (pile_parts s u))) ->
  Forall (op_in ps') ops -> (forall p, In p cs -> In p ps') ->
  (forall p, In p ps' -> exists q, In q cs /\ related (united ops) p q) ->
  exists s1 s', run ops (prepare ps' s) = Some s1 /\ collect_all cs s1 = Some s' /\
    (forall p, In p ps' -> exists u, containing s' p = Some u /\
       (forall q, In q (pile_parts s' u) <-> In q ps' /\ related (united ops) p q) /\ NoDup (pile_parts s' u)) /\
    (forall p q, In p ps' -> In q ps' -> (containing s' p = containing s' q <-> related (united ops) p q)) /\
    (forall p u, In p ps' -> containing s p = Some u ->
       (containing s' p = Some u <-> forall q, In q (pile_parts s u) <-> In q ps' /\ related (united ops) p q)).
Proof. exact frames_correct. Qed.
Print Assumptions C49_frames.

(** Three frames.  First: {1,2,3} and {4,5}.  Second: 3 splits off {1,2,3} while {4,5} is kept.  Third: part 5
    is gone, so that {4} is no longer the pile-up of 4 although it was not reported in any other contact. *)
Definition frame (ps : list part) (ops : list op) (cs : list part) (s : state) : option state :=
  match run ops (prepare ps s) with Some s1 => collect_all cs s1 | None => None end.
Definition init : state := State (fun _ => None) (fun _ => []) 0 [].
Definition after1 := frame [1;2;3;4;5] [OUnite 1 2 false; OUnite 5 4 true; OUnite 3 1 true] [1;4;1] init.
Definition after2 := match after1 with Some s => frame [1;2;3;4;5] [OUnite 4 5 false; OUnite 2 1 false] [1;3;5] s | None => None end.
Definition after3 := match after2 with Some s => frame [1;2;3;4] [OUnite 2 1 true] [4;3;2] s | None => None end.
Definition labels (s : option state) := match s with Some s => map (containing s) [1;2;3;4;5] | None => [] end.
Example C49_frames_ex1 : labels after1 = [Some 0; Some 0; Some 0; Some 1; Some 1].
Proof. vm_compute. reflexivity. Qed.
Example C49_frames_ex2 : labels after2 = [Some 2; Some 2; Some 3; Some 1; Some 1].
Proof. vm_compute. reflexivity. Qed.
Example C49_frames_ex3 : firstn 4 (labels after3) = [Some 2; Some 2; Some 3; Some 4].
Proof. vm_compute. reflexivity. Qed.
