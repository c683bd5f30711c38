(* Vocabulary for the statements about the recurrence of ground tracks. *)
From Coq Require Import ZArith Reals List.
From Verif Require Import Recurrence_Model.
Import ListNotations.
Local Open Scope Z_scope.

(* The conditions of orbit_recurrence.hpp:42-46. *)
Definition valid (nu D C : Z) : Prop :=
  C <> 0 /\ (nu <> 0 -> 0 < nu * C) /\ 2 * Z.abs D <= Z.abs C /\ Z.gcd D C = 1.

(* The smallest number of days, in absolute value, after which the ground track is a neighbour of the origin. *)
Definition is_subcycle (D C E : Z) : Prop :=
  (D = 0 -> E = 0) /\
  (D <> 0 -> 0 < E * C /\ ((C | E * D - 1) \/ (C | E * D + 1)) /\
    forall E', 0 < Z.abs E' < Z.abs E -> ~ (C | E' * D - 1) /\ ~ (C | E' * D + 1)).

(* Continued fractions: the partial quotients are positive, except the first one. *)
Definition simple (l : list Z) : Prop :=
  match l with
  | [] => False
  | _ :: l' => Forall (fun a => 1 <= a) l'
  end.
Fixpoint fraction (l : list R) : R :=
  match l with
  | [] => 0%R
  | [a] => a
  | a :: l' => (a + / fraction l')%R
  end.
(* The reduced fraction P / Q is the value of a continued fraction. *)
Definition reduced (l : list Z) (P Q : Z) : Prop :=
  0 < Q /\ Z.gcd P Q = 1 /\ fraction (map IZR l) = (IZR P / IZR Q)%R.
