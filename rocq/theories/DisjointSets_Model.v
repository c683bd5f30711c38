(** Model of base/disjoint_sets_body.hpp. *)
From Coq Require Import List Arith Bool.
Import ListNotations.

(** A node is identified with the element that owns it ([Node::Get] is injective).  [P] is
    [Subset<T>::Properties], [merge a b] is the value of [a] after [a.MergeWith(b)]; the state in which [b] is
    left is irrelevant because its node is no longer a root. *)
Section DisjointSets.
Variable P : Type.
Variable merge : P -> P -> P.

Record heap := Heap { parent : nat -> nat; rank : nat -> nat; properties : nat -> option P }.

Definition set {A} (f : nat -> A) (x : nat) (v : A) : nat -> A := fun y => if Nat.eqb y x then v else f y.

(** base/disjoint_sets_body.hpp:27-36, [MakeSingleton]. *)
Definition MakeSingleton (e : nat) (p : P) (h : heap) : heap :=
  Heap (set (parent h) e e) (set (rank h) e 0) (set (properties h) e (Some p)).

(** base/disjoint_sets_body.hpp:69-75, [Node::Root] with path compression.  [None]: recursion deeper than
    [fuel]. *)
Fixpoint Root (fuel : nat) (n : nat) (h : heap) : option (heap * nat) :=
  match fuel with
  | O => None
  | S f =>
      if Nat.eqb (parent h n) n then Some (h, parent h n)
      else match Root f (parent h n) h with
           | Some (h', r) => Some (Heap (set (parent h') n r) (rank h') (properties h'), r)
           | None => None
           end
  end.

(** [properties_->MergeWith(...)]; dereferencing an empty optional is undefined behaviour, [None]. *)
Definition merge_into (h : heap) (winner loser : nat) : option heap :=
  match properties h winner, properties h loser with
  | Some pw, Some pl => Some (Heap (parent h) (rank h) (set (properties h) winner (Some (merge pw pl))))
  | _, _ => None
  end.

(** base/disjoint_sets_body.hpp:39-58, [Unite]; the arguments are the nodes of the subsets.  [rank_] is an [int]
    but stays below the number of elements; it is modelled by a natural number. *)
Definition Unite (left right : nat) (h : heap) : option (heap * nat) :=
  if Nat.eqb left right then Some (h, left)
  else if rank h left <? rank h right then
    let h := Heap (set (parent h) left right) (rank h) (properties h) in
    match merge_into h right left with Some h => Some (h, right) | None => None end
  else if rank h right <? rank h left then
    let h := Heap (set (parent h) right left) (rank h) (properties h) in
    match merge_into h left right with Some h => Some (h, left) | None => None end
  else
    let h := Heap (set (parent h) right left) (set (rank h) left (S (rank h left))) (properties h) in
    match merge_into h left right with Some h => Some (h, left) | None => None end.

(** Client operations: [Find(x)] and [Unite(Find(x), Find(y))] (arguments evaluated left to right). *)
Inductive op := OFind (x : nat) | OUnite (x y : nat).

Definition step (fuel : nat) (o : op) (h : heap) : option (heap * nat) :=
  match o with
  | OFind x => Root fuel x h
  | OUnite x y =>
      match Root fuel x h with
      | Some (h, l) =>
          match Root fuel y h with
          | Some (h, r) => Unite l r h
          | None => None
          end
      | None => None
      end
  end.

Fixpoint run (fuel : nat) (ops : list op) (h : heap) : option heap :=
  match ops with
  | [] => Some h
  | o :: ops' => match step fuel o h with Some (h', _) => run fuel ops' h' | None => None end
  end.

(** [MakeSingleton] on every element of a list. *)
Fixpoint singletons (es : list (nat * P)) (h : heap) : heap :=
  match es with
  | [] => h
  | (e, p) :: es' => singletons es' (MakeSingleton e p h)
  end.
End DisjointSets.
Arguments Root {P}. Arguments Heap {P}. Arguments parent {P}. Arguments rank {P}. Arguments properties {P}.
Arguments MakeSingleton {P}. Arguments singletons {P}.
Arguments Unite {P}. Arguments step {P}. Arguments run {P}. Arguments merge_into {P}.
