(** C06: theorems about base/disjoint_sets_body.hpp. *)
From Coq Require Import List Arith Lia Relations.
From Verif Require Import DisjointSets_Model DisjointSets_Proofs.
Import ListNotations.

(** Starting from an arbitrary heap [h0] (nodes left over from earlier partitions), make singletons of the
    distinct elements of [l], then run any sequence of Find and Unite on them.  Nothing dereferences an empty
    optional, recursion depth is bounded by the number of operations, Find returns the same node for two
    elements iff they are related by the equivalence generated by the Unite calls, and the properties of the
    subset containing [x] are a merge of the properties given for exactly the members of its class. *)
Theorem C06_disjoint_sets :
  forall (P : Type) (merge : P -> P -> P) (l : list (nat * P)) (h0 : heap P) (ops : list op) (fuel : nat),
  NoDup (map fst l) -> Forall (op_in (map fst l)) ops -> length ops < fuel ->
  exists h', run merge fuel ops (singletons l h0) = Some h' /\
  exists c,
    (forall x, In x (map fst l) -> exists h'', Root fuel x h' = Some (h'', c x)) /\
    (forall x y, In x (map fst l) -> In y (map fst l) -> (c x = c y <-> related (united ops) x y)) /\
    (forall x, In x (map fst l) ->
       exists members p, properties h' (c x) = Some p /\
         NoDup (map fst members) /\ (forall e q, In (e, q) members -> In (e, q) l) /\
         (forall y, In y (map fst members) <-> In y (map fst l) /\ related (united ops) x y) /\
         built merge (map snd members) p).
Proof. exact @disjoint_sets_correct. Qed.
Print Assumptions C06_disjoint_sets.

(** Five elements, with garbage parents beforehand; properties are lists of members. *)
Definition es : list (nat * list nat) := map (fun k => (k, [k])) [0; 1; 2; 3; 4].
Definition h0 : heap (list nat) := Heap (fun k => S k) (fun k => 7 * k) (fun _ => None).
Definition ops : list op := [OUnite 0 1; OUnite 2 3; OFind 3; OUnite 3 1; OUnite 0 2].
Example C06_example :
  NoDup (map fst es) /\ Forall (op_in (map fst es)) ops /\
  match run (@app nat) 6 ops (singletons es h0) with
  | Some h' =>
      map (fun x => option_map snd (Root 6 x h')) [0; 1; 2; 3; 4] =
        [Some 2; Some 2; Some 2; Some 2; Some 4] /\
      properties h' 2 = Some [2; 3; 0; 1]
  | None => False
  end.
Proof.
  split; [repeat constructor; cbn; intuition congruence|].
  split; [|vm_compute; auto].
  repeat (apply Forall_cons); [..|apply Forall_nil]; cbn; auto 10.
Qed.
