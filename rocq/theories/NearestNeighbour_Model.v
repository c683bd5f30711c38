(** Model of numerics/nearest_neighbour_body.hpp, with exact arithmetic on real numbers. *)
From Coq Require Import Bool List Reals.
Import ListNotations.
Open Scope R_scope.

(** The differences of values are vectors with three coordinates. *)
Record vector := Vector { x : R; y : R; z : R }.
Definition sub (a b : vector) : vector := Vector (x a - x b) (y a - y b) (z a - z b).
Definition InnerProduct (a b : vector) : R := x a * x b + y a * y b + z a * z b.
Definition Norm2 (a : vector) : R := InnerProduct a a.
(** geometry/barycentre_calculator_body.hpp: equal weights. *)
Definition Barycentre (l : list vector) : vector :=
  let sum f := fold_right (fun v s => f v + s) 0 l in
  let n := INR (length l) in
  Vector (sum x / n) (sum y / n) (sum z / n).
Definition Rltb (a b : R) : bool := if Rlt_dec a b then true else false.

(** A value is at a position; what the client gives and gets is a pointer. *)
Record value := Value { pointer : nat; position : vector }.
(** numerics/nearest_neighbour.hpp:79-98: a leaf has indices in the displacements. *)
Inductive tree := Leaf (indices : list nat) | Internal (principal_axis anchor : vector) (first second : tree).
(** numerics/nearest_neighbour.hpp:150-165.  The root exists after Initialize. *)
Record state := State { values : list value; centroid : vector; displacements : list vector; root : option tree }.
(** What is not modelled: the principal axis of displacements, by ComputePrincipalComponentForm and Diagonalize; and std::nth_element, on pairs of an index and a projection. *)
Record library := Library { principal_axis : list vector -> vector; nth_element : nat -> list (nat * R) -> list (nat * R) }.
Definition displacement (d : list vector) (i : nat) : vector := nth i d (Vector 0 0 0).
(** std::max_element: the first of the largest. *)
Definition max_element (a : nat * R) (l : list (nat * R)) : nat * R := fold_left (fun largest i => if Rltb (snd largest) (snd i) then i else largest) l a.

(** numerics/nearest_neighbour_body.hpp:108-168.  [None]: out of fuel, or a reference to an element that does not exist. *)
Fixpoint BuildTree (fuel : nat) (lib : library) (max_values_per_cell : nat) (d : list vector) (indices : list (nat * R)) : option tree :=
  match fuel with
  | O => None
  | S fuel =>
    let size := length indices in
    if Nat.leb size max_values_per_cell then Some (Leaf (map fst indices))
    else
      let axis := principal_axis lib (map (fun i => displacement d (fst i)) indices) in
      let indices := map (fun i => (fst i, InnerProduct axis (displacement d (fst i)))) indices in
      let mid := Nat.div2 size in
      let indices := nth_element lib mid indices in
      let lower := firstn mid indices in
      let upper := skipn mid indices in
      match upper with
      | mid_upper :: _ =>
        let mid_lower := match lower with l :: ls => max_element l ls | [] => mid_upper end in
        let anchor := Barycentre [displacement d (fst mid_lower); displacement d (fst mid_upper)] in
        match BuildTree fuel lib max_values_per_cell d lower, BuildTree fuel lib max_values_per_cell d upper with
        | Some first_child, Some second_child => Some (Internal axis anchor first_child second_child)
        | _, _ => None
        end
      | [] => None
      end
  end.
(** numerics/nearest_neighbour_body.hpp:82-106 *)
Definition Initialize (lib : library) (max_values_per_cell : nat) (v : list value) : option state :=
  let c := Barycentre (map position v) in
  let d := map (fun v => sub (position v) c) v in
  match BuildTree (S (length d)) lib max_values_per_cell d (map (fun i => (i, 0)) (seq 0 (length d))) with
  | Some root => Some (State v c d (Some root))
  | None => None
  end.
(** numerics/nearest_neighbour_body.hpp:29-39, without the check that the size is an std::int32_t. *)
Definition Construct (lib : library) (max_values_per_cell : nat) (v : list value) : option state :=
  match v with [] => Some (State [] (Vector 0 0 0) [] None) | _ => Initialize lib max_values_per_cell v end.
(** numerics/nearest_neighbour_body.hpp:183-225; [None] also for the failed check that the leaf was split. *)
Fixpoint AddIndex (lib : library) (max_values_per_cell : nat) (d : list vector) (index : nat) (node : tree) : option tree :=
  match node with
  | Internal axis anchor first second =>
    let projection := InnerProduct axis (sub (displacement d index) anchor) in
    if Rltb projection 0 then
      match AddIndex lib max_values_per_cell d index first with Some first => Some (Internal axis anchor first second) | None => None end
    else
      match AddIndex lib max_values_per_cell d index second with Some second => Some (Internal axis anchor first second) | None => None end
  | Leaf leaf =>
    let leaf := leaf ++ [index] in
    if Nat.ltb max_values_per_cell (length leaf) then
      match BuildTree (S (length leaf)) lib max_values_per_cell d (map (fun i => (i, 0)) leaf) with
      | Some (Internal axis anchor first second) => Some (Internal axis anchor first second)
      | _ => None
      end
    else Some (Leaf leaf)
  end.
(** numerics/nearest_neighbour_body.hpp:41-57 *)
Definition Add (lib : library) (max_values_per_cell : nat) (s : state) (v : value) : option state :=
  let vs := values s ++ [v] in
  if Nat.eqb (length vs) 1 then Initialize lib max_values_per_cell vs
  else
    let index := length (displacements s) in
    let d := displacements s ++ [sub (position v) (centroid s)] in
    match root s with
    | Some root => match AddIndex lib max_values_per_cell d index root with Some root => Some (State vs (centroid s) d (Some root)) | None => None end
    | None => None
    end.

(** A squared distance; [None] is infinity. *)
Definition less (a b : option R) : bool := match a, b with Some a, Some b => Rltb a b | Some _, None => true | None, _ => false end.
(** numerics/nearest_neighbour_body.hpp:320-326 and 354-360: [None] if nothing is stored, because there is no parent or no place for it. *)
Definition check_other_side (d : vector) (parent : option (vector * vector)) (wanted : bool) (min_distance2 : option R) : option bool :=
  match parent, wanted with
  | Some (axis, anchor), true =>
    let p := InnerProduct axis (sub d anchor) in
    Some (less (Some (p * p)) min_distance2)
  | _, _ => None
  end.
(** numerics/nearest_neighbour_body.hpp:227-361.  The result has the squared distance, the index ([None] is no_min_index) and what is stored in
    must_check_other_side; [wanted] is whether there is such a place.  [None] is a failed check, or a read of what was not stored. *)
Fixpoint Find (s : state) (filter : nat -> bool) (d : vector) (parent : option (vector * vector)) (node : tree) (wanted : bool) : option (option R * option nat * option bool) :=
  match node with
  | Leaf leaf =>
    match leaf with
    | [] => None
    | _ =>
      let '(min_distance2, min_index) :=
        fold_left (fun '(min_distance2, min_index) index =>
            let distance2 := Norm2 (sub (displacement (displacements s) index) d) in
            if (less (Some distance2) min_distance2 && match nth_error (values s) index with Some v => filter (pointer v) | None => false end)%bool
            then (Some distance2, Some index) else (min_distance2, min_index)) leaf (None, None) in
      Some (min_distance2, min_index, check_other_side d parent wanted min_distance2)
    end
  | Internal axis anchor first second =>
    let projection := InnerProduct axis (sub d anchor) in
    match Find s filter d (Some (axis, anchor)) (if Rltb projection 0 then first else second) true with
    | Some (preferred_min_distance2, preferred_min_index, Some preferred_must_check_other_side) =>
      let min :=
        if preferred_must_check_other_side then
          match Find s filter d parent (if Rltb projection 0 then second else first) false with
          | Some (other_min_distance2, other_min_index, _) =>
            if less other_min_distance2 preferred_min_distance2 then Some (other_min_distance2, other_min_index) else Some (preferred_min_distance2, preferred_min_index)
          | None => None
          end
        else Some (preferred_min_distance2, preferred_min_index) in
      match min with
      | Some (min_distance2, min_index) => Some (min_distance2, min_index, check_other_side d parent wanted min_distance2)
      | None => None
      end
    | _ => None
    end
  end.
(** numerics/nearest_neighbour_body.hpp:59-80.  The result is the pointer, or [Some None] for nullptr; [None] is undefined. *)
Definition FindNearestNeighbour (s : state) (v : vector) (filter : nat -> bool) : option (option nat) :=
  match displacements s with
  | [] => Some None
  | _ =>
    match root s with
    | None => None
    | Some root =>
      match Find s filter (sub v (centroid s)) None root false with
      | Some (_, None, _) => Some None
      | Some (_, Some min_index, _) => match nth_error (values s) min_index with Some v => Some (Some (pointer v)) | None => None end
      | None => None
      end
    end
  end.
