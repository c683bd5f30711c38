(** Model of physics/jacobi_coordinates_body.hpp and physics/hierarchical_system_body.hpp.  Numbers are real, vectors are
    given by their coordinates.  The maps Identity between frames, which do not change the coordinates, are omitted; so are
    the serialization and the destruction of the moved-from objects. *)
From Coq Require Import Reals List Bool Arith.
From Verif Require Import Geometry_Model.
Import ListNotations.
Open Scope R_scope.

(** * Degrees of freedom, physics/degrees_of_freedom_body.hpp: operations by components *)
Definition DoF : Type := (R3 * R3)%type.
Definition dzero : DoF := (zero3, zero3).
Definition dadd (a b : DoF) : DoF := (add3 (fst a) (fst b), add3 (snd a) (snd b)).
Definition dsub (a b : DoF) : DoF := (sub3 (fst a) (fst b), sub3 (snd a) (snd b)).
Definition dscal (k : R) (a : DoF) : DoF := (scal3 k (fst a), scal3 k (snd a)).
Definition ddiv (a : DoF) (k : R) : DoF := (div3 (fst a) k, div3 (snd a) k).

(** A MassiveBody: its address and its gravitational parameter. *)
Record Body := mkBody { address : nat; mu : R }.
(** KeplerianElements (physics/kepler_orbit.hpp:29-83): the elements that the comparison uses and, for the others, the function
    which yields the [StateVectors(epoch)] of the [KeplerOrbit] with these elements at [epoch], from the sum of the
    gravitational parameters of the primary and of the secondary (kepler_orbit_body.hpp:124-137, 202-248). *)
Record Elements := mkElements {
  semimajor_axis : option R;
  mean_motion : option R;
  period : option R;
  state_vectors : R -> DoF }.

(** * BarycentreCalculator<DegreesOfFreedom, GravitationalParameter>, geometry/barycentre_calculator_body.hpp:16-53, where the
    reference is the motionless origin; [None] is the empty calculator and, for [Get], the CHECK. *)
Definition Calculator := option (DoF * R).
Definition CalculatorAdd (c : Calculator) (p : DoF) (w : R) : Calculator :=
  let d := dscal w (dsub p dzero) in
  match c with None => Some (d, w) | Some (s, t) => Some (dadd s d, t + w) end.
Definition CalculatorGet (c : Calculator) : option DoF :=
  match c with None => None | Some (s, t) => Some (dadd dzero (ddiv s t)) end.
(** Lines 48-53; the weight of an empty calculator is 0 (barycentre_calculator.hpp). *)
Definition CalculatorWeight (c : Calculator) : R := match c with None => 0 | Some (_, t) => t end.

(** * JacobiCoordinates *)
Record Jacobi := mkJacobi { primocentric_dof_ : list DoF; system_barycentre_ : Calculator }.
(** jacobi_coordinates_body.hpp:16-23. *)
Definition JacobiCoordinates (primary : Body) : Jacobi := mkJacobi [dzero] (CalculatorAdd None dzero (mu primary)).
(** Lines 25-33, for a body with the gravitational parameter [m]. *)
Definition JAdd (j : Jacobi) (m : R) (dof_relative_to_system : DoF) : option Jacobi :=
  match CalculatorGet (system_barycentre_ j) with
  | None => None
  | Some b =>
      let d := dadd b dof_relative_to_system in
      Some (mkJacobi (primocentric_dof_ j ++ [d]) (CalculatorAdd (system_barycentre_ j) d m))
  end.
(** Lines 47-51: the gravitational parameter of the body. *)
Definition JSystem (j : Jacobi) : R := CalculatorWeight (system_barycentre_ j).
(** Lines 35-45. *)
Definition JAddElements (j : Jacobi) (m : R) (elements : Elements) : option Jacobi :=
  JAdd j m (state_vectors elements (JSystem j + m)).
(** Lines 53-64. *)
Definition BarycentricDegreesOfFreedom (j : Jacobi) : option (list DoF) :=
  match CalculatorGet (system_barycentre_ j) with
  | None => None
  | Some b => Some (map (fun dof => dsub dof b) (primocentric_dof_ j))
  end.

(** * HierarchicalSystem *)
(** hierarchical_system.hpp:52-72: a System, whose satellites are Subsystems with their elements. *)
Inductive System := mkSystem (primary : Body) (satellites : list (Elements * System)).
Definition primary_of (s : System) : Body := let (p, _) := s in p.
(** The addresses of the bodies: the keys of [systems_]. *)
Fixpoint addresses (s : System) : list nat :=
  let (p, satellites) := s in
  address p :: concat (map (fun x => addresses (snd x)) satellites).
(** The insertion of a satellite in the system whose primary is at the address [parent]. *)
Fixpoint insert (s : System) (parent : nat) (satellite : Elements * System) : System :=
  let (p, satellites) := s in
  if Nat.eqb (address p) parent then mkSystem p (satellites ++ [satellite])
  else mkSystem p (map (fun x => (fst x, insert (snd x) parent satellite)) satellites).
(** hierarchical_system_body.hpp:30-46; [None] is the dereference of the null pointer inserted by [operator[]] when there is
    no [parent]. *)
Definition Add (s : System) (body : Body) (parent : nat) (elements : Elements) : option System :=
  if existsb (Nat.eqb parent) (addresses s) then Some (insert s parent (elements, mkSystem body [])) else None.

Definition Rltb (x y : R) : bool := if Rlt_dec x y then true else false.
(** Lines 74-100; [None] is the LOG(FATAL). *)
Definition semimajor_axis_less_than (l r : Elements) : option bool :=
  match semimajor_axis l, semimajor_axis r with
  | Some a, Some b => Some (Rltb a b)
  | _, _ =>
      match mean_motion l, mean_motion r with
      | Some a, Some b => Some (Rltb b a)
      | _, _ =>
          match period l, period r with
          | Some a, Some b => Some (Rltb a b)
          | _, _ => None
          end
      end
  end.

(** std::sort, as the sequence of the indices of the elements after the sort; here an insertion sort (as in the standard
    libraries for short vectors); the theorems are about any [order] which satisfies the contract of std::sort. *)
Fixpoint insert_index (k : Elements) (i : nat) (l : list (Elements * nat)) : option (list (Elements * nat)) :=
  match l with
  | [] => Some [(k, i)]
  | (k', i') :: l' =>
      match semimajor_axis_less_than k k' with
      | None => None
      | Some true => Some ((k, i) :: l)
      | Some false => match insert_index k i l' with None => None | Some m => Some ((k', i') :: m) end
      end
  end.
Fixpoint insertion_sort (l : list (Elements * nat)) (sorted : list (Elements * nat)) : option (list (Elements * nat)) :=
  match l with
  | [] => Some sorted
  | (k, i) :: l => match insert_index k i sorted with None => None | Some m => insertion_sort l m end
  end.
Definition insertion_order (keys : list Elements) : option (list nat) :=
  match insertion_sort (combine keys (seq 0 (length keys))) [] with None => None | Some m => Some (map snd m) end.

(** hierarchical_system.hpp:75-84. *)
Record BarycentricSubsystem := mkSub {
  equivalent_body : R;
  bodies : list Body;
  barycentric_degrees_of_freedom : list DoF }.
Definition bind {A B} (a : option A) (f : A -> option B) : option B := match a with Some a => f a | None => None end.
Fixpoint all_some {A} (l : list (option A)) : option (list A) :=
  match l with
  | [] => Some []
  | Some a :: l => match all_some l with Some m => Some (a :: m) | None => None end
  | None :: _ => None
  end.
(** One iteration of the loop of lines 130-140: the Jacobi coordinates, the degrees of freedom of the satellites and the
    bodies. *)
Definition satellite_step (state : option (Jacobi * list (list DoF) * list Body)) (satellite : Elements * BarycentricSubsystem)
    : option (Jacobi * list (list DoF) * list Body) :=
  bind state (fun '(j, dofs, bs) =>
  let (elements, sub) := satellite in
  bind (JAddElements j (equivalent_body sub) elements) (fun j =>
  Some (j, dofs ++ [barycentric_degrees_of_freedom sub], bs ++ bodies sub))).
(** Lines 142-169: the degrees of freedom of the bodies. *)
Definition place (barycentric_dof : list DoF) (satellite_dofs : list (list DoF)) : option (list DoF) :=
  let barycentres_of_subsystems := map (fun dof => dadd dzero dof) barycentric_dof in
  match barycentres_of_subsystems with
  | [] => None
  | front :: rest =>
      Some (dsub front dzero ::
            concat (map (fun x => map (fun d => dsub (dadd (fst x) d) dzero) (snd x)) (combine rest satellite_dofs)))
  end.
(** Lines 71-174.  The satellites are converted, then put in the order of the sort; the code sorts first, but the order depends
    only on the elements and the conversion of a satellite only on that satellite. *)
Fixpoint ToBarycentric (order : list Elements -> option (list nat)) (s : System) : option BarycentricSubsystem :=
  let (primary, satellites) := s in
  bind (order (map fst satellites)) (fun indices =>
  bind (all_some (map (fun x => match ToBarycentric order (snd x) with Some r => Some (fst x, r) | None => None end) satellites))
       (fun converted =>
  bind (all_some (map (nth_error converted) indices)) (fun sorted =>
  bind (fold_left satellite_step sorted (Some (JacobiCoordinates primary, [], [primary]))) (fun '(j, dofs, bs) =>
  bind (BarycentricDegreesOfFreedom j) (fun barycentric_dof =>
  bind (place barycentric_dof dofs) (fun result =>
  Some (mkSub (JSystem j) bs result))))))).
(** Lines 48-61. *)
Definition ConsumeBarycentricSystem (order : list Elements -> option (list nat)) (s : System) : option (list Body * list DoF) :=
  bind (ToBarycentric order s) (fun r => Some (bodies r, map (fun d => dadd dzero d) (barycentric_degrees_of_freedom r))).
