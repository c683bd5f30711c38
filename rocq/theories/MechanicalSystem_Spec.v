(* What the properties of a system of bodies should be: those of the material points of which the bodies are made. *)
From Coq Require Import Reals List.
From Verif Require Import Geometry_Model Geometry_Proofs Geometry_Proofs2.
Import ListNotations.
Local Open Scope R_scope.

(* Sums of numbers and of vectors. *)
Definition sum {A} (f : A -> R) (l : list A) : R := fold_right (fun a s => f a + s) 0 l.
Definition sum3 {A} (f : A -> R3) (l : list A) : R3 := mk3 (sum (fun a => cx (f a)) l) (sum (fun a => cy (f a)) l) (sum (fun a => cz (f a)) l).

(* A body: its motion, and its points, with their masses and their positions in its frame. *)
Record body := Body { handedness : bool; motion : RigidMotion; points : list (R * R3) }.
(* A material point: its mass, its position and its velocity. *)
Definition material := (R * (R3 * R3))%type.
Definition material_points (b : body) : list material :=
  map (fun p => (fst p, rm_apply (handedness b) (motion b) (snd p, zero3))) (points b).
Definition all_points (bodies : list body) : list material := flat_map material_points bodies.

Definition body_mass (b : body) : R := sum fst (points b).
(* The matrix of inertia of points, with respect to the origin: its product by an angular velocity w is Σ μ p × (w × p). *)
Definition inertia (l : list (R * R3)) : M3 :=
  mkM (sum3 (fun p => scal3 (fst p) (Cross (snd p) (Cross (mk3 1 0 0) (snd p)))) l)
      (sum3 (fun p => scal3 (fst p) (Cross (snd p) (Cross (mk3 0 1 0) (snd p)))) l)
      (sum3 (fun p => scal3 (fst p) (Cross (snd p) (Cross (mk3 0 0 1) (snd p)))) l).
(* The origin of the frame of the body is its centre of mass. *)
Definition centred (b : body) : Prop := unit_q (linear (rt (motion b))) /\ sum3 (fun p => scal3 (fst p) (snd p)) (points b) = zero3.

Definition total_mass (l : list material) : R := sum fst l.
Definition is_centre (l : list material) (position velocity : R3) : Prop :=
  scal3 (total_mass l) position = sum3 (fun m => scal3 (fst m) (fst (snd m))) l /\
  scal3 (total_mass l) velocity = sum3 (fun m => scal3 (fst m) (snd (snd m))) l.
(* The angular momentum and the inertia with respect to a moving point. *)
Definition momentum (l : list material) (position velocity : R3) : R3 :=
  sum3 (fun m => scal3 (fst m) (Cross (sub3 (fst (snd m)) position) (sub3 (snd (snd m)) velocity))) l.
Definition inertia_about (l : list material) (position : R3) : M3 :=
  inertia (map (fun m => (fst m, sub3 (fst (snd m)) position)) l).
