(* C87: the mass, the centre of mass, the angular momentum and the inertia of a system of rigid bodies are those of their points. *)
From Coq Require Import Reals List Permutation Bool Lra.
From Verif Require Import Geometry_Model Geometry_Proofs Geometry_Proofs2 MechanicalSystem_Model MechanicalSystem_Spec.
From Verif Require Import MechanicalSystem_Proofs MechanicalSystem_Proofs2.
Import ListNotations.
Local Open Scope R_scope.

(* [system_of bodies] is obtained by calling AddRigidBody for each of the bodies, with its motion, its mass and its inertia. *)
Theorem C87_centre_of_mass : forall bodies, Forall centred bodies -> total_mass (all_points bodies) <> 0 ->
  mass (system_of bodies) = total_mass (all_points bodies) /\
  exists q v, centre_of_mass (system_of bodies) = Some (q, v) /\ is_centre (all_points bodies) q v.
Proof. intros bodies C N. split; [apply system_mass|]. now apply system_centre. Qed.

(* The frame of the system does not rotate, its origin is the centre of mass. *)
Theorem C87_linear_motion : forall bodies q v, centre_of_mass (system_of bodies) = Some (q, v) ->
  exists m, LinearMotion (system_of bodies) = Some m /\ forall p w, rm_apply false m (p, w) = (add3 q p, add3 v w).
Proof. exact system_motion. Qed.

Theorem C87_angular_momentum : forall bodies q v, Forall centred bodies -> centre_of_mass (system_of bodies) = Some (q, v) ->
  AngularMomentum (system_of bodies) = Some (momentum (all_points bodies) q v).
Proof. exact system_momentum. Qed.

Theorem C87_inertia : forall bodies q v, Forall centred bodies -> centre_of_mass (system_of bodies) = Some (q, v) ->
  InertiaTensor (system_of bodies) = Some (inertia_about (all_points bodies) q).
Proof. exact system_inertia. Qed.

(* If the points move like a single rigid body, the angular momentum is the product of the inertia and the angular velocity. *)
Theorem C87_rigid : forall bodies q v w, Forall centred bodies -> centre_of_mass (system_of bodies) = Some (q, v) ->
  (forall m, In m (all_points bodies) -> sub3 (snd (snd m)) v = Cross w (sub3 (fst (snd m)) q)) ->
  exists i, InertiaTensor (system_of bodies) = Some i /\ AngularMomentum (system_of bodies) = Some (Mapp i w).
Proof.
  intros bodies q v w C E H. exists (inertia_about (all_points bodies) q). split; [now apply (system_inertia _ _ v)|].
  rewrite (system_momentum _ q v C E). f_equal. now apply rigid_momentum.
Qed.

(* The order of the bodies doesn't matter, nor does the way the points are distributed among them. *)
Theorem C87_partition : forall bodies bodies' q v, Forall centred bodies -> Forall centred bodies' ->
  centre_of_mass (system_of bodies) = Some (q, v) -> centre_of_mass (system_of bodies') = Some (q, v) ->
  Permutation.Permutation (all_points bodies) (all_points bodies') ->
  AngularMomentum (system_of bodies) = AngularMomentum (system_of bodies') /\ InertiaTensor (system_of bodies) = InertiaTensor (system_of bodies').
Proof.
  intros bodies bodies' q v C C' E E' P. rewrite (system_momentum _ q v C E), (system_momentum _ q v C' E'), (system_inertia _ q v C E), (system_inertia _ q v C' E').
  split; f_equal; [unfold momentum; now apply sum3_permutation|]. unfold inertia_about, inertia. f_equal; apply sum3_permutation; now apply Permutation.Permutation_map.
Qed.

(* An empty system has no centre of mass. *)
Theorem C87_empty : mass EmptySystem = 0 /\ centre_of_mass EmptySystem = None /\ AngularMomentum EmptySystem = None /\ InertiaTensor EmptySystem = None.
Proof. repeat split. Qed.

(* Two dumbbells with the same mass which rotate at different rates and go around each other; the second one is described in a
   left-handed frame. *)
Definition dumbbells : list body :=
  [Body false (RigidMotionOfFrom false (mkA zero3 (mk3 3 0 0) RotIdentity) (mk3 0 0 2) (mk3 0 1 0)) [(1, mk3 1 0 0); (1, mk3 (-1) 0 0)];
   Body true (RigidMotionOfFrom true (mkA zero3 (mk3 (-1) 0 0) RotIdentity) (mk3 0 0 1) (mk3 0 (-1) 0)) [(1, mk3 0 1 0); (1, mk3 0 (-1) 0)]].
Lemma dumbbells_centred : Forall centred dumbbells.
Proof.
  repeat constructor; cbv [unit_q centred sum3 sum]; cbn; try ring; red_all; apply mk3_eq; ring.
Qed.
Example C87_example :
  mass (system_of dumbbells) = 4 /\ centre_of_mass (system_of dumbbells) = Some (mk3 1 0 0, zero3) /\
  AngularMomentum (system_of dumbbells) = Some (mk3 0 0 14) /\
  InertiaTensor (system_of dumbbells) = Some (mkM (mk3 2 0 0) (mk3 0 18 0) (mk3 0 0 20)).
Proof.
  assert (P : all_points dumbbells =
    [(1, (mk3 4 0 0, mk3 0 3 0)); (1, (mk3 2 0 0, mk3 0 (-1) 0)); (1, (mk3 (-1) (-1) 0, mk3 1 (-1) 0)); (1, (mk3 (-1) 1 0, mk3 (-1) (-1) 0))]).
  { unfold all_points, dumbbells, flat_map, material_points, points, map, app, fst, snd, handedness, motion. 
    assert (L : forall (a b : material) l l', a = b -> l = l' -> a :: l = b :: l') by (intros; congruence).
    repeat (apply L; [f_equal; identity_tac;
      cbv [orth_vector orth_bivector MakeSignature SigCentralInversion SigIdentity SigXY sign_mul negb Bool.eqb sig_vector sig_bivector smul sx sy sz];
      rewrite ?rotate_id; red_all; f_equal; apply mk3_eq; ring|]).
    reflexivity. }
  assert (M : total_mass (all_points dumbbells) = 4) by (rewrite P; cbv [total_mass sum fold_right fst]; ring).
  destruct (C87_centre_of_mass dumbbells dumbbells_centred) as (MM & q & v & E & C1 & C2); [rewrite M; lra|].
  assert (Q : q = mk3 1 0 0 /\ v = zero3).
  { rewrite M, P in C1, C2. revert C1 C2. cbv [sum3 sum fold_right fst snd]. destruct q, v. red_all. intros C1 C2. injection C1 as ? ? ?. injection C2 as ? ? ?.
    split; apply mk3_eq; lra. }
  destruct Q; subst q v. rewrite MM, M. split; [reflexivity|]. split; [exact E|].
  rewrite (C87_angular_momentum _ _ _ dumbbells_centred E), (C87_inertia _ _ _ dumbbells_centred E), P. split; f_equal.
  - cbv [momentum sum3 sum fold_right fst snd]. red_all. apply mk3_eq; ring.
  - cbv [inertia_about inertia sum3 sum fold_right fst snd map]. red_all. apply mkM_eq; apply mk3_eq; ring.
Qed.

Print Assumptions C87_centre_of_mass.
Print Assumptions C87_linear_motion.
Print Assumptions C87_angular_momentum.
Print Assumptions C87_inertia.
Print Assumptions C87_rigid.
Print Assumptions C87_partition.
Print Assumptions C87_empty.
