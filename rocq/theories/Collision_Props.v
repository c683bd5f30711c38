(** C94: the intervals of collision. *)
From Coq Require Import Bool Reals List Lra Lia.
From Verif Require Import Collision_Model Collision_Spec Collision_Proofs.
Import ListNotations.
Open Scope R_scope.

(** The intervals cover all the times where the trajectory is below the maximum radius, it is not above the maximum radius in any of them, and they are disjoint and
    ordered.  No check fails. *)
Definition C94_statement : Prop := forall distance max_radius2 Brent t_min u others t_max, finds_roots distance max_radius2 Brent ->
  extrema_from distance t_min (u :: others) t_max ->
  exists l, ComputeCollisionIntervals distance max_radius2 Brent t_min (t_min :: u :: others) = Some l /\ collisions distance max_radius2 t_min t_max l.
Theorem C94_collisions_partial : forall distance max_radius2 Brent t_min u others t_max, finds_roots distance max_radius2 Brent ->
  extrema_from distance t_min (u :: others) t_max -> (exists up, alternating distance up t_min (u :: others)) ->
  exists l, ComputeCollisionIntervals distance max_radius2 Brent t_min (t_min :: u :: others) = Some l /\ collisions distance max_radius2 t_min t_max l.
Proof.
  intros distance max_radius2 Brent t_min u others t_max BR E A. destruct (intervals_ok distance max_radius2 Brent BR t_min u others t_max E A) as (l & H & [C | X]).
  - exists l. split; assumption.
  - apply anomalous_iff in A. congruence.
Qed.
Print Assumptions C94_collisions_partial.
(** If the minima and maxima do not alternate there are no intervals. *)
Theorem C94_anomalous : forall distance max_radius2 Brent t_min u others, (~ exists up, alternating distance up t_min (u :: others)) ->
  ComputeCollisionIntervals distance max_radius2 Brent t_min (t_min :: u :: others) = Some [].
Proof.
  intros distance max_radius2 Brent t_min u others H. unfold ComputeCollisionIntervals. destruct (is_anomalous _ _ _ _ _) eqn:A; [reflexivity |].
  elim H. apply anomalous_iff. exact A.
Qed.
Print Assumptions C94_anomalous.
(** In particular a trajectory at a constant distance is never considered as colliding, even below the maximum radius. *)
Theorem C94_constant_refuted : ~ C94_statement.
Proof.
  intros H. destruct (H (fun _ => 0) 1 (fun a _ => a) 0 1 [] 1) as (l & E & _ & C & _).
  - intros a b _ [K | K]; lra.
  - cbn. split; [lra |]. split; [| reflexivity]. split; intros; lra.
  - rewrite C94_anomalous in E; [| intros [[|] [K _]]; lra]. injection E as <-. destruct (C 0 ltac:(lra) ltac:(lra)) as (i & [] & _).
Qed.
Print Assumptions C94_constant_refuted.
(** physics/apsides_body.hpp:113-118: if there is not exactly one extremum, the time of the apsis should be that of the linear interpolation.  But it is overwritten by
    the last extremum, which doesn't exist if there is none. *)
Theorem C94_interpolation_refuted : forall interpolation, apsis_time [] interpolation = None /\ forall a b, apsis_time [a; b] interpolation = Some b.
Proof. intros interpolation. split; reflexivity. Qed.
Print Assumptions C94_interpolation_refuted.

(** A trajectory that goes through the body twice: the distance is | |t| - 2 |, with its extrema at -4, -2, 0, 2 and 4. *)
Definition example_distance (t : R) : R := Rabs (Rabs t - 2).
Definition example_brent (a b : R) : R := if Rlt_dec a (-2) then -3 else if Rlt_dec a 0 then -1 else if Rlt_dec a 2 then 1 else 3.
Example C94_example : ComputeCollisionIntervals example_distance 1 example_brent (-4) [-4; -2; 0; 2; 4] = Some [(-3, -1); (1, 3)].
Proof.
  assert (D : example_distance (-4) = 2 /\ example_distance (-2) = 0 /\ example_distance 0 = 2 /\ example_distance 2 = 0 /\ example_distance 4 = 2).
  { unfold example_distance. repeat split; repeat (match goal with |- context [Rabs ?x] => unfold Rabs; repeat destruct (Rcase_abs _); try lra end). }
  destruct D as (D1 & D2 & D3 & D4 & D5). unfold ComputeCollisionIntervals. cbn [is_anomalous outer inner]. rewrite D1, D2, D3, D4, D5. unfold example_brent.
  repeat (match goal with |- context [Rlt_dec ?a ?b] => destruct (Rlt_dec a b); try lra | |- context [Rle_dec ?a ?b] => destruct (Rle_dec a b); try lra end).
  cbn [consistent]. destruct (Rle_dec (-1) 1); [| lra]. destruct (Rle_dec 1 3); [reflexivity | lra].
Qed.
(** The hypotheses are satisfied by a trajectory that moves away at a constant speed. *)
Example C94_example_leaving : let distance := fun t => t in let Brent := fun _ _ => 1 in
  finds_roots distance 1 Brent /\ extrema_from distance 0 [2] 2 /\ alternating distance true 0 [2] /\ ComputeCollisionIntervals distance 1 Brent 0 [0; 2] = Some [(0, 1)].
Proof.
  cbv zeta. split; [intros a b L [K | K]; (split; [lra | reflexivity]) |]. split; [cbn; split; [lra |]; split; [split; intros; lra | reflexivity] |]. split; [cbn; split; [lra | exact I] |].
  unfold ComputeCollisionIntervals. cbn [is_anomalous outer inner].
  repeat (match goal with |- context [Rlt_dec ?a ?b] => destruct (Rlt_dec a b); try lra | |- context [Rle_dec ?a ?b] => destruct (Rle_dec a b); try lra | |- context [Req_EM_T ?a ?b] => destruct (Req_EM_T a b); try lra end).
  reflexivity.
Qed.
