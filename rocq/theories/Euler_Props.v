(* C86: the torque-free motion of rigid bodies. *)
From Coq Require Import Reals Lra Psatz.
From Verif Require Import Geometry_Model Geometry_Proofs Geometry_Proofs2 VectorCalculus_Proofs Euler_Proofs2.
From Verif Require Import Euler_Model Euler_Spec Euler_Proofs5 Euler_Proofs6.
Local Open Scope R_scope.

(* For moments of inertia in increasing order, all the checks of the constructor succeed, and the solver returns the motion of
   a body that is subjected to no torque: the angular momentum obeys the equation of Euler and is constant in the inertial
   frame, and the attitude is the initial one at the initial time and turns with the angular velocity. *)
Theorem C86_torque_free : forall E moments L attitude time,
  elliptic_functions E -> 0 < cx moments -> cx moments <= cy moments -> cy moments <= cz moments -> unit_q attitude ->
  exists s, MakeEulerSolver E moments L attitude time = Some s /\
    torque_free moments L attitude time (AngularMomentumAt E s) (AttitudeAt E s) /\
    moments_of_inertia s = moments /\ initial_time s = time /\ initial_attitude s = attitude.
Proof. exact euler_solver. Qed.
Print Assumptions C86_torque_free.

(* The elliptic functions that the preceding theorem speaks of exist. *)
Theorem C86_elliptic_functions : exists E, elliptic_functions E.
Proof. exists the_elliptic. exact elliptic_exists. Qed.
Print Assumptions C86_elliptic_functions.

(* The angular velocity that corresponds to the angular momentum is that of the specification. *)
Theorem C86_angular_velocity : forall s m, AngularVelocityFor s m = velocity (moments_of_inertia s) m.
Proof. intros s m. reflexivity. Qed.
Print Assumptions C86_angular_velocity.

Lemma conserved moments L attitude time m A : unit_q attitude -> torque_free moments L attitude time m A ->
  forall t, Norm2 (m t) = Norm2 L /\ Dot (m t) (velocity moments (m t)) = Dot (m time) (velocity moments (m time)).
Proof.
  intros U (H1 & H2 & _) t. split.
  - rewrite <- H1. change (Norm2 (rotate attitude (m time))) with (Dot (rotate attitude (m time)) (rotate attitude (m time))). rewrite rotate_dot by exact U. apply (constant_function (fun t => Norm2 (m t))).
    intros r. eapply d_eq; [apply (v_dot m m); apply H2|]. unfold Dot, Cross, velocity. cbn. ring.
  - apply (constant_function (fun t => Dot (m t) (velocity moments (m t)))). intros r.
    pose proof (H2 r) as (X & Y & Z). unfold Dot, velocity, Rdiv in *. cbn [cx cy cz Cross] in *.
    eapply d_eq; [repeat first [eassumption|apply d_const|apply d_plus|apply d_mult]|]. cbn beta. ring.
Qed.

(* The norm of the angular momentum and the energy are constant. *)
Theorem C86_conserved : forall E moments L attitude time s,
  elliptic_functions E -> 0 < cx moments -> cx moments <= cy moments -> cy moments <= cz moments -> unit_q attitude ->
  MakeEulerSolver E moments L attitude time = Some s ->
  forall t, Norm2 (AngularMomentumAt E s t) = Norm2 L /\
    Dot (AngularMomentumAt E s t) (AngularVelocityFor s (AngularMomentumAt E s t)) =
    Dot (rotate (Conjugate attitude) L) (velocity moments (rotate (Conjugate attitude) L)).
Proof.
  intros E moments L attitude time s HE P1 P2 P3 U M t.
  destruct (euler_solver E moments L attitude time HE P1 P2 P3 U) as (s' & M' & T & EM & _). rewrite M' in M. injection M as <-.
  destruct (conserved _ _ _ _ _ _ U T t) as (N & D). split; [exact N|]. rewrite C86_angular_velocity, EM, D.
  destruct T as (T1 & _). rewrite <- T1, rotate_inv by exact U. reflexivity.
Qed.
Print Assumptions C86_conserved.

(* A body of moments 1, 2 and 3 whose angular momentum is (1, 1, 1) in its axes and in space. *)
Example C86_torque_free_example :
  exists E s, MakeEulerSolver E (mk3 1 2 3) (mk3 1 1 1) RotIdentity 0 = Some s /\
    AngularMomentumAt E s 0 = mk3 1 1 1 /\
    has_derivative (AngularMomentumAt E s) 0 (mk3 (- (1 / 6)) (2 / 3) (- (1 / 2))) /\
    forall t, Norm2 (AngularMomentumAt E s t) = 3.
Proof.
  exists the_elliptic.
  destruct (C86_torque_free the_elliptic (mk3 1 2 3) (mk3 1 1 1) RotIdentity 0 elliptic_exists) as (s & M & T & _);
    [cbn; lra..|exact unit_one|].
  exists s. split; [exact M|]. destruct T as (T1 & T2 & T3). rewrite rotate_id in T1. split; [exact T1|]. split.
  - eapply v_eq; [apply T2|]. rewrite T1. unfold Cross, velocity. cbn. apply mk3_eq; field.
  - intros t. destruct (C86_conserved the_elliptic (mk3 1 2 3) (mk3 1 1 1) RotIdentity 0 s elliptic_exists) with (t := t) as (N & _);
      [cbn; lra..|exact unit_one|exact M|]. rewrite N. unfold Norm2, Dot. cbn. ring.
Qed.

(* The unstable steady rotation about the intermediate axis, for which the parameter ν of the solver is infinite. *)
Example C86_intermediate_axis_example :
  exists E s, MakeEulerSolver E (mk3 1 2 3) (mk3 0 1 0) RotIdentity 0 = Some s /\
    AngularMomentumAt E s 0 = mk3 0 1 0 /\ has_derivative (AngularMomentumAt E s) 0 (mk3 0 0 0) /\
    has_derivative (fun t => rotate (AttitudeAt E s t) (mk3 1 0 0)) 0 (mk3 0 0 (- (1 / 2))).
Proof.
  exists the_elliptic.
  destruct (C86_torque_free the_elliptic (mk3 1 2 3) (mk3 0 1 0) RotIdentity 0 elliptic_exists) as (s & M & T & _);
    [cbn; lra..|exact unit_one|].
  exists s. split; [exact M|]. destruct T as (T1 & T2 & _ & T4 & T5). rewrite rotate_id in T1. split; [exact T1|]. split.
  - eapply v_eq; [apply T2|]. rewrite T1. unfold Cross, velocity. cbn. apply mk3_eq; field.
  - eapply v_eq; [apply T5|]. rewrite T4, rotate_id, T1. unfold Cross, velocity. cbn. apply mk3_eq; field.
Qed.
