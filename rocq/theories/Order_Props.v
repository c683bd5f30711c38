(** C75: the orders of the Runge-Kutta and Nyström methods. *)
From Coq Require Import Reals List Bool Arith Lra Lia.
From Verif Require Import OneStep_Model OneStep_Proofs Adaptive_Model Adaptive_Tables Adaptive_Proofs3 Order_Proofs2 Order_Proofs4 Order_Proofs5 Order_Proofs6.
Import ListNotations.
Open Scope R_scope.

(** The attempts at a step of an integrator with method [m], for a right-hand side computed by [f], started on a
    solution: the error is of the order [p + 1] in the step, and the error estimate of the order [p]. *)
Definition rk_steps_have_order (m : EmbeddedRK) (p : nat) : Prop :=
  forall f g tolerance exact s0 y, (forall s y, snd (g s y) = derivative f s y) ->
  (forall d, defined (f d) s0 vzero (y s0) /\ uses false true (f d)) -> solution1 f s0 y ->
  forall d, exists C H, 0 < H /\ forall at_end s_final last_f h, 0 < Rabs h <= H -> (erk_fsal m = true -> last_f = derivative f s0 (y s0)) ->
    (at_end = true -> s_final = s0 + h) ->
    let '(s', _, _, ratio) := erk_attempt m g tolerance exact at_end s_final (mkRKState s0 (y s0)) last_f h in
    rk_s s' = s0 + h /\ Rabs (rk_y s' d - y (s0 + h) d) <= C * Rabs h ^ (p + 1) /\
    exists error, ratio = tolerance h (mkRKState s0 (y s0)) error /\ Rabs (error d) <= C * Rabs h ^ p.
Definition rkn_steps_have_order (on_v : bool) (m : EmbeddedRKN) (p : nat) : Prop :=
  forall f g tolerance exact t0 q v, (forall t q v, snd (g t q v) = acceleration f t q v) ->
  (forall d, defined (f d) t0 (q t0) (v t0) /\ uses true on_v (f d)) -> solution f t0 q v ->
  forall d, exists C H, 0 < H /\ forall at_end t_final g0 h, 0 < Rabs h <= H ->
    (g0 = None \/ rkn_fsal m = true /\ g0 = Some (acceleration f t0 (q t0) (v t0))) -> (at_end = true -> t_final = t0 + h) ->
    let s := mkState t0 (q t0) (v t0) in
    let '(s', _, _, ratio) := rkn_attempt m g tolerance exact at_end t_final s g0 h in
    time s' = t0 + h /\ Rabs (positions s' d - q (t0 + h) d) <= C * Rabs h ^ (p + 1) /\ Rabs (velocities s' d - v (t0 + h) d) <= C * Rabs h ^ (p + 1) /\
    exists error_q error_v, ratio = tolerance h s error_q error_v /\ Rabs (error_q d) <= C * Rabs h ^ p /\ Rabs (error_v d) <= C * Rabs h ^ p.

Theorem C75_dormand_prince_order : rk_steps_have_order (erk_of DormandPrince1986RK547FC) 5.
Proof.
  intros f g tolerance exact s0 y. exact (erk_attempt_order (erk_of DormandPrince1986RK547FC) f g tolerance exact s0 y erk_tables_checked
    (proj1 dormand_prince_orders) (proj2 dormand_prince_orders) ltac:(cbn; lia)).
Qed.
Print Assumptions C75_dormand_prince_order.
Theorem C75_kutta_order : forall f s0 y, (forall d, defined (f d) s0 vzero (y s0) /\ uses false true (f d)) -> solution1 f s0 y ->
  forall d, exists C H, 0 < H /\ forall h y' k, 0 < Rabs h <= H ->
    runge_kutta_step Kutta1901Vsigma1 (derivative f) h s0 (y s0) y' k -> Rabs (y' d - y (s0 + h) d) <= C * Rabs h ^ 5.
Proof. rewrite kutta_method. exact (rk_step_order (erk_of KuttaTable) 4 kutta_order ltac:(lia)). Qed.
Print Assumptions C75_kutta_order.
(** For the forces that do not depend on the velocities. *)
Theorem C75_special_nystrom_orders :
  rkn_steps_have_order false (rkn_of DormandElMikkawyPrince1986RKN434FM) 4 /\ rkn_steps_have_order false (rkn_of Fine1987RKNG34) 4.
Proof.
  pose proof rkn_tables_checked as T. rewrite Forall_forall in T. split; intros f g tolerance exact t0 q v.
  - exact (rkn_attempt_order false (rkn_of DormandElMikkawyPrince1986RKN434FM) f g tolerance exact t0 q v (T _ (or_introl eq_refl)) ltac:(cbn; lia)
      (proj1 rkn434_orders) (proj2 rkn434_orders) ltac:(cbn; lia)).
  - exact (rkn_attempt_order false (rkn_of Fine1987RKNG34) f g tolerance exact t0 q v (T _ (or_intror (or_introl eq_refl))) ltac:(cbn; lia)
      (proj1 fine34_orders) (proj2 fine34_orders) ltac:(cbn; lia)).
Qed.
Print Assumptions C75_special_nystrom_orders.
Theorem C75_fine45_order : rkn_steps_have_order true (rkn_of Fine1987RKNG45) 5.
Proof.
  pose proof rkn_tables_checked as T. rewrite Forall_forall in T. intros f g tolerance exact t0 q v.
  exact (rkn_attempt_order true (rkn_of Fine1987RKNG45) f g tolerance exact t0 q v (T _ (or_intror (or_intror (or_introl eq_refl)))) ltac:(cbn; lia)
      (proj1 fine45_orders) (proj2 fine45_orders) ltac:(cbn; lia)).
Qed.
Print Assumptions C75_fine45_order.
(** For a force that depends on the velocities, Fine1987RKNG34 does not have the order 4, nor even the order 2: a
    coefficient is wrong (methods.hpp, line 560). *)
Theorem C75_fine34_refuted : forall g tolerance exact, (forall t q v, snd (g t q v) = acceleration growth t q v) ->
  solution growth 0 exponential exponential /\
  ~ exists C H, 0 < H /\ forall h, 0 < Rabs h <= H ->
    Rabs (velocities (fst (fst (fst (rkn_attempt (rkn_of Fine1987RKNG34) g tolerance exact false 0 (mkState 0 (exponential 0) (exponential 0)) None h)))) 0%nat
          - exponential h 0%nat) <= C * Rabs h ^ 3.
Proof. intros g tolerance exact G. exact (conj (proj2 growth_solution) (fine34_growth g tolerance exact G)). Qed.
Print Assumptions C75_fine34_refuted.
(** With the coefficient [-243 / 128] it does. *)
Theorem C75_fine34_corrected : rkn_steps_have_order true (rkn_of Fine1987RKNG34_corrected) 4.
Proof.
  intros f g tolerance exact t0 q v. exact (rkn_attempt_order true (rkn_of Fine1987RKNG34_corrected) f g tolerance exact t0 q v corrected_checked ltac:(cbn; lia)
      (proj1 corrected_orders) (proj2 corrected_orders) ltac:(cbn; lia)).
Qed.
Print Assumptions C75_fine34_corrected.

(** A body that moves on a circle around a centre of attraction: the force is an expression, and this is a solution. *)
Definition attraction (d : nat) : expr :=
  let r2 := Add (Mul (Pos 0) (Pos 0)) (Mul (Pos 1) (Pos 1)) in Mul (Const (-1)) (Mul (Pos d) (Inv (Mul r2 (Sqrt r2)))).
Definition circle_q (t : R) (d : nat) : R := match d with O => cos t | 1%nat => sin t | _ => 0 end.
Definition circle_v (t : R) (d : nat) : R := match d with O => - sin t | 1%nat => cos t | _ => 0 end.
Example C75_circle_example : (forall d, defined (attraction d) 0 (circle_q 0) (circle_v 0) /\ uses true false (attraction d)) /\
  solution attraction 0 circle_q circle_v.
Proof.
  assert (U : forall t, cos t * cos t + sin t * sin t = 1) by (intros t; pose proof (sin2_cos2 t) as X; unfold Rsqr in X; lra).
  split.
  - intros d. cbn. rewrite U, sqrt_1. intuition lra.
  - intros d. exists 1. split; [lra|]. intros t _. unfold acceleration. cbn [attraction eval]. cbn [circle_q]. rewrite U, sqrt_1.
    destruct d as [|[|d]]; cbn [circle_q circle_v].
    + split; [apply derivable_pt_lim_cos|]. replace (-1 * (cos t * / (1 * 1))) with (- cos t) by field. apply (derivable_pt_lim_opp sin), derivable_pt_lim_sin.
    + split; [apply derivable_pt_lim_sin|]. replace (-1 * (sin t * / (1 * 1))) with (- sin t) by field. apply derivable_pt_lim_cos.
    + split; [apply (derivable_pt_lim_const 0)|]. replace (-1 * (0 * / (1 * 1))) with 0 by field. apply (derivable_pt_lim_const 0).
Qed.
(** The hypotheses of the refutation hold for a right-hand side. *)
Example C75_growth_example : exists g : GeneralAcceleration, forall t q v, snd (g t q v) = acceleration growth t q v.
Proof. exists (fun t q v => (Ok, v)). reflexivity. Qed.
