(** C74: the integrators with an adaptive step size. *)
From Coq Require Import Reals List Bool Arith Lra Lia.
From Verif Require Import OneStep_Model OneStep_Proofs Adaptive_Model Adaptive_Tables Adaptive_Proofs Adaptive_Proofs2 Adaptive_Proofs3.
Import ListNotations.
Open Scope R_scope.

Theorem C74_runge_kutta_sound : forall m f tolerance p fuel t_final i l i' status,
  erk_checks m = true -> (0 < erk_stages m)%nat -> 0 < safety_factor p < 1 ->
  0 < sign (first_step p) * a_step i -> (last_step_is_exact p = true \/ 0 <= first_step p) ->
  erk_solve m f tolerance p fuel t_final i = Done l i' status ->
  integrates rk_s (erk_accepted m (rhs f) tolerance) p true t_final (a_state i) l i' status.
Proof. intros m f tolerance p fuel t_final i l i' status C P S. exact (erk_solve_sound m f tolerance p C P S fuel t_final i l i' status). Qed.
Print Assumptions C74_runge_kutta_sound.
Theorem C74_nystrom_sound : forall generalized m f tolerance p fuel t_final i l i' status,
  rkn_checks m = true -> (0 < rkn_stages m)%nat ->
  (rkn_fsal m = true -> fsal_velocities m \/ (forall t q v v', f t q v = f t q v')) -> 0 < safety_factor p < 1 ->
  0 < sign (first_step p) * a_step i -> (last_step_is_exact p = true \/ 0 <= first_step p) ->
  rkn_solve generalized m f tolerance p fuel t_final i = Done l i' status ->
  integrates time (rkn_accepted m (acc f) tolerance) p generalized t_final (a_state i) l i' status.
Proof. intros g m f tolerance p fuel t_final i l i' status C P F S. exact (rkn_solve_sound g m f tolerance p C P F S fuel t_final i l i' status). Qed.
Print Assumptions C74_nystrom_sound.
(** The methods of the code pass the checks, and the generalized method whose last evaluation is reused may reuse it. *)
Theorem C74_tables_checked : erk_checks (erk_of DormandPrince1986RK547FC) = true /\
  Forall (fun m => rkn_checks (rkn_of m) = true) [DormandElMikkawyPrince1986RKN434FM; Fine1987RKNG34; Fine1987RKNG45] /\
  fsal_velocities (rkn_of Fine1987RKNG45) /\ rkn_fsal (rkn_of Fine1987RKNG34) = false.
Proof. exact (conj erk_tables_checked (conj rkn_tables_checked (conj fine45_fsal eq_refl))). Qed.
Print Assumptions C74_tables_checked.

(** If there is a maximum number of steps, if the right-hand side is bounded and if the tolerance accepts small errors, the
    integration ends, without failing a check. *)
Theorem C74_runge_kutta_terminates : forall m f tolerance p t_final i,
  erk_checks m = true -> (0 < erk_stages m)%nat -> 0 < safety_factor p < 1 ->
  rk_tolerance_ok tolerance -> (exists B, forall s y d, Rabs (rhs f s y d) <= B) ->
  0 < sign (first_step p) * a_step i -> sign (first_step p) * rk_s (a_state i) < sign (first_step p) * t_final ->
  (first_use i = true \/ last_step_is_exact p = false) -> (0 < max_steps p)%nat ->
  exists fuel0 l i' status, forall fuel, (fuel0 <= fuel)%nat -> erk_solve m f tolerance p fuel t_final i = Done l i' status.
Proof. intros m f tolerance p t_final i C P S. exact (erk_solve_terminates m f tolerance p C P S t_final i). Qed.
Print Assumptions C74_runge_kutta_terminates.
Theorem C74_nystrom_terminates : forall generalized m f tolerance p t_final i,
  rkn_checks m = true -> (0 < rkn_stages m)%nat ->
  (rkn_fsal m = true -> fsal_velocities m \/ (forall t q v v', f t q v = f t q v')) -> 0 < safety_factor p < 1 ->
  rkn_tolerance_ok tolerance -> (exists B, forall t q v d, Rabs (acc f t q v d) <= B) ->
  0 < sign (first_step p) * a_step i -> sign (first_step p) * time (a_state i) < sign (first_step p) * t_final ->
  (first_use i = true \/ last_step_is_exact p = false) -> (0 < max_steps p)%nat ->
  exists fuel0 l i' status, forall fuel, (fuel0 <= fuel)%nat -> rkn_solve generalized m f tolerance p fuel t_final i = Done l i' status.
Proof. intros g m f tolerance p t_final i C P F S. exact (rkn_solve_terminates g m f tolerance p C P F S t_final i). Qed.
Print Assumptions C74_nystrom_terminates.

(** An integration to a time and then to a later one is the integration to the later one, if the last step is not exact
    and there is no maximum number of steps. *)
Theorem C74_runge_kutta_continues : forall m f tolerance p fuel1 fuel2 t1 t2 i l1 i1 l2 i2 status,
  erk_checks m = true -> (0 < erk_stages m)%nat ->
  last_step_is_exact p = false -> max_steps p = 0%nat -> 0 <= first_step p ->
  (forall s y, fst (f s y) = Ok) -> 0 < sign (first_step p) * a_step i -> t1 <= t2 ->
  erk_solve m f tolerance p fuel1 t1 i = Done l1 i1 Ok -> erk_solve m f tolerance p fuel2 t2 i1 = Done l2 i2 status ->
  erk_solve m f tolerance p (fuel1 + fuel2) t2 i = Done (l1 ++ l2) i2 status.
Proof. intros m f tolerance p fuel1 fuel2 t1 t2 i l1 i1 l2 i2 status C P. exact (erk_solve_continues m f tolerance p C P fuel1 fuel2 t1 t2 i l1 i1 l2 i2 status). Qed.
Print Assumptions C74_runge_kutta_continues.
Theorem C74_nystrom_continues : forall generalized m f tolerance p fuel1 fuel2 t1 t2 i l1 i1 l2 i2 status,
  rkn_checks m = true -> (0 < rkn_stages m)%nat ->
  (rkn_fsal m = true -> fsal_velocities m \/ (forall t q v v', f t q v = f t q v')) ->
  last_step_is_exact p = false -> max_steps p = 0%nat -> 0 <= first_step p ->
  (forall t q v, fst (f t q v) = Ok) -> 0 < sign (first_step p) * a_step i -> t1 <= t2 ->
  rkn_solve generalized m f tolerance p fuel1 t1 i = Done l1 i1 Ok -> rkn_solve generalized m f tolerance p fuel2 t2 i1 = Done l2 i2 status ->
  rkn_solve generalized m f tolerance p (fuel1 + fuel2) t2 i = Done (l1 ++ l2) i2 status.
Proof. intros g m f tolerance p fuel1 fuel2 t1 t2 i l1 i1 l2 i2 status C P F. exact (rkn_solve_continues g m f tolerance p C P F fuel1 fuel2 t1 t2 i l1 i1 l2 i2 status). Qed.
Print Assumptions C74_nystrom_continues.

(** Backward, if the last step is not exact: as soon as the error is tolerable the integration stops, with nothing
    appended, however far the end is. *)
Theorem C74_backward_refuted : forall m f tolerance p fuel t_final i s' last_f' st ratio,
  last_step_is_exact p = false -> first_step p < 0 -> t_final < rk_s (a_state i) + a_step i -> a_step i < 0 ->
  fst (erk_begin m f (a_state i)) = Ok ->
  erk_attempt m f tolerance false false t_final (a_state i) (snd (erk_begin m f (a_state i))) (a_step i) = (s', last_f', st, ratio) -> 1 <= ratio ->
  erk_solve m f tolerance p (Datatypes.S fuel) t_final i = Done [] (mkAInstance (a_state i) (a_step i) false) st.
Proof.
  intros m f tolerance p fuel t_final i s' lf' st ratio X D T N O E R. unfold erk_solve. rewrite X.
  exact (backward_stuck rk_s (erk_attempt m f tolerance false) (erk_begin m f) true (erk_lower_order m) p fuel t_final i s' lf' st ratio X D T N O E R).
Qed.
Print Assumptions C74_backward_refuted.
(** After a first call, an instance whose last step is exact cannot be used, even if the maximum number of steps was
    reached. *)
Theorem C74_retry_refuted : forall m f tolerance p fuel1 fuel2 t1 t2 i l i1 status, last_step_is_exact p = true ->
  erk_solve m f tolerance p fuel1 t1 i = Done l i1 status -> erk_solve m f tolerance p fuel2 t2 i1 = Fatal.
Proof.
  intros m f tolerance p fuel1 fuel2 t1 t2 i l i1 status X.
  exact (exact_reuse rk_s (erk_attempt m f tolerance (last_step_is_exact p)) (erk_begin m f) true (erk_lower_order m) p fuel1 fuel2 t1 t2 i l i1 status X).
Qed.
Print Assumptions C74_retry_refuted.
(** An integration restarted after the maximum number of steps differs from one with a larger maximum: the step is the one
    before its adaptation. *)
Theorem C74_restart_refuted : forall m f s, erk_checks m = true -> (0 < erk_stages m)%nat -> (forall s y, fst (f s y) = Ok) ->
  let tolerance := fun _ _ _ => 1 in
  exists l i l', erk_solve m f tolerance (halving 2) 2 (rk_s s + 10) (new_instance RKState (halving 2) s) = Done l i ReachedMaximalStepCount /\
    (exists i1 i2 l1 l2, erk_solve m f tolerance (halving 1) 1 (rk_s s + 10) (new_instance RKState (halving 1) s) = Done l1 i1 ReachedMaximalStepCount /\
       erk_solve m f tolerance (halving 1) 1 (rk_s s + 10) i1 = Done l2 i2 ReachedMaximalStepCount /\ l' = l1 ++ l2) /\
    map rk_s l = [rk_s s + 1; rk_s s + 3 / 2] /\ map rk_s l' = [rk_s s + 1; rk_s s + 2].
Proof. exact erk_restarted. Qed.
Print Assumptions C74_restart_refuted.
(** If the right-hand side asks to stop, the generalized Nyström integrators do so after a step and the others go on. *)
Theorem C74_abort_refuted : forall generalized m s, rkn_checks m = true -> (1 < rkn_stages m)%nat ->
  exists l i, rkn_solve generalized m aborting (fun _ _ _ _ => 1) two_steps 2 (time s + 3 / 2) (new_instance State two_steps s) = Done l i Aborted /\
    length l = (if generalized then 1 else 2)%nat.
Proof. exact aborting_solve. Qed.
Print Assumptions C74_abort_refuted.

(** The hypotheses can be met. *)
Example C74_example_tolerance : rk_tolerance_ok (fun _ _ e => 2 - Rabs (e 0%nat)).
Proof. intros s. exists 1, 1. split; [lra|]. split; [lra|]. intros h e _ H. specialize (H 0%nat). lra. Qed.
Example C74_example_restart : exists i l', erk_solve (erk_of DormandPrince1986RK547FC) (fun s y => (Ok, y)) (fun _ _ _ => 1) (halving 2) 2 10
    (new_instance RKState (halving 2) (mkRKState 0 (fun _ => 1))) = Done l' i ReachedMaximalStepCount /\ map rk_s l' = [1; 3 / 2].
Proof.
  destruct (erk_restarted (erk_of DormandPrince1986RK547FC) (fun s y => (Ok, y)) (mkRKState 0 (fun _ => 1)) erk_tables_checked ltac:(cbn; lia) ltac:(reflexivity))
    as (l & i & l' & E & _ & T & _). cbn [rk_s] in *. rewrite !Rplus_0_l in *. exists i, l. split; assumption.
Qed.
Example C74_example_continues : exists i1 l2 i2, let p := mkParameters 1 (1 / 2) 0 false in
  let one := erk_one (erk_of DormandPrince1986RK547FC) (fun s y => (Ok, y)) in
  erk_solve (erk_of DormandPrince1986RK547FC) (fun s y => (Ok, y)) (fun _ _ _ => 32) p 2 (1 / 2) (new_instance RKState p (mkRKState 0 (fun _ => 1))) = Done [] i1 Ok /\
  erk_solve (erk_of DormandPrince1986RK547FC) (fun s y => (Ok, y)) (fun _ _ _ => 32) p 2 (3 / 2) i1 = Done l2 i2 Ok /\
  map rk_s l2 = [1].
Proof.
  set (m := erk_of DormandPrince1986RK547FC). set (f := fun (s : R) (y : Vec) => (Ok, y)). set (tol := fun (_ : R) (_ : RKState) (_ : Vec) => 32).
  assert (R32 : Root (4 + 1) 32 = 2).
  { unfold Root. destruct (Rle_dec 32 0); [lra|]. replace 32 with (2 ^ 5) by lra. rewrite <- Rpower_pow by lra. rewrite Rpower_mult. cbn [INR plus].
    replace (_ * _) with 1 by (field). apply Rpower_1. lra. }
  set (p := mkParameters 1 (1 / 2) 0 false).
  assert (A : forall h, adapt (erk_lower_order m) p h 32 = h) by (intros h; unfold adapt; change (erk_lower_order m) with 4%nat; rewrite R32; cbn; field).
  assert (St : forall t s lf h, rk_good (higher m) f s lf -> exists lf', rk_good (higher m) f (erk_one m f s h) lf' /\
            erk_attempt m f tol false false t s lf h = (erk_one m f s h, lf', Ok, 32)).
  { intros t s lf h G. destruct (erk_attempt_spec m f tol false false t s lf h erk_tables_checked ltac:(cbn; lia) G ltac:(discriminate)) as (lf' & st & E & G').
    exists lf'. split; [exact G'|]. rewrite E. pose proof (erk_attempt_ok m f tol false ltac:(reflexivity) false t s lf h) as O. rewrite E in O. cbn in O. subst st. reflexivity. }
  set (s0 := mkRKState 0 (fun _ => 1)). exists (mkAInstance s0 1 false), [erk_one m f s0 1], (mkAInstance (erk_one m f s0 1) 1 false).
  cbv zeta. assert (D : forall t, 0 < t -> direction_check RKState rk_s 1 t s0 = true).
  { intros t H. change 1 with (first_step p). apply direction_sign. cbn. rewrite sign_1. lra. }
  pose proof (erk_begin_good m f s0) as G0. assert (B0 : fst (erk_begin m f s0) = Ok) by reflexivity.
  destruct (erk_begin m f s0) as [st lf] eqn:EB. cbn in B0, G0. subst st.
  assert (N : Rltb 32 1 = false) by (apply Rltb_false; lra).
  unfold erk_solve, adaptive_solve, new_instance. cbn [a_state first_use orb a_step first_step last_step_is_exact p negb]. rewrite !D by lra. rewrite EB.
  split; [|split].
  - cbn [adaptive_loop last_step_is_exact p andb negb]. destruct (St (1 / 2) s0 lf 1 G0) as (lf' & G' & ->). rewrite N.
    assert (X : Rgtb (rk_s s0 + 1) (1 / 2) = true) by (apply Rgtb_spec; cbn; lra). rewrite X. reflexivity.
  - cbn [adaptive_loop last_step_is_exact p andb negb]. destruct (St (3 / 2) s0 lf 1 G0) as (lf' & G' & ->). rewrite N.
    assert (X : Rgtb (rk_s s0 + 1) (3 / 2) = false) by (apply Rgtb_false; cbn; lra). rewrite X. cbn [IsAborted andb Nat.eqb max_steps]. rewrite A.
    assert (Y : Reqb (rk_s (erk_one m f s0 1) + 1) (rk_s (erk_one m f s0 1)) = false) by (destruct (Reqb _ _) eqn:Q; [apply Reqb_spec in Q; lra|reflexivity]).
    rewrite Y. destruct (St (3 / 2) (erk_one m f s0 1) lf' 1 G') as (lf'' & G'' & ->). rewrite N.
    assert (Z : Rgtb (rk_s (erk_one m f s0 1) + 1) (3 / 2) = true) by (apply Rgtb_spec; rewrite erk_one_time; cbn; lra). rewrite Z. reflexivity.
  - cbn [map]. rewrite erk_one_time. cbn. f_equal. lra.
Qed.
