(** Theorems about the solutions computed by the multistep integrators (property C72). *)
From Coq Require Import Reals ZArith QArith Qreals List Bool Arith Lra Lia.
From Verif Require Import OneStep_Model Multistep_Tables Multistep_Model Multistep_Proofs Multistep_Proofs2 Multistep_Proofs3
                          OneStep_Proofs OneStep_Proofs2 OneStep_Proofs3 Multistep_Proofs4 Multistep_Proofs5 Multistep_Proofs6 Multistep_Proofs7.
Import ListNotations.
Open Scope R_scope.

(** The states appended by any sequence of calls to [Solve] are those of one trajectory, which starts with states found by
    the startup integrator and continues with the recurrence of the method. *)
Theorem C72_explicit : forall startup m f h s0, rk_checks startup = true -> (0 < rk_stages startup)%nat -> In m explicit_methods ->
  0 < h -> (forall s y, fst (f s y) = Ok) ->
  exists X, explicit_trajectory startup m (rhs f) h s0 X /\
    forall ts, increasing (rk_s s0) ts ->
    exists fuel0 M i', INR M <= (last ts (rk_s s0) - rk_s s0) / h < INR M + 1 /\ forall fuel, (fuel0 <= fuel)%nat ->
      solve_all (explicit_solve startup m f h fuel) ts (initial s0) = Done (map X (seq 1 M)) i' Ok.
Proof. exact explicit_solution. Qed.
Print Assumptions C72_explicit.

Theorem C72_symmetric : forall startup m f h s0, srkn_checks startup = true -> (2 <= stages startup)%nat -> consistent startup ->
  In m symmetric_methods -> 0 < h -> (forall t q, fst (f t q) = Ok) ->
  exists X, symmetric_trajectory startup m (field f) h s0 X /\
    forall ts, increasing (time s0) ts ->
    exists fuel0 M i', INR M <= (last ts (time s0) - time s0) / h < INR M + 1 /\ forall fuel, (fuel0 <= fuel)%nat ->
      solve_all (symmetric_solve startup m f h fuel) ts (initial s0) = Done (map X (seq 1 M)) i' Ok.
Proof. exact symmetric_solution. Qed.
Print Assumptions C72_symmetric.

(** A second call to [Solve] with the same time is fatal during the startup. *)
Theorem C72_explicit_repeated_refuted : forall startup m f h s0, rk_checks startup = true -> (0 < rk_stages startup)%nat ->
  In m explicit_methods -> (3 <= order m)%nat -> 0 < h -> (forall s y, fst (f s y) = Ok) ->
  exists fuel0 s i, forall fuel, (fuel0 <= fuel)%nat ->
    explicit_solve startup m f h fuel (rk_s s0 + h) (initial s0) = Done [s] i Ok /\
    explicit_solve startup m f h fuel (rk_s s0 + h) i = Fatal.
Proof. exact explicit_repeated. Qed.
Print Assumptions C72_explicit_repeated_refuted.
Theorem C72_symmetric_repeated_refuted : forall startup m f h s0, srkn_checks startup = true -> (2 <= stages startup)%nat ->
  consistent startup -> In m symmetric_methods -> 0 < h -> (forall t q, fst (f t q) = Ok) ->
  exists fuel0 s i, forall fuel, (fuel0 <= fuel)%nat ->
    symmetric_solve startup m f h fuel (time s0 + h) (initial s0) = Done [s] i Ok /\
    symmetric_solve startup m f h fuel (time s0 + h) i = Fatal.
Proof. exact symmetric_repeated. Qed.
Print Assumptions C72_symmetric_repeated_refuted.

(** If the right-hand side asks to stop during the startup, the integration stops but the status is OK. *)
Theorem C72_status_refuted : forall startup m h s0 t_final, srkn_checks startup = true -> (2 <= stages startup)%nat ->
  consistent startup -> In m symmetric_methods -> 0 < h -> time s0 + h <= t_final ->
  exists i, forall fuel, (1 <= fuel)%nat ->
    srkn_status startup always_aborted (h / INR startup_step_divisor) s0 = Aborted /\
    symmetric_solve startup m always_aborted h fuel t_final (initial s0) = Done [] i Ok.
Proof. exact symmetric_aborted. Qed.
Print Assumptions C72_status_refuted.

(** After the startup, if the right-hand side asks to stop, the step that was being computed is the last one appended, and the
    status is [Aborted]. *)
Theorem C72_abort :
  (forall startup m f h n fuel t_final s l p Ps index, Ps 0%nat = l ++ [p] -> length (Ps 0%nat) = order m -> (1 <= n <= fuel)%nat -> 0 < h ->
    e_s p + INR n * h <= t_final -> steps_until_abort (e_step m f h) h (e_s p) Ps n ->
    explicit_solve startup m f h fuel t_final (mkInstance s (Ps 0%nat) index)
    = Done (map (fun j => e_new_state (Ps j)) (seq 1 n)) (mkInstance (e_new_state (Ps n)) (Ps n) index) Aborted) /\
  (forall startup m f h n fuel t_final s l p Ps index, Ps 0%nat = l ++ [p] -> length (Ps 0%nat) = order m -> (1 <= n <= fuel)%nat -> 0 < h ->
    step_time p + INR n * h <= t_final -> steps_until_abort (s_step m f h) h (step_time p) Ps n ->
    symmetric_solve startup m f h fuel t_final (mkInstance s (Ps 0%nat) index)
    = Done (map (fun j => s_new_state m h (Ps j)) (seq 1 n)) (mkInstance (s_new_state m h (Ps n)) (Ps n) index) Aborted).
Proof.
  split; intros.
  - exact (solve_abort RKState EStep rk_s e_s (order m) (e_fill f) (fun h => rk_solve startup f h) (e_step m f h) e_new_state h n fuel t_final s l p Ps index H H0 H1 H2 H3 H4).
  - exact (solve_abort State Step time step_time (order m) (s_fill f) (fun h => srkn_solve startup f h) (s_step m f h) (s_new_state m h) h n fuel t_final s l p Ps index H H0 H1 H2 H3 H4).
Qed.
Print Assumptions C72_abort.

Example C72_hypotheses_example : rk_checks Kutta1901Vsigma1 = true /\ srkn_checks leapfrog = true /\ consistent leapfrog /\
  increasing 0 [1; 5 / 2; 20] /\ In QuinlanTremaine1990Order12 symmetric_methods /\ In AdamsBashforthOrder4 explicit_methods.
Proof.
  split; [apply kutta_checks|]. split; [apply leapfrog_checks|]. split; [apply leapfrog_checks|]. split; [cbn; lra|].
  split; cbn; tauto.
Qed.
(** The recurrence of [AdamsBashforthOrder2]. *)
Example C72_recurrence_example : forall startup f h s0 X, explicit_trajectory startup AdamsBashforthOrder2 f h s0 X ->
  rk_y (X 2%nat) 0%nat = rk_y (X 1%nat) 0%nat
    + h * (3 / 2 * f (rk_s (X 1%nat)) (rk_y (X 1%nat)) 0%nat - 1 / 2 * f (rk_s (X 0%nat)) (rk_y (X 0%nat)) 0%nat).
Proof.
  intros startup f h s0 X (_ & _ & H). specialize (H 2%nat 0%nat (le_n 2)).
  cbn in H. unfold Q2R in H. cbn in H. unfold Rdiv in *. lra.
Qed.
(** A right-hand side that aborts from the time 7/2 on: the second step of [AdamsBashforthOrder2] after the time 2. *)
Definition stopping : Derivative := fun s y => (if Rlt_dec s (7 / 2) then Ok else Aborted, vzero).
Example C72_abort_example : exists Ps, Ps 0%nat = [mkEStep 1 vzero vzero] ++ [mkEStep 2 vzero vzero] /\ length (Ps 0%nat) = order AdamsBashforthOrder2 /\
  steps_until_abort (e_step AdamsBashforthOrder2 stopping 1) 1 2 Ps 2.
Proof.
  set (first := [mkEStep 1 vzero vzero; mkEStep 2 vzero vzero]). set (next := fun l t => tl (l ++ [fst (e_step AdamsBashforthOrder2 stopping 1 l t)])).
  exists (fun j => match j with O => first | 1%nat => next first 2 | _ => next (next first 2) 3 end). split; [reflexivity|]. split; [reflexivity|].
  assert (S : forall l t, e_step AdamsBashforthOrder2 stopping 1 l t = (fst (e_step AdamsBashforthOrder2 stopping 1 l t), if Rlt_dec (t + 1) (7 / 2) then Ok else Aborted)).
  { intros l t. unfold e_step, stopping. destruct (e_sums _ _). reflexivity. }
  intros [|[|j]] Hj; [| |lia]; eexists; (split; [rewrite S; cbn [INR Nat.add Nat.eqb]|]).
  - f_equal. destruct (Rlt_dec (2 + 0 * 1 + 1) (7 / 2)); [reflexivity|lra].
  - cbn [Nat.add]. unfold next. do 3 f_equal. cbn [INR]. replace (2 + 0 * 1) with 2 by ring. reflexivity.
  - f_equal. destruct (Rlt_dec (2 + 1 * 1 + 1) (7 / 2)); [lra|reflexivity].
  - cbn [Nat.add]. unfold next at 1. do 3 f_equal. cbn [INR]. replace (2 + 1 * 1) with 3 by ring. reflexivity.
Qed.
