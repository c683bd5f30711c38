(** Theorems about the one-step integrators with a fixed step size (property C73). *)
From Coq Require Import Reals List Bool Arith Lra Lia.
From Verif Require Import OneStep_Model Multistep_Proofs Multistep_Proofs2 OneStep_Proofs OneStep_Proofs2 OneStep_Proofs3.
Import ListNotations.
Open Scope R_scope.

(** A symplectic Runge-Kutta-Nyström integration appends, for every whole step up to the final time, the state obtained by
    the composition of kicks and drifts of the method. *)
Theorem C73_symplectic_solve : forall m f h fuel t_final s N, srkn_checks m = true -> (2 <= stages m)%nat -> consistent m -> h <> 0 ->
  (forall t q, fst (f t q) = Ok) -> time s <> t_final -> whole_steps h (time s) t_final N -> (N <= fuel)%nat ->
  exists X : nat -> State, X 0%nat = s /\ (forall n, X (S n) = run (field f) (ops m h) (X n)) /\
    (forall n, time (X n) = time s + INR n * h) /\
    srkn_solve m f h fuel t_final s = Done (map X (seq 1 N)) (X N) Ok.
Proof. exact srkn_solution. Qed.
Print Assumptions C73_symplectic_solve.

(** Stopping at an intermediate time changes nothing. *)
Theorem C73_continuation : forall m f h fuel t1 t2 s N1 N2, srkn_checks m = true -> (2 <= stages m)%nat -> consistent m ->
  h <> 0 -> (forall t q, fst (f t q) = Ok) -> time s <> t1 -> whole_steps h (time s) t1 N1 -> whole_steps h (time s) t2 N2 ->
  0 < (t2 - t1) / h -> (N2 <= fuel)%nat ->
  exists l1 s1 l2 s2, srkn_solve m f h fuel t1 s = Done l1 s1 Ok /\ srkn_solve m f h fuel t2 s1 = Done l2 s2 Ok /\
    srkn_solve m f h fuel t2 s = Done (l1 ++ l2) s2 Ok.
Proof. exact srkn_continuation. Qed.
Print Assumptions C73_continuation.

(** A time-reversible method goes back through the same states. *)
Theorem C73_round_trip : forall m f h fuel t_final s N, srkn_checks m = true -> time_reversible m = true ->
  (2 <= stages m)%nat -> consistent m -> h <> 0 -> (forall t q, fst (f t q) = Ok) -> (1 <= N)%nat ->
  whole_steps h (time s) t_final N -> (N <= fuel)%nat ->
  exists s', srkn_solve m f h fuel t_final s = Done (map (fun i => iterated i (srkn_one m f h) s) (seq 1 N)) s' Ok /\
    srkn_solve m f (- h) fuel (time s) s'
    = Done (map (fun i => iterated i (srkn_one m f h) s) (rev (seq 0 N))) s Ok.
Proof. exact srkn_round_trip. Qed.
Print Assumptions C73_round_trip.

(** The steps preserve the canonical symplectic form, if the derivative of the force is symmetric. *)
Theorem C73_symplectic : forall m f h D A c1 c2 w1 w2 n, srkn_checks m = true -> (2 <= stages m)%nat -> consistent m ->
  symmetric_derivative D (field f) A -> tangent D c1 w1 -> tangent D c2 w2 -> c1 0 = c2 0 ->
  exists w1' w2', tangent D (fun e => iterated n (srkn_one m f h) (c1 e)) w1' /\
    tangent D (fun e => iterated n (srkn_one m f h) (c2 e)) w2' /\ omega D w1' w2' = omega D w1 w2.
Proof. exact srkn_symplectic. Qed.
Print Assumptions C73_symplectic.

(** The two methods obtained from a partitioned method exchange the kicks and the drifts, and pass the same checks. *)
Theorem C73_partitioned : forall m, sprk_first_same_as_last m = true -> sprk_a m <> [] -> length (sprk_b m) = length (sprk_a m) ->
  exists m1 m2, AsSRKN m ABA = Some m1 /\ AsSRKN m BAB = Some m2 /\ (forall h, ops m1 h = map swap (ops m2 h)) /\
    srkn_checks m1 = srkn_checks m2.
Proof. exact partitioned. Qed.
Print Assumptions C73_partitioned.

(** If the right-hand side returns [Aborted] in a step and OK before, the integration stops there. *)
Theorem C73_abort : forall m f h fuel t_final s N n, srkn_checks m = true -> (2 <= stages m)%nat -> consistent m -> h <> 0 ->
  whole_steps h (time s) t_final N -> (N <= fuel)%nat -> (1 <= n <= N)%nat ->
  (is_bab m = true -> fst (f (time s) (positions s)) = Ok) ->
  (forall i, (i < n - 1)%nat -> srkn_status m f h (iterated i (srkn_one m f h) s) = Ok) ->
  srkn_status m f h (iterated (n - 1) (srkn_one m f h) s) = Aborted ->
  srkn_solve m f h fuel t_final s
  = Done (map (fun i => iterated i (srkn_one m f h) s) (seq 1 n)) (iterated n (srkn_one m f h) s) Aborted.
Proof. exact srkn_abort. Qed.
Print Assumptions C73_abort.
(** It does not if the right-hand side has returned another error before. *)
Theorem C73_abort_refuted : srkn_status leapfrog failing 1 (srkn_one leapfrog failing 1 (mkState 0 vzero vzero)) = Aborted /\
  srkn_solve leapfrog failing 1 3 3 (mkState 0 vzero vzero)
  = Done (map (fun i => iterated i (srkn_one leapfrog failing 1) (mkState 0 vzero vzero)) [1; 2; 3]%nat)
         (iterated 3 (srkn_one leapfrog failing 1) (mkState 0 vzero vzero)) (OtherError 1).
Proof. exact srkn_abort_masked. Qed.
Print Assumptions C73_abort_refuted.

(** An explicit Runge-Kutta integration makes the steps of the method. *)
Theorem C73_runge_kutta_solve : forall m f h fuel s_final s N, rk_checks m = true -> (0 < rk_stages m)%nat -> h <> 0 ->
  (forall s y, fst (f s y) = Ok) -> rk_s s <> s_final -> whole_steps h (rk_s s) s_final N -> (N <= fuel)%nat ->
  exists Y : nat -> RKState, Y 0%nat = s /\
    (forall n, rk_s (Y (S n)) = rk_s (Y n) + h /\
       exists k, runge_kutta_step m (rhs f) h (rk_s (Y n)) (rk_y (Y n)) (rk_y (Y (S n))) k) /\
    rk_solve m f h fuel s_final s = Done (map Y (seq 1 N)) (Y N) Ok.
Proof. exact rk_solution. Qed.
Print Assumptions C73_runge_kutta_solve.

(** The leapfrog is obtained from the coefficients of the code and satisfies the hypotheses; a step for the harmonic
    oscillator. *)
Example C73_leapfrog_example : AsSRKN NewtonDelambreStormerVerletLeapfrog ABA = Some leapfrog /\
  srkn_checks leapfrog = true /\ consistent leapfrog /\ time_reversible leapfrog = true /\
  symmetric_derivative 2 (field oscillator) (fun _ _ i j => if Nat.eqb i j then -1 else 0) /\
  ops leapfrog 1 = [Drift (1 * (1 / 2)); Kick (1 * 1); Drift (1 * (1 / 2))] /\
  positions (run (field oscillator) (ops leapfrog 1) (mkState 0 (fun _ => 1) vzero)) 0%nat = 1 / 2 /\
  velocities (run (field oscillator) (ops leapfrog 1) (mkState 0 (fun _ => 1) vzero)) 0%nat = -1.
Proof.
  split; [exact leapfrog_from|]. split; [apply leapfrog_checks|]. split; [apply leapfrog_checks|]. split; [reflexivity|].
  split; [apply oscillator_symmetric|]. split; [reflexivity|]. cbn. unfold vzero, a_, b_. cbn. split; lra.
Qed.
Example C73_whole_steps_example : whole_steps 2 1 8 3 /\ whole_steps (-2) 1 (-6) 3.
Proof. unfold whole_steps. cbn [INR]. lra. Qed.
Example C73_kutta_example : rk_checks Kutta1901Vsigma1 = true /\ rk_stages Kutta1901Vsigma1 = 4%nat.
Proof. exact kutta_checks. Qed.
