(** Model of numerics/finite_difference_body.hpp, of integrators/starter_body.hpp and of the linear multistep integrators
    integrators/explicit_linear_multistep_integrator_body.hpp and symmetric_linear_multistep_integrator_body.hpp.
    Numbers are real: a DoublePrecision is its exact value.  The dependent variables are given by their components.  The
    requests to stop the thread, the serialization and the clones are not modelled. *)
From Coq Require Import Reals ZArith QArith Qreals List Bool Arith.
From Verif Require Import OneStep_Model Multistep_Tables.
Import ListNotations.
Open Scope R_scope.

(** * FiniteDifference, numerics/finite_difference_body.hpp:14-47; n is the length of [values] *)
Definition fd_numerator (n offset j : nat) : R := IZR (nth j (nth offset (nth (n - 1) Numerators []) []) 0%Z).
Definition fd_denominator (n : nat) : R := IZR (nth (n - 1) Denominators 0%Z).
Definition FiniteDifference (values : list R) (step : R) (offset : nat) : R :=
  let n := length values in
  let value j := nth j values 0 in
  if Nat.eqb (n mod 2) 1 && Nat.eqb offset ((n - 1) / 2) then
    (* Lines 30-32: j such that 2 j + 3 <= n. *)
    let sum := fold_left (fun sum j => sum + fd_numerator n offset j * (value j - value (n - j - 1)%nat))
                         (seq 0 ((n - 1) / 2)) 0 in
    sum / (fd_denominator n * step)
  else
    (* Lines 40-44: j such that j + 2 <= n. *)
    let '(sum, _) :=
      fold_left (fun '(sum, numerator) j =>
        let numerator := numerator + fd_numerator n offset j in
        (sum + numerator * (value j - value (j + 1)%nat), numerator))
        (seq 0 (n - 1)) (0, 0) in
    sum / (fd_denominator n * step).

(** * Methods *)
Definition alpha_ (m : Multistep) (j : nat) : R := Q2R (nth j (alpha m) 0%Q).
Definition beta_numerator_ (m : Multistep) (j : nat) : R := IZR (nth j (beta_numerator m) 0%Z).
Definition beta_denominator_ (m : Multistep) : R := IZR (beta_denominator m).
(** Both integrators, lines 20-21. *)
Definition startup_step_divisor : nat := 16.

(** * ExplicitLinearMultistepIntegrator *)
Record EStep := mkEStep { e_s : R; e_y : Vec; e_yd : Vec }.
Definition e_default : EStep := mkEStep 0 vzero vzero.
(** Lines 67-92: scan the previous steps from the most recent to the oldest; the number of steps is the order. *)
Definition e_sums (m : Multistep) (previous_steps : list EStep) : Vec * Vec :=
  fold_left (fun '(sum_y, sum_f) j =>
    let step := nth (j - 1) (rev previous_steps) e_default in
    (vadd sum_y (vscal (- alpha_ m j) (e_y step)), vadd sum_f (vscal (beta_numerator_ m j) (e_yd step))))
    (seq 1 (order m)) (vzero, vzero).
(** Lines 94-118: the new step, and the status of the evaluation of the right-hand side. *)
Definition e_step (m : Multistep) (f : Derivative) (h : R) (previous_steps : list EStep) (s : R) : EStep * Status :=
  let '(sum_y, sum_f) := e_sums m previous_steps in
  let y := fun d => sum_y d + h * sum_f d / beta_denominator_ m in
  let '(status, yd) := f (s + h) y in
  (mkEStep (s + h) y yd, status).
(** starter_body.hpp:76-81. *)
Definition Push {A} (previous_steps : list A) (step : A) : list A := tl (previous_steps ++ [step]).

(** * SymmetricLinearMultistepIntegrator *)
Record Step := mkStep { step_time : R; displacements : Vec; accelerations : Vec }.
Definition default_step : Step := mkStep 0 vzero vzero.
(** Lines 87-102: the generic value of j, from 1 to k / 2 - 1, with the iterators from both ends. *)
Fixpoint pair_loop (m : Multistep) (count j : nat) (front back : list Step) (sum_q sum_a : Vec)
    : list Step * Vec * Vec :=
  match count with
  | O => (front, sum_q, sum_a)
  | S count =>
    let qf := hd default_step front in
    let qb := hd default_step back in
    let sum_q := vadd sum_q (vscal (- alpha_ m j) (displacements qf)) in
    let sum_q := vadd sum_q (vscal (- alpha_ m j) (displacements qb)) in
    let sum_a := vadd sum_a (vscal (beta_numerator_ m j) (vadd (accelerations qf) (accelerations qb))) in
    pair_loop m count (S j) (tl front) (tl back) sum_q sum_a
  end.
(** Lines 70-113. *)
Definition s_sums (m : Multistep) (previous_steps : list Step) : Vec * Vec :=
  let k := order m in
  let front := previous_steps in
  let back := rev previous_steps in
  let q0 := hd default_step front in
  let sum_q := vscal (- alpha_ m 0) (displacements q0) in
  let sum_a := vscal (beta_numerator_ m 0) (accelerations q0) in
  let '(front, sum_q, sum_a) := pair_loop m (k / 2 - 1) 1 (tl front) back sum_q sum_a in
  let qm := hd default_step front in
  (vadd sum_q (vscal (- alpha_ m (k / 2)) (displacements qm)),
   vadd sum_a (vscal (beta_numerator_ m (k / 2)) (accelerations qm))).
(** Lines 115-137. *)
Definition s_step (m : Multistep) (f : Acceleration) (h : R) (previous_steps : list Step) (t : R) : Step * Status :=
  let '(sum_q, sum_a) := s_sums m previous_steps in
  let q := fun d => sum_q d + h * h * sum_a d / beta_denominator_ m in
  let '(status, a) := f (t + h) q in
  (mkStep (t + h) q a, status).
(** Lines 327-328: CohenHubbardOesterwinterOrder<order>(). *)
Definition cho (m : Multistep) : Coefficients := nth (order m - 1) CohenHubbardOesterwinterOrder (mkCoefficients [] 0%Z).
(** Lines 281-321. *)
Definition ComputeVelocity (m : Multistep) (h : R) (previous_steps : list Step) : Vec :=
  fun d =>
    let recent := rev previous_steps in
    let displacement_change := displacements (nth 0 recent default_step) d - displacements (nth 1 recent default_step) d in
    let velocity := displacement_change / h in
    let weighted_accelerations :=
      fold_left (fun sum i => sum + IZR (nth i (numerators (cho m)) 0%Z) * accelerations (nth i recent default_step) d)
                (seq 0 (length (numerators (cho m)))) 0 in
    velocity + weighted_accelerations * h / IZR (denominator (cho m)).

(** * The instances *)
(** starter_body.hpp and the [Solve] functions are common to the two integrators; they are parameterized by the type of the
    states, that of the steps, and what differs. *)
Section Instance.
  Variables S P : Type.
  (** [state().time] or [state().s]. *)
  Variable state_time : S -> R.
  Variable p_time : P -> R.
  (** The number of steps. *)
  Variable steps : nat.
  (** [FillStepFromState]. *)
  Variable fill : S -> P.
  (** [startup_integrator_.NewInstance({equation, current_state}, ..., startup_step)->Solve(t_final)]. *)
  Variable startup_solve : R -> nat -> R -> S -> Outcome S S.
  (** The new step, the new state and the status of the evaluation of the right-hand side. *)
  Variable advance : list P -> R -> P * Status.
  Variable new_state : list P -> S.
  Variable h : R.

  Record Instance := mkInstance { current_state : S; previous_steps : list P; startup_step_index : nat }.
  Definition initial (s : S) : Instance := mkInstance s [] 0.
  Definition started (i : Instance) : bool := Nat.eqb (length (previous_steps i)) steps.

  (** starter_body.hpp:42-62: [startup_append_state], with the states given to [append_state]. *)
  Definition startup_append_state (acc : Instance * list S) (s : S) : Instance * list S :=
    let '(i, l) := acc in
    if Nat.ltb (length (previous_steps i)) steps then
      let index := Datatypes.S (startup_step_index i) in
      if Nat.eqb (index mod startup_step_divisor) 0
      then (mkInstance s (previous_steps i ++ [fill s]) index, l ++ [s])
      else (mkInstance s (previous_steps i) index, l)
    else acc.
  (** Lines 23-74; the status is ignored. *)
  Definition starter_solve (fuel : nat) (s_final : R) (i : Instance) : Outcome Instance S :=
    let i := match previous_steps i with
             | [] => mkInstance (current_state i) [fill (current_state i)] (startup_step_index i)
             | _ => i
             end in
    if Nat.ltb (length (previous_steps i)) steps then
      let startup_final :=
        Rmin (state_time (current_state i) + INR (steps - length (previous_steps i)) * h + h / 2) s_final in
      match startup_solve (h / INR startup_step_divisor) fuel startup_final (current_state i) with
      | Done l _ _ => let '(i, l) := fold_left startup_append_state l (i, []) in Done l i Ok
      | Fatal => Fatal
      | NoFuel => NoFuel
      end
    else Fatal.

  (** The loop: explicit_linear_multistep_integrator_body.hpp:66-128, symmetric_linear_multistep_integrator_body.hpp:69-149. *)
  Fixpoint multistep_loop (fuel : nat) (t_final : R) (i : Instance) (t : R) (status : Status) : Outcome Instance S :=
    if Rle_dec h (t_final - t) then
      match fuel with
      | O => NoFuel
      | Datatypes.S fuel =>
        let '(p, new_status) := advance (previous_steps i) t in
        let status := Update status new_status in
        let previous := Push (previous_steps i) p in
        let s := new_state previous in
        let i := mkInstance s previous (startup_step_index i) in
        if IsAborted status then Done [s] i status
        else
          match multistep_loop fuel t_final i (t + h) status with
          | Done l i status => Done (s :: l) i status
          | Fatal => Fatal
          | NoFuel => NoFuel
          end
      end
    else Done [] i status.
  (** explicit_linear_multistep_integrator_body.hpp:23-131, symmetric_linear_multistep_integrator_body.hpp:22-152; the CHECK
      that the step is positive follows the startup. *)
  Definition multistep_solve (fuel : nat) (t_final : R) (i : Instance) : Outcome Instance S :=
    match (if started i then Done [] i Ok else starter_solve fuel t_final i) with
    | Done l i _ =>
      if started i then
        if Rlt_dec 0 h then
          match rev (previous_steps i) with
          | [] => Fatal
          | p :: _ =>
            match multistep_loop fuel t_final i (p_time p) Ok with
            | Done l' i status => Done (l ++ l') i status
            | Fatal => Fatal
            | NoFuel => NoFuel
            end
          end
        else Fatal
      else Done l i Ok
    | Fatal => Fatal
    | NoFuel => NoFuel
    end.
End Instance.
Arguments mkInstance {S P}. Arguments current_state {S P}. Arguments previous_steps {S P}. Arguments startup_step_index {S P}.
Arguments initial {S P}.

(** explicit_linear_multistep_integrator_body.hpp:146-160. *)
Definition e_fill (f : Derivative) (s : RKState) : EStep := mkEStep (rk_s s) (rk_y s) (snd (f (rk_s s) (rk_y s))).
(** Lines 107-122: [current_state] after a step. *)
Definition e_new_state (previous_steps : list EStep) : RKState :=
  let step := last previous_steps e_default in mkRKState (e_s step) (e_y step).
(** ExplicitLinearMultistepIntegrator::Instance::Solve; the startup integrator is [startup]. *)
Definition explicit_solve (startup : RK) (m : Multistep) (f : Derivative) (h : R) :=
  multistep_solve RKState EStep rk_s e_s (order m) (e_fill f) (fun h => rk_solve startup f h) (e_step m f h) e_new_state h.

(** symmetric_linear_multistep_integrator_body.hpp:245-262. *)
Definition s_fill (f : Acceleration) (s : State) : Step :=
  mkStep (time s) (positions s) (snd (f (time s) (positions s))).
(** Lines 129-143: [current_state] after a step. *)
Definition s_new_state (m : Multistep) (h : R) (previous_steps : list Step) : State :=
  let step := last previous_steps default_step in
  mkState (step_time step) (displacements step) (ComputeVelocity m h previous_steps).
(** SymmetricLinearMultistepIntegrator::Instance::Solve; the startup integrator is [startup]. *)
Definition symmetric_solve (startup : SRKN) (m : Multistep) (f : Acceleration) (h : R) :=
  multistep_solve State Step time step_time (order m) (s_fill f) (fun h => srkn_solve startup f h) (s_step m f h)
                  (s_new_state m h) h.
