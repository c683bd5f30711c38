(** Model of the adaptive step size integrators: integrators/embedded_explicit_runge_kutta_integrator_body.hpp (RK),
    integrators/embedded_explicit_runge_kutta_nyström_integrator_body.hpp (RKN) and
    integrators/embedded_explicit_generalized_runge_kutta_nyström_integrator_body.hpp (RKNG).  Numbers are real: a
    DoublePrecision is its exact value, the step is effectively zero if it is 0, and the ratio of the tolerance to the
    error is finite (in the code it is infinite if the error is 0).  The requests to stop the thread
    (RETURN_IF_STOPPED), the serialization and the clones are not modelled. *)
From Coq Require Import Reals List Bool Arith.
From Verif Require Import OneStep_Model.
Import ListNotations.
Open Scope R_scope.

(** ordinary_differential_equations.hpp:35-46. *)
Definition ReachedMaximalStepCount : Status := OtherError 8.
Definition VanishingStepSize : Status := OtherError 9.
(** integrators.hpp:160-190; a [max_steps] that is not positive is never reached, it is 0 here. *)
Record Parameters := mkParameters { first_step : R; safety_factor : R; max_steps : nat; last_step_is_exact : bool }.
(** numerics/elementary_functions_body.hpp:157-159: [Root], for [x >= 0]. *)
Definition Root (n : nat) (x : R) : R := if Rle_dec x 0 then 0 else Rpower x (/ INR n).
(** geometry/sign_body.hpp: the sign of 0 is positive. *)
Definition sign (x : R) : R := if Rlt_dec x 0 then -1 else 1.
Definition Rgeb (x y : R) : bool := if Rle_dec y x then true else false.
Definition Rgtb (x y : R) : bool := if Rlt_dec y x then true else false.
Definition Rltb (x y : R) : bool := if Rlt_dec x y then true else false.

(** * The control of the step size, common to the three integrators *)
Section Adaptive.
  Variable S : Type.
  Variable time : S -> R.
  (** What is kept from a step to the next for the first-same-as-last methods. *)
  Variable M : Type.
  (** RK, lines 175-225; RKN, lines 176-219; RKNG, lines 181-227: the state after the step, what is kept if it is
      accepted, the status of the evaluations, and the ratio of the tolerance to the error. *)
  Variable attempt : bool -> R -> S -> M -> R -> S * M * Status * R.
  (** RK, lines 125-127: the evaluation before the first step. *)
  Variable begin : S -> Status * M.
  (** Whether the integration stops if the status of a step is [Aborted]: RK, lines 249-250; RKNG, lines 253-254; RKN does
      not. *)
  Variable stops_if_aborted : bool.
  Variable lower_order : nat.
  Variable parameters : Parameters.

  Record AInstance := mkAInstance { a_state : S; a_step : R; first_use : bool }.

  (** RK, lines 143-147. *)
  Definition adapt (h ratio : R) : R := h * (safety_factor parameters * Root (lower_order + 1) ratio).
  (** RK, lines 133-263; RKN, lines 135-257; RKNG, lines 140-267.  An iteration is one attempt at a step, from the label.
      [count] is [step_count]. *)
  Fixpoint adaptive_loop (fuel : nat) (t_final : R) (s : S) (m : M) (h : R) (count : nat) (status : Status)
      : Outcome AInstance S :=
    match fuel with
    | O => NoFuel
    | Datatypes.S fuel =>
      let direction := sign (first_step parameters) in
      let to_end := t_final - time s in
      let at_end := last_step_is_exact parameters && Rgeb (direction * h) (direction * to_end) in
      let h := if at_end then to_end else h in
      let '(s', m', step_status, ratio) := attempt at_end t_final s m h in
      if Rltb ratio 1 then
        let h := adapt h ratio in
        if Reqb (time s + h) (time s) then Done [] (mkAInstance s h false) VanishingStepSize
        else adaptive_loop fuel t_final s m h count status
      else
        let status := Update status step_status in
        if negb (last_step_is_exact parameters) && Rgtb (time s + h) t_final
        then Done [] (mkAInstance s h false) status
        else
          let count := Datatypes.S count in
          if stops_if_aborted && IsAborted step_status then Done [s'] (mkAInstance s' h false) step_status
          else if Nat.eqb count (max_steps parameters) && negb at_end
          then Done [s'] (mkAInstance s' h false) ReachedMaximalStepCount
          else if at_end then Done [s'] (mkAInstance s h false) status
          else
            let h := adapt h ratio in
            if Reqb (time s' + h) (time s') then Done [s'] (mkAInstance s' h false) VanishingStepSize
            else
              match adaptive_loop fuel t_final s' m' h count status with
              | Done l i status => Done (s' :: l) i status
              | Fatal => Fatal
              | NoFuel => NoFuel
              end
    end.
  (** RK, lines 47-264; RKN, lines 44-258; RKNG, lines 46-268. *)
  Definition adaptive_solve (fuel : nat) (t_final : R) (i : AInstance) : Outcome AInstance S :=
    if direction_check S time (first_step parameters) t_final (a_state i) then
      if first_use i || negb (last_step_is_exact parameters) then
        let '(status, m) := begin (a_state i) in
        adaptive_loop fuel t_final (a_state i) m (a_step i) 0 status
      else Fatal
    else Fatal.
  (** NewInstance: RK, lines 342-356; RKN, lines 337-351; RKNG, lines 347-362. *)
  Definition new_instance (s : S) : AInstance := mkAInstance s (first_step parameters) true.
End Adaptive.
Arguments mkAInstance {S}. Arguments a_state {S}. Arguments a_step {S}. Arguments first_use {S}.

(** * EmbeddedExplicitRungeKuttaIntegrator *)
(** methods.hpp:19-29. *)
Record EmbeddedRK := mkEmbeddedRK { erk_fsal : bool; erk_lower_order : nat; erk_c : list R; erk_a : list (list R);
                                    erk_bhat : list R; erk_b : list R }.
Definition erk_stages (m : EmbeddedRK) : nat := length (erk_bhat m).
(** Lines 31-45. *)
Definition erk_checks (m : EmbeddedRK) : bool :=
  let n := erk_stages m in
  Reqb 0 (nth 0 (erk_c m) 0)
  && (if erk_fsal m then
        Reqb 1 (nth (n - 1) (erk_c m) 0) && Reqb 0 (nth (n - 1) (erk_bhat m) 0)
        && all_below (n - 1) (fun j => Reqb (nth j (erk_bhat m) 0) (nth j (nth (n - 1) (erk_a m) []) 0))
      else true).
(** The function that gives the ratio of the tolerance to the error, from the step, the state and the error. *)
Definition ERKTolerance := R -> RKState -> Vec -> R.
Section EmbeddedRK.
  Variables (m : EmbeddedRK) (f : Derivative) (tolerance : ERKTolerance) (exact : bool).
  (** Lines 176-204: one stage. *)
  Definition erk_stage (at_end : bool) (s_final : R) (s : RKState) (last_f : Vec) (h : R) (acc : list Vec * Vec * Status) (i : nat)
      : list Vec * Vec * Status :=
    let '(k, _, status) := acc in
    let c := nth i (erk_c m) 0 in
    let '(new_status, f) :=
      if Nat.eqb i 0 && erk_fsal m then (Ok, last_f)
      else
        let s_stage := if exact && at_end && Reqb c 1 then s_final else rk_s s + c * h in
        f s_stage (vadd (rk_y s) (weighted (fun j => nth j (nth i (erk_a m) []) 0) k)) in
    (k ++ [vscal h f], f, Update status new_status).
  (** Lines 175-244. *)
  Definition erk_attempt (at_end : bool) (s_final : R) (s : RKState) (last_f : Vec) (h : R) : RKState * Vec * Status * R :=
    let '(k, f, status) := fold_left (erk_stage at_end s_final s last_f h) (seq 0 (erk_stages m)) ([], last_f, Ok) in
    let dyhat := weighted (fun i => nth i (erk_bhat m) 0) k in
    let dy := weighted (fun i => nth i (erk_b m) 0) k in
    let error_estimate := fun d => dy d - dyhat d in
    (mkRKState (rk_s s + h) (vadd (rk_y s) dyhat), if erk_fsal m then f else last_f, status, tolerance h s error_estimate).
  (** Lines 125-127. *)
  Definition erk_begin (s : RKState) : Status * Vec := if erk_fsal m then f (rk_s s) (rk_y s) else (Ok, vzero).
End EmbeddedRK.
Definition erk_solve (m : EmbeddedRK) (f : Derivative) (tolerance : ERKTolerance) (p : Parameters) :=
  adaptive_solve RKState rk_s Vec (erk_attempt m f tolerance (last_step_is_exact p)) (erk_begin m f) true (erk_lower_order m) p.

(** * The Nyström integrators *)
(** methods.hpp:31-62; the methods that are not generalized have no [aʹ]. *)
Record EmbeddedRKN := mkEmbeddedRKN { rkn_fsal : bool; rkn_lower_order : nat; rkn_c : list R;
                                      rkn_a : list (list R); rkn_aʹ : list (list R);
                                      rkn_bhat : list R; rkn_bhatʹ : list R; rkn_b : list R; rkn_bʹ : list R }.
Definition rkn_stages (m : EmbeddedRKN) : nat := length (rkn_bhat m).
(** RKN, lines 29-42; RKNG, lines 30-44: there are no conditions on [aʹ] and [b̂ʹ]. *)
Definition rkn_checks (m : EmbeddedRKN) : bool :=
  let n := rkn_stages m in
  Reqb 0 (nth 0 (rkn_c m) 0)
  && (if rkn_fsal m then
        Reqb 1 (nth (n - 1) (rkn_c m) 0) && Reqb 0 (nth (n - 1) (rkn_bhat m) 0)
        && all_below (n - 1) (fun j => Reqb (nth j (rkn_bhat m) 0) (nth j (nth (n - 1) (rkn_a m) []) 0))
      else true).
(** The right-hand side: it does not depend on the velocities for RKN. *)
Definition GeneralAcceleration := R -> Vec -> Vec -> Status * Vec.
(** The function that gives the ratio of the tolerance to the error, from the step, the state and the errors on the
    positions and on the velocities. *)
Definition RKNTolerance := R -> State -> Vec -> Vec -> R.
Section EmbeddedRKN.
  Variables (m : EmbeddedRKN) (f : GeneralAcceleration) (tolerance : RKNTolerance) (exact : bool).
  (** RKN, lines 178-193; RKNG, lines 184-201: one stage, from the list [g] of the accelerations at the previous ones. *)
  Definition rkn_stage (at_end : bool) (t_final : R) (s : State) (h : R) (acc : list Vec * Status) (i : nat) : list Vec * Status :=
    let '(g, status) := acc in
    let c := nth i (rkn_c m) 0 in
    let t_stage := if exact && at_end && Reqb c 1 then t_final else time s + c * h in
    let sum_a := weighted (fun j => nth j (nth i (rkn_a m) []) 0) g in
    let sum_aʹ := weighted (fun j => nth j (nth i (rkn_aʹ m) []) 0) g in
    let q_stage := fun d => positions s d + h * c * velocities s d + h * h * sum_a d in
    let v_stage := fun d => velocities s d + h * sum_aʹ d in
    let '(new_status, gi) := f t_stage q_stage v_stage in
    (g ++ [gi], Update status new_status).
  (** RKN, lines 176-241; RKNG, lines 181-249.  What is kept is the first element of [g], if [first_stage] is 1. *)
  Definition rkn_attempt (at_end : bool) (t_final : R) (s : State) (g0 : option Vec) (h : R) : State * option Vec * Status * R :=
    let '(g, status) :=
      match g0 with
      | None => fold_left (rkn_stage at_end t_final s h) (seq 0 (rkn_stages m)) ([], Ok)
      | Some g0 => fold_left (rkn_stage at_end t_final s h) (seq 1 (rkn_stages m - 1)) ([g0], Ok)
      end in
    let sum_bhat := weighted (fun i => nth i (rkn_bhat m) 0) g in
    let sum_b := weighted (fun i => nth i (rkn_b m) 0) g in
    let sum_bhatʹ := weighted (fun i => nth i (rkn_bhatʹ m) 0) g in
    let sum_bʹ := weighted (fun i => nth i (rkn_bʹ m) 0) g in
    let dqhat := fun d => h * velocities s d + h * h * sum_bhat d in
    let dq := fun d => h * velocities s d + h * h * sum_b d in
    let dvhat := fun d => h * sum_bhatʹ d in
    let dv := fun d => h * sum_bʹ d in
    (mkState (time s + h) (vadd (positions s) dqhat) (vadd (velocities s) dvhat),
     if rkn_fsal m then Some (last g vzero) else g0, status,
     tolerance h s (fun d => dq d - dqhat d) (fun d => dv d - dvhat d)).
  Definition rkn_begin (s : State) : Status * option Vec := (Ok, None).
End EmbeddedRKN.
(** [generalized] distinguishes RKNG from RKN. *)
Definition rkn_solve (generalized : bool) (m : EmbeddedRKN) (f : GeneralAcceleration) (tolerance : RKNTolerance) (p : Parameters) :=
  adaptive_solve State time (option Vec) (rkn_attempt m f tolerance (last_step_is_exact p)) rkn_begin generalized
    (rkn_lower_order m) p.
