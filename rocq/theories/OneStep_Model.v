(** Model of the fixed step size one-step integrators: integrators/symplectic_runge_kutta_nyström_integrator_body.hpp and
    integrators/explicit_runge_kutta_integrator_body.hpp.  Numbers are real: a DoublePrecision is its exact value.  The
    dependent variables are given by their components, as functions of the index of the component.  The requests to stop
    the thread (RETURN_IF_STOPPED), the serialization and the clones are not modelled. *)
From Coq Require Import Reals List Bool Arith.
Import ListNotations.
Open Scope R_scope.

(** The components of the dependent variables, of their derivatives or of their increments. *)
Definition Vec := nat -> R.
Definition vzero : Vec := fun _ => 0.
Definition vadd (x y : Vec) : Vec := fun d => x d + y d.
Definition vscal (k : R) (x : Vec) : Vec := fun d => k * x d.

(** absl::Status: its code, and [Update], which only changes a status which is OK. *)
Inductive Status := Ok | Aborted | OtherError (code : nat).
Definition Update (s new_status : Status) : Status := match s with Ok => new_status | _ => s end.
Definition IsAborted (s : Status) : bool := match s with Aborted => true | _ => false end.

(** The result of a call to [Solve]: the states given to [append_state], the instance at the end, and the status;
    [Fatal] is the failure of a CHECK; [NoFuel] means that the bound on the number of iterations was too small. *)
Inductive Outcome (I S : Type) := Done (appended : list S) (instance : I) (status : Status) | Fatal | NoFuel.
Arguments Done {I S}. Arguments Fatal {I S}. Arguments NoFuel {I S}.

(** * The loop of a one-step integrator *)
Section OneStep.
  Variable S : Type.
  (** The independent variable of a state. *)
  Variable time : S -> R.
  (** What the code keeps from an iteration to the next, other than the state. *)
  Variable M : Type.
  (** One iteration, with the status of the evaluations of the right-hand side. *)
  Variable iterate : S -> M -> S * M * Status.
  Variable h : R.

  (** symplectic_runge_kutta_nyström_integrator_body.hpp:97-143 and explicit_runge_kutta_integrator_body.hpp:108-170. *)
  Fixpoint one_step_loop (fuel : nat) (t_final : R) (s : S) (m : M) (status : Status) : Outcome S S :=
    if Rle_dec (Rabs h) (Rabs (t_final - time s)) then
      match fuel with
      | O => NoFuel
      | Datatypes.S fuel =>
        let '(s', m', new_status) := iterate s m in
        let status := Update status new_status in
        if IsAborted status then Done [s'] s' status
        else
          match one_step_loop fuel t_final s' m' status with
          | Done l s'' status => Done (s' :: l) s'' status
          | Fatal => Fatal
          | NoFuel => NoFuel
          end
      end
    else Done [] s status.
  (** The CHECKs on the direction: symplectic_runge_kutta_nyström_integrator_body.hpp:47-54 and
      explicit_runge_kutta_integrator_body.hpp:69-76; the sign of 0 is positive. *)
  Definition direction_check (t_final : R) (s : S) : bool :=
    if Rlt_dec h 0 then if Rlt_dec t_final (time s) then true else false
    else if Rlt_dec (time s) t_final then true else false.
End OneStep.

(** * SymplecticRungeKuttaNyströmIntegrator *)
Inductive Composition := BA | ABA | BAB.
(** integrators/methods.hpp:95-118; the number of stages is the length of [a] and of [b]. *)
Record SRKN := mkSRKN { composition : Composition; time_reversible : bool; srkn_a : list R; srkn_b : list R }.
Definition stages (m : SRKN) : nat := length (srkn_a m).
Definition a_ (m : SRKN) (i : nat) : R := nth i (srkn_a m) 0.
Definition b_ (m : SRKN) (i : nat) : R := nth i (srkn_b m) 0.
(** Lines 203-207. *)
Definition c_ (m : SRKN) (i : nat) : R := fold_left Rplus (firstn i (srkn_a m)) 0.
Definition first_stage (m : SRKN) : nat := match composition m with BA => 0 | _ => 1 end.
Definition is_bab (m : SRKN) : bool := match composition m with BAB => true | _ => false end.

Record State := mkState { time : R; positions : Vec; velocities : Vec }.
(** The right-hand side: [equation.compute_acceleration]. *)
Definition Acceleration := R -> Vec -> Status * Vec.

(** Lines 113-127: one stage, from [dq], [dv], the accelerations [g] and the status. *)
Definition srkn_stage (m : SRKN) (f : Acceleration) (h : R) (s : State) (acc : Vec * Vec * Vec * Status) (i : nat)
    : Vec * Vec * Vec * Status :=
  let '(dq, dv, g, status) := acc in
  let q_stage := vadd (positions s) dq in
  let '(new_status, g) := f (time s + c_ m i * h) q_stage in
  let dv := vadd dv (vscal (h * b_ m i) g) in
  let dq := vadd dq (vscal (h * a_ m i) (vadd (velocities s) dv)) in
  (dq, dv, g, Update status new_status).
(** Lines 98-135; [g] holds the accelerations computed last. *)
Definition srkn_iterate (m : SRKN) (f : Acceleration) (h : R) (s : State) (g : Vec) : State * Vec * Status :=
  let '(dq, dv) :=
    match composition m with
    | BA => (vzero, vzero)
    | _ =>
      let dv := if is_bab m then vadd vzero (vscal (h * b_ m 0) g) else vzero in
      (vadd vzero (vscal (h * a_ m 0) (vadd (velocities s) dv)), dv)
    end in
  let '(dq, dv, g, status) :=
    fold_left (srkn_stage m f h s) (seq (first_stage m) (stages m - first_stage m)) (dq, dv, g, Ok) in
  (mkState (time s + h) (vadd (positions s) dq) (vadd (velocities s) dv), g, status).
(** Lines 24-144. *)
Definition srkn_solve (m : SRKN) (f : Acceleration) (h : R) (fuel : nat) (t_final : R) (s : State) : Outcome State State :=
  if Req_EM_T h 0 then Fatal
  else if direction_check State time h t_final s then
    let '(status, g) := if is_bab m then f (time s) (positions s) else (Ok, vzero) in
    one_step_loop State time Vec (srkn_iterate m f h) h fuel t_final s g (Update Ok status)
  else Fatal.
(** Lines 201-239: the CHECKs of the constructor, except that on the sum of [a]. *)
Fixpoint all_below (n : nat) (p : nat -> bool) : bool := match n with O => true | S n => p n && all_below n p end.
Definition Reqb (x y : R) : bool := if Req_EM_T x y then true else false.
Definition srkn_checks (m : SRKN) : bool :=
  let n := stages m in
  (match composition m with
   | BA => true
   | ABA => Reqb 0 (b_ m 0)
   | BAB => Reqb 0 (a_ m (n - 1))
   end)
  && (if time_reversible m then
        match composition m with
        | ABA => all_below n (fun i => Reqb (a_ m i) (a_ m (n - 1 - i)))
                 && all_below (n - 1) (fun i => Reqb (b_ m (i + 1)) (b_ m (n - 1 - i)))
        | BAB => all_below (n - 1) (fun i => Reqb (a_ m i) (a_ m (n - 2 - i)))
                 && all_below n (fun i => Reqb (b_ m i) (b_ m (n - 1 - i)))
        | BA => false
        end
      else true).

(** integrators/methods.hpp:120-133: a SymplecticPartitionedRungeKutta method. *)
Record SPRK := mkSPRK { sprk_first_same_as_last : bool; sprk_time_reversible : bool; sprk_a : list R; sprk_b : list R }.
(** integrators/methods.hpp:166-173: [shifted_a[i] = a[mod(i - 1, stages)]]. *)
Definition Shift (a : list R) : list R :=
  map (fun i => nth ((i + length a - 1) mod length a) a 0) (seq 0 (length a)).
(** integrators/methods.hpp:135-187: AsSymplecticRungeKuttaNyström; None is the failure of a static_assert. *)
Definition AsSRKN (m : SPRK) (c : Composition) : option SRKN :=
  match sprk_first_same_as_last m, c with
  | true, BA | false, ABA | false, BAB => None
  | _, ABA => Some (mkSRKN ABA (sprk_time_reversible m) (sprk_b m) (Shift (sprk_a m)))
  | _, _ => Some (mkSRKN c (sprk_time_reversible m) (sprk_a m) (sprk_b m))
  end.
(** integrators/methods.hpp:951-962. *)
Definition NewtonDelambreStormerVerletLeapfrog : SPRK := mkSPRK true true [1; 0] [1 / 2; 1 / 2].

(** * ExplicitRungeKuttaIntegrator *)
(** integrators/methods.hpp:72-82; [rk_a] has the rows of the strictly lower triangular matrix. *)
Record RK := mkRK { first_same_as_last : bool; rk_c : list R; rk_a : list (list R); rk_b : list R }.
Definition rk_stages (m : RK) : nat := length (rk_b m).
Definition rk_c_ (m : RK) (i : nat) : R := nth i (rk_c m) 0.
Definition rk_a_ (m : RK) (i j : nat) : R := nth j (nth i (rk_a m) []) 0.
Definition rk_b_ (m : RK) (i : nat) : R := nth i (rk_b m) 0.
Record RKState := mkRKState { rk_s : R; rk_y : Vec }.
Definition Derivative := R -> Vec -> Status * Vec.
(** The weighted sum of the [k], lines 117-125 and 141-151. *)
Definition weighted (w : nat -> R) (k : list Vec) : Vec :=
  fst (fold_left (fun '(sum, j) kj => (vadd sum (vscal (w j) kj), S j)) k (vzero, 0%nat)).
(** Lines 110-138: one stage, from the list [k] of the previous ones, the last derivatives and the status. *)
Definition rk_stage (m : RK) (f : Derivative) (h : R) (s : RKState) (last_f : Vec) (acc : list Vec * Vec * Status) (i : nat)
    : list Vec * Vec * Status :=
  let '(k, _, status) := acc in
  let '(new_status, f) :=
    if Nat.eqb i 0 && first_same_as_last m then (Ok, last_f)
    else f (rk_s s + rk_c_ m i * h) (vadd (rk_y s) (weighted (rk_a_ m i) k)) in
  (k ++ [vscal h f], f, Update status new_status).
(** Lines 109-161; the memory is [last_f]. *)
Definition rk_iterate (m : RK) (f : Derivative) (h : R) (s : RKState) (last_f : Vec) : RKState * Vec * Status :=
  let '(k, f, status) := fold_left (rk_stage m f h s last_f) (seq 0 (rk_stages m)) ([], last_f, Ok) in
  (mkRKState (rk_s s + h) (vadd (rk_y s) (weighted (rk_b_ m) k)),
   if first_same_as_last m then f else last_f, status).
(** Lines 46-171. *)
Definition rk_solve (m : RK) (f : Derivative) (h : R) (fuel : nat) (s_final : R) (s : RKState) : Outcome RKState RKState :=
  if direction_check RKState rk_s h s_final s then
    let '(status, last_f) := if first_same_as_last m then f (rk_s s) (rk_y s) else (Ok, vzero) in
    one_step_loop RKState rk_s Vec (rk_iterate m f h) h fuel s_final s last_f status
  else Fatal.
(** Lines 30-44: the CHECKs of the constructor. *)
Definition rk_checks (m : RK) : bool :=
  let n := rk_stages m in
  Reqb 0 (rk_c_ m 0)
  && (if first_same_as_last m then
        Reqb 1 (rk_c_ m (n - 1)) && Reqb 0 (rk_b_ m (n - 1))
        && all_below (n - 1) (fun j => Reqb (rk_b_ m j) (rk_a_ m (n - 1) j))
      else true).
(** integrators/methods.hpp:632-648. *)
Definition Kutta1901Vsigma1 : RK :=
  mkRK false [0; 1 / 2; 1 / 2; 1] [[]; [1 / 2]; [0; 1 / 2]; [0; 0; 1]] [1 / 6; 1 / 3; 1 / 3; 1 / 6].
