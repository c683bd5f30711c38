(** Model of ksp_plugin/manœuvre_body.hpp in exact arithmetic.  [None] is a result that is not a finite number, i.e., a
    division by zero.  The intensity is modelled by its Δv and its direction in the Frenet frame; the orthogonal map from
    the Frenet frame to the inertial frame is not modelled (see C14 for such maps), nor is the reference frame. *)
From Coq Require Import Reals.
From Verif Require Import Geometry_Model.
Open Scope R_scope.

Definition quotient (a b : R) : option R := if Req_EM_T b 0 then None else Some (a / b).
Definition bind {A B} (a : option A) (f : A -> option B) : option B := match a with Some x => f x | None => None end.
Notation "'let*' x := e 'in' f" := (bind e (fun x => f)) (at level 200, x name, e at level 100, f at level 200).

(** geometry/r3_element_body.hpp:547-556 *)
Definition NormalizeOrZero (v : R3) : R3 := if Req_EM_T (Norm v) 0 then mk3 0 0 0 else div3 v (Norm v).

(** ksp_plugin/manœuvre.hpp: exactly one of the times is given, otherwise the CHECKs on lines 159 and 162 of
    ksp_plugin/manœuvre_body.hpp fail. *)
Inductive timing := InitialTime (t : R) | TimeOfHalfΔv (t : R).
Record burn := Burn { Δv : R3; burn_timing : timing; thrust : R; specific_impulse : R }.

(** ksp_plugin/manœuvre_body.hpp:20-25 and 197-200 *)
Definition direction (b : burn) : R3 := NormalizeOrZero (Δv b).
(** ksp_plugin/manœuvre_body.hpp:146-154 *)
Definition duration (mass : R) (b : burn) : option R :=
  let speed := Norm (Δv b) in
  if Req_EM_T speed 0 then Some 0
  else let* ratio := quotient (- speed) (specific_impulse b) in
       quotient (mass * specific_impulse b * (1 - exp ratio)) (thrust b).
(** ksp_plugin/manœuvre_body.hpp:239-242 *)
Definition mass_flow (b : burn) : option R := quotient (thrust b) (specific_impulse b).
(** ksp_plugin/manœuvre_body.hpp:244-247 *)
Definition final_mass (mass : R) (b : burn) : option R :=
  let* flow := mass_flow b in let* d := duration mass b in Some (mass - flow * d).
(** ksp_plugin/manœuvre_body.hpp:249-253 *)
Definition time_to_half_Δv (mass : R) (b : burn) : option R :=
  let* final := final_mass mass b in
  let* ratio := quotient final mass in
  quotient (specific_impulse b * mass * (1 - sqrt ratio)) (thrust b).
(** ksp_plugin/manœuvre_body.hpp:156-164: the initial time and the time of half Δv. *)
Definition initial_time (mass : R) (b : burn) : option R :=
  match burn_timing b with InitialTime t => Some t | TimeOfHalfΔv t => let* h := time_to_half_Δv mass b in Some (t - h) end.
Definition time_of_half_Δv (mass : R) (b : burn) : option R :=
  match burn_timing b with InitialTime t => let* h := time_to_half_Δv mass b in Some (t + h) | TimeOfHalfΔv t => Some t end.
(** ksp_plugin/manœuvre_body.hpp:255-258 *)
Definition final_time (mass : R) (b : burn) : option R :=
  let* t := initial_time mass b in let* d := duration mass b in Some (t + d).
(** ksp_plugin/manœuvre_body.hpp:393-406, for a burn with initial and final times [ti] and [tf] and a mass flow [flow]. *)
Definition ComputeIntrinsicAcceleration (mass thrust_ flow ti tf : R) (dir : R3) (t : R) : R3 :=
  if Rle_dec ti t then if Rle_dec t tf then div3 (scal3 thrust_ dir) (mass - (t - ti) * flow) else mk3 0 0 0
  else mk3 0 0 0.
(** ksp_plugin/manœuvre_body.hpp:414-427 *)
Definition ComputeЦиолковскийΔv (dir : R3) (mass d thrust_ isp : R) : option R3 :=
  let* flow := quotient thrust_ isp in
  let* ratio := quotient mass (mass - flow * d) in
  Some (scal3 (ln ratio) (scal3 isp dir)).
(** ksp_plugin/manœuvre_body.hpp:324-334 and 336-375: the initial time is serialized, whatever the timing was. *)
Definition WriteRead (mass : R) (b : burn) : option burn :=
  let* t := initial_time mass b in Some (Burn (Δv b) (InitialTime t) (thrust b) (specific_impulse b)).
