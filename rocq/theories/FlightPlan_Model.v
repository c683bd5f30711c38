(** Model of ksp_plugin/flight_plan.cpp, and of the part of ksp_plugin/manœuvre_body.hpp that it uses.

    Numbers are rationals, rounding is not modelled.  The exponentials of the rocket equation are kept symbolic: a burn
    carries [root] = exp(-Δv / (2 Isp)) and [flow_rate] = thrust / Isp; property C48 relates these to the formulæ in the
    code.  Only the times of the points of the trajectories are modelled.  A numerical integration is performed by an
    oracle, which may return anything for each call.  The prolongator thread, the coast analysers and the parameters of
    the integrators are not modelled.  A failing CHECK is [None]. *)
From Coq Require Import List Arith ZArith QArith Qminmax Bool.
Import ListNotations.
Open Scope Q_scope.

Definition Qlt_bool (x y : Q) : bool := negb (Qle_bool y x).

(** ** Manœuvres *)

(** ksp_plugin/manœuvre.hpp: exactly one of the times is given. *)
Inductive timing := InitialTime (t : Q) | TimeOfHalfΔv (t : Q).
(** [finite] is whether Δv² is finite. *)
Record burn := Burn { finite : bool; root : Q; flow_rate : Q; burn_timing : timing }.
(** [has_coasting_trajectory] is whether initial_degrees_of_freedom_ has a value. *)
Record manœuvre := Manœuvre { initial_mass : Q; construction_burn : burn; has_coasting_trajectory : bool }.

(** ksp_plugin/manœuvre_body.hpp:146-154 *)
Definition duration (m : manœuvre) : Q :=
  let b := construction_burn m in initial_mass m * (1 - root b * root b) / flow_rate b.
(** ksp_plugin/manœuvre_body.hpp:244-247 *)
Definition final_mass (m : manœuvre) : Q := initial_mass m - flow_rate (construction_burn m) * duration m.
(** ksp_plugin/manœuvre_body.hpp:249-253 *)
Definition time_to_half_Δv (m : manœuvre) : Q :=
  let b := construction_burn m in initial_mass m * (1 - root b) / flow_rate b.
(** ksp_plugin/manœuvre_body.hpp:156-164 and 209-213 *)
Definition initial_time (m : manœuvre) : Q :=
  match burn_timing (construction_burn m) with InitialTime t => t | TimeOfHalfΔv t => t - time_to_half_Δv m end.
(** ksp_plugin/manœuvre_body.hpp:255-258 *)
Definition final_time (m : manœuvre) : Q := initial_time m + duration m.
(** ksp_plugin/manœuvre_body.hpp:260-263 *)
Definition IsSingular (m : manœuvre) : bool := negb (finite (construction_burn m)).
(** ksp_plugin/manœuvre_body.hpp:265-268 *)
Definition IsAfter (time : Q) (m : manœuvre) : bool := Qlt_bool time (initial_time m).
(** ksp_plugin/manœuvre_body.hpp:270-274 *)
Definition FitsBetween (begin_ end_ : Q) (m : manœuvre) : bool :=
  Qlt_bool begin_ (initial_time m) && Qlt_bool (final_time m) end_.
(** ksp_plugin/manœuvre_body.hpp:140-146: a new manœuvre has no coasting trajectory. *)
Definition MakeManœuvre (mass : Q) (b : burn) : manœuvre := Manœuvre mass b false.
(** ksp_plugin/manœuvre_body.hpp:276-279 *)
Definition clear_coasting_trajectory (m : manœuvre) : manœuvre := Manœuvre (initial_mass m) (construction_burn m) false.

(** ** Flight plans *)

(** The statuses of the integrations and those returned by the operations when they reject their argument. *)
Inductive status := Ok | DeadlineExceeded | Failure (code : nat) | Singular | DoesNotFit | BadDesiredFinalTime.
Definition ok (s : status) : bool := match s with Ok => true | _ => false end.
(** absl::Status::Update *)
Definition Update (s t : status) : status := if ok s then t else s.

(** [points] are the times of the points of the segment, the last one first.  [outcome] is a ghost: the status of the
    integration of the segment, [None] if none was attempted. *)
Record segment := Segment { points : list Q; outcome : option status }.
(** [segments] has the last segment first.  [integrations] counts the calls to the oracle. *)
Record plan := Plan {
  initial_mass_ : Q; initial_time_ : Q; desired_final_time_ : Q;
  segments : list segment; anomalous_segments_ : nat; anomalous_status_ : status;
  manœuvres_ : list manœuvre; integrations : nat }.

(** The status and the points appended by a numerical integration, given the number of the call, the initial and the
    final times. *)
Notation oracle := (nat -> Q -> Q -> status * list Q).

Definition set_segments p s := Plan (initial_mass_ p) (initial_time_ p) (desired_final_time_ p) s (anomalous_segments_ p) (anomalous_status_ p) (manœuvres_ p) (integrations p).
Definition set_anomaly p n st := Plan (initial_mass_ p) (initial_time_ p) (desired_final_time_ p) (segments p) n st (manœuvres_ p) (integrations p).
Definition set_manœuvres p ms := Plan (initial_mass_ p) (initial_time_ p) (desired_final_time_ p) (segments p) (anomalous_segments_ p) (anomalous_status_ p) ms (integrations p).
Definition set_desired_final_time p t := Plan (initial_mass_ p) (initial_time_ p) t (segments p) (anomalous_segments_ p) (anomalous_status_ p) (manœuvres_ p) (integrations p).
Definition set_integrations p n := Plan (initial_mass_ p) (initial_time_ p) (desired_final_time_ p) (segments p) (anomalous_segments_ p) (anomalous_status_ p) (manœuvres_ p) n.

(** ksp_plugin/flight_plan.cpp:147-149 *)
Definition number_of_manœuvres (p : plan) : nat := length (manœuvres_ p).
(** ksp_plugin/flight_plan.cpp:151-153; the C++ division truncates towards 0. *)
Definition number_of_anomalous_manœuvres (p : plan) : Z := Z.quot (Z.of_nat (anomalous_segments_ p) - 1) 2.
(** ksp_plugin/flight_plan.cpp:139-141 *)
Definition actual_final_time (p : plan) : option Q :=
  match segments p with {| points := t :: _ |} :: _ => Some t | _ => None end.
(** ksp_plugin/flight_plan.cpp:270-272 *)
Definition number_of_segments (p : plan) : nat := length (segments p).

(** ksp_plugin/flight_plan.cpp:687-702 *)
Definition start_of_last_coast (p : plan) : Q :=
  match rev (manœuvres_ p) with [] => initial_time_ p | m :: _ => final_time m end.
Definition start_of_burn (p : plan) (index : nat) : Q :=
  match nth_error (manœuvres_ p) index with None => desired_final_time_ p | Some m => initial_time m end.
Definition start_of_next_burn (p : plan) (index : nat) : Q := start_of_burn p (S index).
Definition start_of_previous_coast (p : plan) (index : nat) : Q :=
  match index with O => initial_time_ p | S i => match nth_error (manœuvres_ p) i with None => initial_time_ p | Some m => final_time m end end.

(** physics/ephemeris_body.hpp:1626-1696: Ephemeris::FlowODEWithAdaptiveStep, which appends to the last segment.  The
    CHECK is the one on line 1657, "Flow back to the future". *)
Definition Flow (o : oracle) (target : Q) (p : plan) : option (status * plan) :=
  match segments p with
  | {| points := last :: ps |} :: r =>
      if Qeq_bool last target then Some (Ok, set_segments p (Segment (last :: ps) (Some Ok) :: r))
      else if Qlt_bool target last then None
      else let '(st, new) := o (integrations p) last target in
           Some (st, set_integrations (set_segments p (Segment (rev new ++ last :: ps) (Some st) :: r)) (S (integrations p)))
  | _ => None
  end.
(** ksp_plugin/flight_plan.cpp:504-522.  The wait for the reanimation of the ephemeris is not modelled. *)
Definition CoastSegment := Flow.
(** ksp_plugin/flight_plan.cpp:469-502 *)
Definition BurnSegment (o : oracle) (m : manœuvre) (p : plan) : option (status * plan) :=
  if Qlt_bool (initial_time m) (final_time m) then Flow o (final_time m) p
  else Some (Ok, match segments p with s :: r => set_segments p (Segment (points s) (Some Ok) :: r) | [] => p end).
(** ksp_plugin/manœuvre_body.hpp:281-289: the CHECK is that the coast has a point at the initial time. *)
Definition set_coasting_trajectory (coast : segment) (m : manœuvre) : option manœuvre :=
  if existsb (Qeq_bool (initial_time m)) (points coast)
  then Some (Manœuvre (initial_mass m) (construction_burn m) true) else None.

(** ksp_plugin/flight_plan.cpp:606-611 *)
Definition AddLastSegment (p : plan) : option plan :=
  match segments p with
  | {| points := last :: _ |} :: _ =>
      Some (set_anomaly (set_segments p (Segment [last] None :: segments p))
        (match anomalous_segments_ p with O => O | n => S n end) (anomalous_status_ p))
  | _ => None
  end.
(** ksp_plugin/flight_plan.cpp:613-619 *)
Definition first_point (l : list Q) : list Q := match rev l with [] => [] | a :: _ => [a] end.
Definition ResetLastSegment (p : plan) : plan :=
  set_anomaly (match segments p with s :: r => set_segments p (Segment (first_point (points s)) None :: r) | [] => p end)
    (if Nat.eqb (anomalous_segments_ p) 1 then 0%nat else anomalous_segments_ p) (anomalous_status_ p).
(** ksp_plugin/flight_plan.cpp:621-633 *)
Definition PopLastSegments (count : nat) (p : plan) : option plan :=
  if Nat.even count && (count <=? length (segments p))%nat
  then Some (set_anomaly (set_segments p (skipn count (segments p))) (anomalous_segments_ p - count) (anomalous_status_ p))
  else None.
(** ksp_plugin/flight_plan.cpp:635-641 *)
Definition PopSegmentsAffectedByManœuvre (index : nat) (p : plan) : option plan :=
  option_map ResetLastSegment (PopLastSegments (number_of_segments p - (2 * index + 1)) p).

(** ksp_plugin/flight_plan.cpp:649-652 *)
Fixpoint rebuild (mass : Q) (ms : list manœuvre) : list manœuvre :=
  match ms with
  | [] => []
  | m :: r => let m' := MakeManœuvre mass (construction_burn m) in m' :: rebuild (final_mass m') r
  end.
(** ksp_plugin/flight_plan.cpp:643-652 *)
Definition UpdateInitialMassOfManœuvresAfter (index : nat) (p : plan) : plan :=
  match skipn index (manœuvres_ p) with
  | [] => p
  | m :: r => set_manœuvres p (firstn index (manœuvres_ p) ++ m :: rebuild (final_mass m) r)
  end.

Notation "'do' x <- e ; f" := (match e with Some x => f | None => None end) (at level 200, x pattern, e at level 100, f at level 200).

(** One iteration of the loop at ksp_plugin/flight_plan.cpp:530-573. *)
Definition ComputeOne (o : oracle) (m : manœuvre) (p : plan) (overall : status) : option (manœuvre * plan * status) :=
  let m := clear_coasting_trajectory m in
  do (m, p, overall) <-
    match anomalous_segments_ p with
    | S _ => Some (m, p, overall)
    | O =>
        do (st, p) <- CoastSegment o (initial_time m) p;
        if ok st
        then match segments p with coast :: _ => do m <- set_coasting_trajectory coast m; Some (m, p, overall) | [] => None end
        else Some (m, set_anomaly p 1 st, Update overall st)
    end;
  do p <- AddLastSegment p;
  do (p, overall) <-
    match anomalous_segments_ p with
    | S _ => Some (p, overall)
    | O =>
        do (st, p) <- BurnSegment o m p;
        if ok st then Some (p, overall) else Some (set_anomaly p 1 st, Update overall st)
    end;
  do p <- AddLastSegment p;
  Some (m, p, overall).
Fixpoint ComputeLoop (o : oracle) (ms : list manœuvre) (p : plan) (overall : status) : option (list manœuvre * plan * status) :=
  match ms with
  | [] => Some ([], p, overall)
  | m :: r =>
      do (m', p', overall') <- ComputeOne o m p overall;
      do (r', p'', overall'') <- ComputeLoop o r p' overall';
      Some (m' :: r', p'', overall'')
  end.
(** The last coast, ksp_plugin/flight_plan.cpp:574-601. *)
Definition ComputeLastCoast (o : oracle) (p : plan) (overall : status) : option (status * plan) :=
  match anomalous_segments_ p with
  | S _ => Some (overall, p)
  | O =>
      do last <- actual_final_time p;
      let p := set_desired_final_time p (Qmax (desired_final_time_ p) last) in
      do (st, p) <- CoastSegment o (desired_final_time_ p) p;
      if ok st then Some (overall, p) else Some (Update overall st, set_anomaly p 1 st)
  end.
(** ksp_plugin/flight_plan.cpp:521-604, for the manœuvres from [begin_] on. *)
Definition ComputeSegments (o : oracle) (begin_ : nat) (p : plan) : option (status * plan) :=
  let p := match anomalous_segments_ p with O => set_anomaly p 0 Ok | S _ => p end in
  do (ms, p', overall) <- ComputeLoop o (skipn begin_ (manœuvres_ p)) p (anomalous_status_ p);
  ComputeLastCoast o (set_manœuvres p' (firstn begin_ (manœuvres_ p) ++ ms)) overall.

(** ksp_plugin/flight_plan.cpp:62-91 *)
Definition Construct (o : oracle) (mass initial_time desired_final_time : Q) : option plan :=
  if Qle_bool initial_time desired_final_time then
    option_map snd (ComputeSegments o 0
      (Plan mass initial_time desired_final_time [Segment [initial_time] None] 0 Ok [] 0))
  else None.

(** ksp_plugin/flight_plan.cpp:164-187 *)
Definition Insert (o : oracle) (b : burn) (index : nat) (p : plan) : option (status * plan) :=
  if (index <=? number_of_manœuvres p)%nat then
    let mass := match index with O => initial_mass_ p | S i => match nth_error (manœuvres_ p) i with Some m => final_mass m | None => 0 end end in
    let m := MakeManœuvre mass b in
    if IsSingular m then Some (Singular, p)
    else if negb (FitsBetween (start_of_previous_coast p index) (start_of_burn p index) m) then Some (DoesNotFit, p)
    else
      let p := set_manœuvres p (firstn index (manœuvres_ p) ++ m :: skipn index (manœuvres_ p)) in
      do p <- PopSegmentsAffectedByManœuvre index (UpdateInitialMassOfManœuvresAfter index p);
      ComputeSegments o index p
  else None.
(** ksp_plugin/flight_plan.cpp:189-199 *)
Definition Remove (o : oracle) (index : nat) (p : plan) : option (status * plan) :=
  if (index <? number_of_manœuvres p)%nat then
    let p := set_manœuvres p (firstn index (manœuvres_ p) ++ skipn (S index) (manœuvres_ p)) in
    do p <- PopSegmentsAffectedByManœuvre index (UpdateInitialMassOfManœuvresAfter index p);
    ComputeSegments o index p
  else None.
(** ksp_plugin/flight_plan.cpp:201-235 *)
Definition Replace (o : oracle) (b : burn) (index : nat) (p : plan) : option (status * plan) :=
  match nth_error (manœuvres_ p) index with
  | None => None
  | Some old =>
      let m := MakeManœuvre (initial_mass old) b in
      if IsSingular m then Some (Singular, p)
      else
        let continue p :=
          let p := set_manœuvres p (firstn index (manœuvres_ p) ++ m :: skipn (S index) (manœuvres_ p)) in
          do p <- PopSegmentsAffectedByManœuvre index (UpdateInitialMassOfManœuvresAfter index p);
          ComputeSegments o index p in
        if Nat.eqb (S index) (number_of_manœuvres p) then
          if IsAfter (start_of_previous_coast p index) m
          then continue (set_desired_final_time p (Qmax (desired_final_time_ p) (final_time m)))
          else Some (DoesNotFit, p)
        else if negb (FitsBetween (start_of_previous_coast p index) (start_of_next_burn p index) m) then Some (DoesNotFit, p)
        else continue p
  end.
(** ksp_plugin/flight_plan.cpp:237-251 *)
Definition SetDesiredFinalTime (o : oracle) (t : Q) (p : plan) : option (status * plan) :=
  if Qlt_bool t (start_of_last_coast p) then Some (BadDesiredFinalTime, p)
  else ComputeSegments o (number_of_manœuvres p) (ResetLastSegment (set_desired_final_time p t)).
(** ksp_plugin/flight_plan.cpp:443-449, called by SetAdaptiveStepParameters, lines 253-261. *)
Definition RecomputeAllSegments (o : oracle) (p : plan) : option (status * plan) :=
  do p <- PopLastSegments (number_of_segments p - 1) p; ComputeSegments o 0 (ResetLastSegment p).
(** ksp_plugin/flight_plan.cpp:451-467 *)
Definition RecomputeSegmentsAvoidingDeadlineIfNeeded (o : oracle) (p : plan) : option (status * plan) :=
  match anomalous_segments_ p, anomalous_status_ p with
  | S _, DeadlineExceeded =>
      let anomalous_manœuvres := Nat.div2 (anomalous_segments_ p) in
      do p' <- PopLastSegments (2 * anomalous_manœuvres) p;
      ComputeSegments o (number_of_manœuvres p - anomalous_manœuvres) (ResetLastSegment p')
  | _, _ => Some (Ok, p)
  end.

(** ksp_plugin/flight_plan.cpp:93-132.  The trajectory is rebuilt point by point; [anomalous_status_] is default
    constructed. *)
Definition copy_segment (s : segment) (copied : option (list segment)) : option (list segment) :=
  match copied with
  | None => None
  | Some [] => match points s with [] => None | _ => Some [Segment (points s) (outcome s)] end
  | Some ({| points := last :: _ |} as t :: r) =>
      (* NewSegment copies the last point, the first point of [s] is not appended. *)
      match rev (points s) with
      | [] => None
      | _ :: q => Some (Segment (rev q ++ [last]) (outcome s) :: t :: r)
      end
  | _ => None
  end.
Definition Copy (p : plan) : option plan :=
  do s <- fold_right copy_segment (Some []) (segments p);
  Some (Plan (initial_mass_ p) (initial_time_ p) (desired_final_time_ p) s (anomalous_segments_ p) Ok (manœuvres_ p) (integrations p)).

(** ** Histories *)
Inductive operation :=
| OpInsert (b : burn) (index : nat) | OpRemove (index : nat) | OpReplace (b : burn) (index : nat)
| OpSetDesiredFinalTime (t : Q) | OpRecomputeAll | OpAvoidDeadline.
Definition perform (o : oracle) (op : operation) (p : plan) : option (status * plan) :=
  match op with
  | OpInsert b i => Insert o b i p
  | OpRemove i => Remove o i p
  | OpReplace b i => Replace o b i p
  | OpSetDesiredFinalTime t => SetDesiredFinalTime o t p
  | OpRecomputeAll => RecomputeAllSegments o p
  | OpAvoidDeadline => RecomputeSegmentsAvoidingDeadlineIfNeeded o p
  end.
Fixpoint perform_all (o : oracle) (ops : list operation) (p : plan) : option plan :=
  match ops with [] => Some p | op :: r => do (_, p') <- perform o op p; perform_all o r p' end.
