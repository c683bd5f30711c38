(** Properties of flight plans. *)
From Coq Require Import List Arith ZArith QArith Qminmax Bool Lia Lqa.
From Verif Require Import FlightPlan_Model FlightPlan_Proofs.
Import ListNotations.
Open Scope Q_scope.

(** ** C44 *)

(** For all histories and all outcomes of the integrations: the burns and coasts alternate, each starting where the one
    before ends; the integrations succeeded up to the first anomalous segment, whose status is [anomalous_status_], and
    were not attempted afterwards, where the segments have a single point. *)
Theorem C44_segments o p : honest o -> history o p ->
  number_of_segments p = (2 * number_of_manœuvres p + 1)%nat /\
  (exists last segs, segments p = last :: segs /\ alternate (rev (manœuvres_ p)) segs /\
    (integrated last -> back last (desired_final_time_ p))) /\
  chained (initial_time_ p) (segments p) /\
  anomalous (anomalous_segments_ p) (anomalous_status_ p) (segments p).
Proof.
  exact (fun H HP => let ST := history_stable o p H HP in
    conj (number_of_segments_stable p ST) (conj (st_segments p ST) (conj (st_chained p ST) (st_anomalous p ST)))).
Qed.
Print Assumptions C44_segments.

(** The anomalous manœuvres are those whose initial degrees of freedom are unknown. *)
Theorem C44_anomalous_manœuvres o p : honest o -> history o p ->
  number_of_anomalous_manœuvres p = Z.of_nat (without_initial_state (manœuvres_ p)).
Proof. exact (fun H HP => anomalous_manœuvres p (history_stable o p H HP)). Qed.
Print Assumptions C44_anomalous_manœuvres.

Theorem C44_final_time o p : honest o -> history o p -> anomalous_segments_ p = O ->
  exists t, actual_final_time p = Some t /\ t == desired_final_time_ p.
Proof. exact (fun H HP => actual_final p (history_stable o p H HP)). Qed.
Print Assumptions C44_final_time.

(** Constructing a plan never fails a check, whatever the integrator does. *)
Theorem C44_construction o m0 t0 tf : honest o -> t0 <= tf -> exists p, Construct o m0 t0 tf = Some p /\ stable p /\
  manœuvres_ p = [] /\ initial_mass_ p = m0 /\ initial_time_ p = t0 /\ tf <= desired_final_time_ p.
Proof. exact (construct_ok o m0 t0 tf). Qed.
Print Assumptions C44_construction.

(** The status that an operation returns is that of the plan, unless it left the plan unchanged. *)
Theorem C44_status o op p st p' : honest o -> history o p -> perform o op p = Some (st, p') ->
  st = anomalous_status_ p' \/ p' = p.
Proof. exact (fun H HP E => proj2 (proj2 (perform_ok o op p st p' H (history_stable o p H HP) E))). Qed.
Print Assumptions C44_status.

(** ** C45 *)

Theorem C45_rejection o op p st p' : honest o -> history o p -> perform o op p = Some (st, p') ->
  match st with Singular | DoesNotFit | BadDesiredFinalTime => p' = p | _ => True end.
Proof.
  exact (fun H HP E => match st as s return (rejected s -> p' = p) -> match s with Singular | DoesNotFit | BadDesiredFinalTime => p' = p | _ => True end with
    | Singular | DoesNotFit | BadDesiredFinalTime => fun K => K I | _ => fun _ => I end
    (proj1 (proj2 (perform_ok o op p st p' H (history_stable o p H HP) E)))).
Qed.
Print Assumptions C45_rejection.

(** From a new plan, the edits that do not make later burns longer always succeed and keep the manœuvres in order.
    Missing: [Replace] by a burn with a smaller Δv before the last, and [Remove] before the last, see below. *)
Fixpoint all_safe (o : oracle) (ops : list operation) (p : plan) : Prop :=
  match ops with [] => True | op :: r => safe op p /\ forall st p', perform o op p = Some (st, p') -> all_safe o r p' end.
Lemma all_safe_good o ops : honest o -> forall p, good p -> all_safe o ops p -> exists p', perform_all o ops p = Some p' /\ good p'.
Proof.
  intros H. induction ops as [|op r IH]; intros p G A; cbn [perform_all]; [exists p; auto|]. destruct A as [A1 A2].
  destruct (perform_safe o op p H G A1) as (st & q & E & GQ). rewrite E. exact (IH q GQ (A2 st q E)).
Qed.
Theorem C45_order_partial o m0 t0 tf ops : honest o -> 0 < m0 -> t0 <= tf -> exists p, Construct o m0 t0 tf = Some p /\
  (all_safe o ops p -> exists p', perform_all o ops p = Some p' /\ ordered (initial_time_ p') (manœuvres_ p') (desired_final_time_ p')).
Proof.
  exact (fun H P L => match construct_good o m0 t0 tf H P L with ex_intro _ p (conj E G) =>
    ex_intro _ p (conj E (fun A => match all_safe_good o ops H p G A with ex_intro _ p' (conj E' G') =>
      ex_intro _ p' (conj E' (good_ordered p' G')) end)) end).
Qed.
Print Assumptions C45_order_partial.

(** Removal, from a plan where mass is conserved. *)
Theorem C45_removal o i p : honest o -> good p -> (i < number_of_manœuvres p)%nat ->
  exists st p', Remove o i p = Some (st, p') /\ stable p' /\ ordered (initial_time_ p') (manœuvres_ p') (desired_final_time_ p').
Proof. exact (remove_ordered o i p). Qed.
Print Assumptions C45_removal.

(** The perfect integrator. *)
Definition perfect : oracle := fun _ _ target => (Ok, [target]).
Lemma perfect_honest : honest perfect.
Proof. intros n start target _. exists [], target. split; [reflexivity|lra]. Qed.

Definition burn_a := Burn true (1#2) 1 (InitialTime 1).
Definition burn_b := Burn true (1#2) (3#128) (InitialTime 10).
Definition burn_c := Burn true (1#2) 1 (TimeOfHalfΔv 19).
Definition small_burn := Burn true (3#4) 1 (InitialTime 1).
Definition plan_of (o : oracle) (ops : list operation) : option plan := do p <- Construct o 1 0 100; perform_all o ops p.
Definition three := [OpInsert burn_a 0; OpInsert burn_c 1; OpInsert burn_b 1].
Definition run (o : oracle) (ops : list operation) : plan :=
  match plan_of o ops with Some p => p | None => Plan 0 0 0 [] 0 Ok [] 0 end.

Lemma history_run o ops p0 p : history o p0 -> perform_all o ops p0 = Some p -> history o p.
Proof.
  revert p0. induction ops as [|op r IH]; intros p0 H E; cbn [perform_all] in E; [injection E as <-; exact H|].
  destruct (perform o op p0) as [[st q]|] eqn:EP; [|discriminate]. exact (IH q (history_edit o p0 op st q H EP) E).
Qed.
Lemma history_plan o ops p : plan_of o ops = Some p -> history o p.
Proof.
  unfold plan_of. intros E. destruct (Construct o 1 0 100) as [p0|] eqn:EC; [|discriminate].
  apply (history_run o ops p0 p); [|exact E]. apply (history_new o 1 0 100); [lra|exact EC].
Qed.

(** The burns at the times 1, 10 and around 19 fit.  Replacing the first one by a burn with a smaller Δv at the same
    time passes the checks of [Replace], but the ship is then heavier at the second burn, which overlaps the third: the
    integration CHECK-fails. *)
Theorem C45_order_refuted : exists p, history perfect p /\ Replace perfect small_burn 0 p = None /\
  number_of_manœuvres p = 3%nat /\ anomalous_segments_ p = O /\
  match manœuvres_ p with m :: n :: _ =>
    FitsBetween (initial_time_ p) (initial_time n) (MakeManœuvre (initial_mass m) small_burn) = true | _ => False end.
Proof.
  exists (run perfect three). split; [refine (history_plan perfect three _ _); vm_compute; reflexivity|].
  do 3 (split; [vm_compute; reflexivity|]). vm_compute. reflexivity.
Qed.
Print Assumptions C45_order_refuted.
(** The same happens when inserting after a removal. *)
Theorem C45_insertion_refuted : exists p, history perfect p /\ Insert perfect small_burn 0 p = None /\
  number_of_manœuvres p = 2%nat /\ ordered (initial_time_ p) (manœuvres_ p) (desired_final_time_ p).
Proof.
  exists (run perfect (three ++ [OpRemove 0])). split; [refine (history_plan perfect (three ++ [OpRemove 0]) _ _); vm_compute; reflexivity|].
  split; [vm_compute; reflexivity|]. split; [vm_compute; reflexivity|]. vm_compute. repeat split; discriminate.
Qed.
Print Assumptions C45_insertion_refuted.


(** ** C46 *)

(** Missing: [Remove] before the last manœuvre, see below. *)
Theorem C46_masses_partial o op p st p' : honest o -> history o p -> ~ removes_before_another op p ->
  masses (initial_mass_ p) (manœuvres_ p) -> perform o op p = Some (st, p') -> masses (initial_mass_ p') (manœuvres_ p').
Proof. exact (fun H HP => perform_masses o op p st p' H (history_stable o p H HP)). Qed.
Print Assumptions C46_masses_partial.

(** After a removal the following manœuvre keeps the mass that it had, as if the fuel had been burnt. *)
Theorem C46_masses_refuted : exists p, history perfect p /\ ~ masses (initial_mass_ p) (manœuvres_ p) /\ anomalous_segments_ p = O /\
  initial_mass_ p = 1 /\ match manœuvres_ p with m :: _ => initial_mass m == 1#4 | [] => False end.
Proof.
  exists (run perfect (three ++ [OpRemove 0])). split; [refine (history_plan perfect (three ++ [OpRemove 0]) _ _); vm_compute; reflexivity|].
  split; [vm_compute; intros [H _]; discriminate|]. do 2 (split; [vm_compute; reflexivity|]). vm_compute. reflexivity.
Qed.
Print Assumptions C46_masses_refuted.

Example C46_three : masses 1 (manœuvres_ (run perfect three)).
Proof. vm_compute. repeat split. Qed.

(** ** C47 *)

(** Missing: the status of an anomalous plan. *)
Theorem C47_copy_partial o p : honest o -> history o p ->
  exists p', Copy p = Some p' /\ segments p' = segments p /\ manœuvres_ p' = manœuvres_ p /\
    anomalous_segments_ p' = anomalous_segments_ p /\ number_of_anomalous_manœuvres p' = number_of_anomalous_manœuvres p /\
    initial_mass_ p' = initial_mass_ p /\ initial_time_ p' = initial_time_ p /\ desired_final_time_ p' = desired_final_time_ p /\
    actual_final_time p' = actual_final_time p /\ (anomalous_segments_ p = O -> p' = p).
Proof.
  intros H HP. assert (ST := history_stable o p H HP). exists (set_anomaly p (anomalous_segments_ p) Ok).
  split; [exact (copy_ok p ST)|]. do 8 (split; [reflexivity|]). intros Z. pose proof (copy_same p ST Z) as E. rewrite (copy_ok p ST) in E. congruence.
Qed.
Print Assumptions C47_copy_partial.

(** An integrator that always misses its deadline. *)
Definition slow : oracle := fun _ _ _ => (DeadlineExceeded, []).
Lemma slow_honest : honest slow.
Proof. intros n start target _. exact I. Qed.

(** The copy of a plan that missed a deadline reports no error, and is not recomputed when avoiding deadlines. *)
Theorem C47_copy_refuted : exists p p' q, history slow p /\ Copy p = Some p' /\
  anomalous_status_ p = DeadlineExceeded /\ anomalous_status_ p' = Ok /\ anomalous_segments_ p' = 1%nat /\
  RecomputeSegmentsAvoidingDeadlineIfNeeded perfect p = Some (Ok, q) /\ anomalous_segments_ q = O /\
  RecomputeSegmentsAvoidingDeadlineIfNeeded perfect p' = Some (Ok, p').
Proof.
  set (p := run slow []). exists p, (set_anomaly p 1 Ok), (match RecomputeSegmentsAvoidingDeadlineIfNeeded perfect p with Some (_, q) => q | None => p end).
  split; [refine (history_plan slow [] _ _); vm_compute; reflexivity|].
  do 6 (split; [vm_compute; reflexivity|]). vm_compute. reflexivity.
Qed.
Print Assumptions C47_copy_refuted.

(** An integration that fails in the burn of the second of three manœuvres: four segments are anomalous, and the initial
    degrees of freedom of the third manœuvre are unknown. *)
Definition failing : oracle := fun n _ target => if Nat.eqb n 8 then (Failure 3, [11]) else (Ok, [target]).
Lemma failing_honest : honest failing.
Proof. intros n start target _. unfold failing. destruct (Nat.eqb n 8); [exact I|]. exists [], target. split; [reflexivity|lra]. Qed.
Example C44_failing : option_map (fun p => (anomalous_segments_ p, anomalous_status_ p, number_of_anomalous_manœuvres p,
    map (fun s => (map Qred (points s), outcome s)) (segments p))) (plan_of failing three)
  = Some (4%nat, Failure 3, 1%Z,
      [([11], None); ([11], None); ([11], None); ([11; 10], Some (Failure 3)); ([10; 7#4], Some Ok); ([7#4; 1], Some Ok); ([1; 0], Some Ok)]).
Proof. vm_compute. reflexivity. Qed.
Example C45_three : option_map (fun p => map (fun m => (Qred (initial_time m), Qred (final_time m), Qred (initial_mass m))) (manœuvres_ p))
    (plan_of perfect three) = Some [(1, 7#4, 1); (10, 18, 1#4); (607#32, 1217#64, 1#16)].
Proof. vm_compute. reflexivity. Qed.
(** The first of the three insertions is safe in the sense of C45. *)
Example C45_safe : forall p, Construct perfect 1 0 100 = Some p -> safe (OpInsert burn_a 0) p.
Proof. intros p _. cbn. split; [|lia]. repeat split; cbn; lra. Qed.
