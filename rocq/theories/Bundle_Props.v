(** C10: base/bundle.cpp. *)
From Coq Require Import List Arith Bool ZArith Permutation.
From Verif Require Import Bundle_Model Bundle_Proofs.
Import ListNotations.

(** When Join (or, with [timed], JoinWithin or JoinBefore) returns, all the worker threads that were ever started
    are finished, no call to Add is in progress, every error yielded by a task has been recorded exactly once, and
    the result is the first recorded error (OK if there is none), or the expired deadline. *)
Theorem C10_join_returns : forall timed s r, steps timed initial s -> join s = JReturned r ->
  Forall (eq WDone) (workers s) /\ length (workers s) = length (added s) /\ add s = ANone /\
  Permutation (errors (added s)) (failures s) /\
  (r = hd_error (failures s) \/ timed = true /\ r = Some DeadlineExceeded).
Proof. exact join_returns. Qed.
Print Assumptions C10_join_returns.

(** There is no deadlock: as long as Join has not returned some thread can run. *)
Theorem C10_progress : forall timed s,
  steps timed initial s -> (forall r, join s <> JReturned r) -> exists s', step timed s s'.
Proof. exact progress. Qed.
Print Assumptions C10_progress.

(** Once joining_ is set every step decreases a natural number, so that with C10_progress every execution
    leads to the return of Join after finitely many steps. *)
Theorem C10_join_terminates : forall timed s s', steps timed initial s -> joining s = true -> step timed s s' ->
  (0 <= measure s' < measure s)%Z.
Proof.
  intros timed s s' H Hj Hs. split; [|exact (measure_decreases timed s s' H Hj Hs)].
  exact (measure_nonneg timed s' (steps_step timed _ _ _ H Hs)).
Qed.
Print Assumptions C10_join_terminates.

(** If the counter of active workers does not drop to 0 before joining_ is set and no Add is concurrent with Join,
    all_done_ is notified at most once. *)
Theorem C10_notified_once_partial : forall timed s, calm_steps timed initial s -> (notifications s <= 1)%nat.
Proof. exact notified_at_most_once. Qed.
Print Assumptions C10_notified_once_partial.

(** In general it may be notified twice, which absl::Notification forbids: worker 0 is preempted between its
    decrement to 0 and its test of joining_, a second task is added, and joining_ is set.  The scenario has a single
    client thread that calls Add, Add, Join. *)
Definition twice : list action :=
  [AAdd None; AAdder; AAdder;                       (* Add: worker 0. *)
   AWorker 0; AWorker 0;                            (* Worker 0 runs and decrements to 0. *)
   AAdd (Some (TaskError 7)); AAdder; AAdder;       (* Add: worker 1. *)
   AJoin; AJoin;                                    (* Join sets joining_ and decides to wait. *)
   AWorker 0; AWorker 0;                            (* Worker 0 sees joining_ and notifies. *)
   AWorker 1; AWorker 1; AWorker 1; AWorker 1; AWorker 1].  (* Worker 1 decrements to 0 and notifies again. *)

Theorem C10_notified_twice_refuted : exists s, steps false initial s /\ notifications s = 2%nat.
Proof.
  assert (H : exists s, schedule initial twice = Some s /\ notifications s = 2%nat)
    by (eexists; split; [vm_compute; reflexivity|reflexivity]).
  destruct H as (s & E & Hn). exists s. split; [|exact Hn].
  exact (schedule_steps false twice initial initial s (steps_refl false initial) E).
Qed.
Print Assumptions C10_notified_twice_refuted.

(** In that scenario the wait of Join ends while worker 1 is still running. *)
Example C10_early_wake : match schedule initial (firstn 12 twice ++ [AJoin]) with
  | Some s => join s = JLock /\ workers s = [WDone; WRun (Some (TaskError 7))] | None => False end.
Proof. vm_compute. auto. Qed.

(** Two failing tasks, completing in the order opposite to the one in which they were added. *)
Example C10_first_error : match schedule initial
    [AAdd (Some (TaskError 1)); AAdder; AAdder; AAdd (Some (TaskError 2)); AAdder; AAdder; AJoin; AJoin;
     AWorker 1; AWorker 0; AWorker 1; AWorker 0; AWorker 0; AWorker 1; AWorker 1; AWorker 0; AWorker 1;
     AJoin; AJoin; AJoin; AJoin; AJoin; AJoin] with
  | Some s => join s = JReturned (Some (TaskError 2)) /\ notifications s = 1%nat /\ failures s = [TaskError 2; TaskError 1]
  | None => False end.
Proof. vm_compute. auto. Qed.
