(** C09: base/thread_pool_body.hpp. *)
From Coq Require Import List Arith Bool ZArith Permutation.
From Verif Require Import ThreadPool_Model ThreadPool_Proofs.
Import ListNotations.

(** Calls are numbered in their order of acceptance.  In every reachable state those started and those still queued
    make up [0; ...; accepted - 1] in this order: each call is started at most once, first in, first out, and never
    lost while queued; no call is executed twice; busy_threads_ counts the threads executing a call. *)
Theorem C09_in_order_at_most_once : forall n s, steps (initial n) s ->
  started s ++ calls s = seq 0 (accepted s) /\ NoDup (executed s) /\ (forall c, In c (executed s) -> In c (started s)) /\
  busy s = Z.of_nat (length (filter (fun t => match t with TRun _ | TRan => true | _ => false end) (threads s))) /\
  length (threads s) = n.
Proof. exact in_order_at_most_once. Qed.
Print Assumptions C09_in_order_at_most_once.

(** As long as the destructor is not called, the threads stop running only when every accepted call has been
    executed exactly once... *)
Theorem C09_all_executed_partial : forall n s, steps (initial n) s -> (0 < n)%nat -> dtor s = DNone ->
  (forall i, thread_step s i = None) -> Permutation (executed s) (seq 0 (accepted s)).
Proof. exact progress. Qed.
Print Assumptions C09_all_executed_partial.

(** ... and they stop running, unless there are new calls. *)
Theorem C09_threads_terminate : forall s i s', thread_step s i = Some s' -> (measure s' < measure s)%nat.
Proof. exact threads_terminate. Qed.
Print Assumptions C09_threads_terminate.

(** The destructor drops the calls that are still queued. *)
Theorem C09_all_executed_refuted :
  exists s, steps (initial 2) s /\ dtor s = DGone /\ accepted s = 3%nat /\ executed s = [0%nat].
Proof.
  assert (H : exists s, schedule (initial 2)
     [PAdd; PThread 1; PAdd; PAdd; PThread 1; PDtor; PThread 0; PDtor; PThread 1; PThread 1; PDtor; PDtor] = Some s /\
     dtor s = DGone /\ accepted s = 3%nat /\ executed s = [0%nat]) by (eexists; split; [vm_compute; reflexivity|auto]).
  destruct H as (s & E & H). exists s. split; [|exact H].
  exact (schedule_steps _ (initial 2) (initial 2) s (steps_refl (initial 2)) E).
Qed.
Print Assumptions C09_all_executed_refuted.

(** TryAdd accepts a call exactly if there are more waiting threads than queued calls... *)
Theorem C09_try_add_iff : forall n s, steps (initial n) s -> dtor s = DNone ->
  (TryAdd s <> None <-> (length (calls s) < waiting s)%nat).
Proof. exact try_add_iff. Qed.
Print Assumptions C09_try_add_iff.

(** ... and, as long as an accepted call is queued, whatever the other threads do there are enough waiting threads
    for it and for all the calls ahead of it. *)
Theorem C09_try_add_no_wait : forall n s c k, steps (initial n) s -> dtor s = DNone ->
  In c (tried s) -> nth_error (calls s) k = Some c ->
  (k < waiting s)%nat /\ exists i s', thread_step s i = Some s' /\ started s' = started s ++ firstn 1 (calls s).
Proof. exact try_add_no_wait. Qed.
Print Assumptions C09_try_add_no_wait.

(** The destructor returns, once the calls in progress are executed, and nothing happens afterwards. *)
Theorem C09_destroyed : forall n s, steps (initial n) s -> dtor s = DGone ->
  Permutation (started s) (executed s) /\ Forall (eq TExit) (threads s) /\ forall s', ~ step s s'.
Proof. exact destroyed. Qed.
Print Assumptions C09_destroyed.

Theorem C09_destructor_returns : forall n s, steps (initial n) s -> dtor s <> DNone ->
  (dtor s <> DGone -> exists s', step s s') /\ (forall s', dtor_step s = Some s' -> (measure s' < measure s)%nat).
Proof.
  intros n s H Hd. split; [exact (destructor_progress n s H Hd)|exact (fun s' => dtor_terminates n s s' H)].
Qed.
Print Assumptions C09_destructor_returns.

(** Two threads: TryAdd refuses a third call until one of the threads is back to waiting. *)
Example C09_example :
  schedule (initial 2) [PTryAdd; PTryAdd; PTryAdd] = None /\
  schedule (initial 2) [PTryAdd; PThread 0; PTryAdd; PThread 0; PTryAdd] = None /\
  match schedule (initial 2) [PTryAdd; PTryAdd; PThread 1; PThread 0; PThread 0; PThread 0; PTryAdd; PThread 0; PThread 1; PThread 0] with
  | Some s => started s = [0; 1; 2]%nat /\ executed s = [1; 0; 2]%nat | None => False end.
Proof. vm_compute. auto. Qed.
