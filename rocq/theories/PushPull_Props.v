(* C88: a task that calls back the managed code computes the same thing as if it called an ordinary function. *)
From Coq Require Import List Bool Arith Lia.
From Verif Require Import PushPull_Model PushPull_Spec PushPull_Proofs.
Import ListNotations.

(* Whatever the interleaving, the result that the managed code gets is that of the task called with an ordinary function, and the
   calls that it has executed are the same, in the same order; the check of [get] does not fail. *)
Theorem C88_result : forall A R T (answer : list (A * R) -> A -> R) (m : task A R T) n s,
  steps answer n (initial m) s ->
  managed s <> CheckFailed /\ (exists l, snd (direct answer m []) = history s ++ l) /\
  (forall t, managed s = Finished t -> (t, history s) = direct answer m []).
Proof. intros A R T answer m n s H. split; [now apply (no_failure answer m n)|]. split; [now apply (prefix answer m n)|]. intros t. now apply (finished answer m n). Qed.

(* There is no deadlock and no infinite execution: an execution goes on until the managed code has got the result and the
   thread of the task has exited, after four steps for each call and five at the end. *)
Theorem C88_terminates : forall A R T (answer : list (A * R) -> A -> R) (m : task A R T) n s,
  steps answer n (initial m) s ->
  let total := 4 * length (snd (direct answer m [])) + 5 in
  n <= total /\ (n < total -> exists s', step answer s s') /\
  (n = total -> managed s = Finished (fst (direct answer m [])) /\ history s = snd (direct answer m []) /\ thread_ (executor_ s) = Exited).
Proof. intros A R T. exact terminates. Qed.

(* After Shutdown, Pull always returns false. *)
Theorem C88_shutdown : forall A R (c : callback A R), shutdown_ c = true ->
  PullArguments c = Returns _ None c /\ (forall a, shutdown_ (PushArguments a c) = true) /\ (forall r, shutdown_ (PushResult r c) = true) /\
  (forall r c', PullResult c = Returns _ r c' -> shutdown_ c' = true) /\ shutdown_ (Shutdown c) = true.
Proof. intros A R. exact shutdown_final. Qed.

(* Pulling the result on the thread that should push it, or destroying the executor before Pull has returned false, is a deadlock:
   once the arguments of a call have been pushed the thread of the task is blocked for ever if the managed code does not push. *)
Theorem C88_deadlock : forall A R T (a : A) (k : R -> task A R T), exists e,
  thread_step (NewExecutor (Call a k)) = Some e /\ thread_step e = None /\ PullResult (callback_ e) = Blocked _ /\ joinable e = false.
Proof. intros A R T a k. eexists. repeat split. Qed.

(* Calling [get] too early fails its check. *)
Theorem C88_get_early : forall A R T (m : task A R T), get (NewExecutor m) = None.
Proof. reflexivity. Qed.

(* A task that looks for a zero of the callback by bisection, and a callback that has a state. *)
Fixpoint bisection (fuel lower upper : nat) : task nat bool nat :=
  match fuel with
  | O => Return lower
  | S fuel => let middle := (lower + upper) / 2 in Call middle (fun below => if below : bool then bisection fuel middle upper else bisection fuel lower middle)
  end.
Definition below_11 (calls : list (nat * bool)) (n : nat) : bool := n <=? 11.
Example C88_example :
  direct below_11 (bisection 4 0 16) [] = (11, [(8, true); (12, false); (10, true); (11, true)]) /\
  exists s, steps below_11 21 (initial (bisection 4 0 16)) s /\ managed s = Finished 11 /\ history s = [(8, true); (12, false); (10, true); (11, true)].
Proof.
  split; [reflexivity|]. eexists. split; [|split].
  - repeat (eapply front_step; [first [apply thread_steps; vm_compute; reflexivity|apply managed_steps; vm_compute; reflexivity]|]; cbn [managed history]). apply no_step.
  - reflexivity.
  - reflexivity.
Qed.

(* The callback must not be called by several threads at a time: the arguments of a call may be overwritten, its caller then
   gets the result of the other call, and the other caller is blocked. *)
Example C88_concurrent_calls_example :
  exists (c : callback nat nat) (c' : callback nat nat),
  PullArguments (PushArguments 2 (PushArguments 1 NewCallback)) = Returns _ (Some 2) c /\
  PullResult (PushResult 20 c) = Returns _ 20 c' /\ PullResult c' = Blocked _ /\ PullArguments c' = Blocked _.
Proof. eexists. eexists. repeat split. Qed.

Print Assumptions C88_result.
Print Assumptions C88_terminates.
Print Assumptions C88_shutdown.
Print Assumptions C88_deadlock.
Print Assumptions C88_get_early.
