(* C89: the recurring thread runs its action on the inputs, in order and at most once, and is stopped and restarted properly. *)
From Coq Require Import List Bool Arith Lia.
From Verif Require Import Recurring_Model Recurring_Spec Recurring_Proofs.
Import ListNotations.

(* The inputs on which the action is run are some of those that were given to Put, each of them at most once, in order; the values
   that Get returns are some of the outputs of the action on these inputs, each of them at most once, in order. *)
Theorem C89_in_order : forall I O (action : list I -> I -> option O) period l s, exec action period NewRecurringThread l = Next s ->
  puts s = flat_map (fun e => match e with Put i => [i] | _ => [] end) l /\
  subsequence (ran s) (puts s) /\ subsequence (got s) (outputs action [] (ran s)).
Proof.
  intros I O action period l s E. split; [exact (all_puts action period l _ _ E)|]. split; [exact (inputs_in_order action period l s E)|exact (outputs_in_order action period l s E)].
Qed.

(* If the thread is running and is not stopped, and if there is an input which is not overwritten, the action is run on it
   before the thread has made 11 more steps. *)
Theorem C89_runs : forall I O (action : list I -> I -> option O) period l0 s t i l s',
  exec action period NewRecurringThread l0 = Next s -> jthread_ s = Some t -> stop_requested t = false -> input_ s = Some i ->
  forallb (fun e => negb (controls e) && negb (is_put e)) l = true -> 11 <= count is_step l -> exec action period s l = Next s' ->
  exists m, ran s' = m ++ [i].
Proof. intros I O. exact pending_run. Qed.

(* As long as it has not exited and the object is not destroyed, the thread can make a step, after some time if it is sleeping. *)
Theorem C89_no_hang : forall I O (action : list I -> I -> option O) period s t, alive s = true -> jthread_ s = Some t -> at_ t <> Exited ->
  exists n s', exec action period s (repeat Tick n ++ [Step]) = Next s'.
Proof. intros I O. exact no_hang. Qed.

(* Stop and Restart: the thread that is being stopped makes at most three more steps before it exits, and only finishes the action that it was
   about to run. *)
Theorem C89_stop : forall I O (action : list I -> I -> option O) period l0 s l s',
  exec action period NewRecurringThread l0 = Next s -> holder s <> None ->
  forallb (fun e => match e with Join => false | _ => true end) l = true -> exec action period s l = Next s' ->
  holder s' <> None /\ count is_step l <= 3 /\
  (ran s' = ran s \/ exists t i, jthread_ s = Some t /\ at_ t = AtAction i /\ ran s' = ran s ++ [i]).
Proof.
  intros I O action period l0 s l s' E H F E'. pose proof (stopped_reached action period _ _ E) as K. unfold stopped_ok in K.
  assert (P : stopping s). { split; [exact H|]. destruct (jthread_ s) as [t|]; [|contradiction]. exists t. split; [reflexivity|]. destruct K as (-> & _). now destruct (holder s). }
  assert (F' : forallb (fun e : event I => negb (is_join e)) l = true) by (rewrite <- F; clear; induction l as [|e l IH]; cbn; [reflexivity|]; rewrite IH; now destruct e).
  destruct (stopping_exec action period l s s' P F' E') as ((S & _) & R & A). split; [exact S|]. pose proof (stop_rank_bound s). split; [lia|].
  destruct A as [(A & _)|(A & _)]; [left; exact A|]. unfold last_action in A.
  destruct (jthread_ s) as [t|]; [|left; now rewrite app_nil_r in A]. destruct (at_ t) as [| | |i|i|o|o| | |] eqn:T; try (left; now rewrite app_nil_r in A).
  right. exists t, i. auto.
Qed.

(* Once it is stopped, the thread does nothing until it is started again. *)
Theorem C89_stopped : forall I O (action : list I -> I -> option O) period l s s', jthread_ s = None ->
  forallb (fun e => negb (starts e)) l = true -> exec action period s l = Next s' -> jthread_ s' = None /\ ran s' = ran s.
Proof. intros I O action period. exact (none_exec action period). Qed.

Theorem C89_idempotent : forall I O (action : list I -> I -> option O) period s, alive s = true -> holder s = None ->
  (jthread_ s <> None -> step action period s Start = Next s) /\ (jthread_ s = None -> step action period s Stop = Next s).
Proof. intros I O. exact starts_idempotent. Qed.

(* Start and Restart give a new thread if there is none, and Restart gives one when it has joined the previous one; the values are kept.  While
   a thread is being joined the other functions that use it wait. *)
Theorem C89_started : forall I O (action : list I -> I -> option O) period s e,
  (alive s = true /\ holder s = None /\ jthread_ s = None /\ (e = Start \/ e = Restart)) \/
  (holder s = Some Restarting /\ e = Join /\ exists t, jthread_ s = Some t /\ at_ t = Exited) ->
  exists s', step action period s e = Next s' /\ jthread_ s' = Some NewThread /\ holder s' = None /\ alive s' = alive s /\ input_ s' = input_ s /\ output_ s' = output_ s.
Proof.
  intros I O action period s e [(A & H & J & [-> | ->])|(H & -> & [b p w] & J & X)].
  - exists (start_thread s). split; [cbn; rewrite A, H, J; reflexivity|]. repeat split.
  - exists (start_thread s). split; [cbn; unfold stop_and_join; rewrite A, H, J; reflexivity|]. repeat split.
  - exists (start_thread s). cbn in X. subst p. split; [cbn; rewrite H, J; reflexivity|]. repeat split.
Qed.
Theorem C89_exclusion : forall I O (action : list I -> I -> option O) period s e, holder s <> None -> In e [Start; Stop; Restart; Destroy] ->
  step action period s e = Impossible.
Proof.
  intros I O action period s e H E. destruct (holder s) as [h|] eqn:G; [|congruence]. cbn in E.
  decompose [or] E; subst; try contradiction; cbn; rewrite G; destruct (negb (alive s)); reflexivity.
Qed.

(* The period: since its creation the thread has run the action no more than once for each period, and once more. *)
Theorem C89_period : forall I O (action : list I -> I -> option O) period l s, exec action period NewRecurringThread l = Next s ->
  forall k t, nth_error (rev (action_times s)) k = Some t -> born s + k * period <= t.
Proof. intros I O. exact period_kept. Qed.

(* But two consecutive actions may be separated by less than the period, contrary to the comment (recurring_thread.hpp:62-64): the time
   of the next one is determined before the first one is started. *)
Theorem C89_period_refuted : exists l s, exec (fun _ i => Some i) 10 NewRecurringThread l = Next s /\ action_times s = [10; 9] /\ ran s = [1; 2].
Proof.
  exists ([Start; Put 1; Step; Step; Step; Step] ++ repeat Tick 9 ++ [Step; Step; Step; Step; Put 2; Tick; Step; Step; Step; Step; Step; Step]).
  eexists. split; [vm_compute; reflexivity|]. split; reflexivity.
Qed.

(* The comment of Put (recurring_thread.hpp:68-70) says that the input is either picked by the next execution of the action or overwritten
   by the next call to Put.  But it is lost if the thread is stopped after having picked it. *)
Theorem C89_put_refuted : exists l s, exec (fun _ i => Some i) 10 NewRecurringThread l = Next s /\ puts s = [1] /\ jthread_ s = Some NewThread /\ alive s = true /\
  forall l' s', forallb (fun e => negb (is_put e)) l' = true -> exec (fun _ i => Some i) 10 s l' = Next s' -> ran s' = [].
Proof.
  exists [Put 1; Start; Step; Step; Step; Restart; Step; Step; Join]. eexists. split; [vm_compute; reflexivity|]. split; [reflexivity|]. split; [reflexivity|]. split; [reflexivity|].
  intros l' s' F E. apply (idle_exec (fun _ i => Some i) 10 l' _ s') in E; [apply E|split; reflexivity|exact F].
Qed.

(* The behaviour is defined as long as the object is not destroyed, or if the thread has been stopped before. *)
Theorem C89_defined : forall I O (action : list I -> I -> option O) period l,
  forallb (fun e => match e with Destroy => false | _ => true end) l = true ->
  exec action period NewRecurringThread l <> Undefined /\
  forall s l', exec action period NewRecurringThread l = Next s -> jthread_ s = None -> exec action period s (Destroy :: l') <> Undefined.
Proof.
  intros I O action period l F.
  assert (F' : forallb (fun e : event I => negb (is_destroy e)) l = true) by (rewrite <- F; clear; induction l as [|e l IH]; cbn; [reflexivity|]; rewrite IH; now destruct e).
  split; [now apply alive_exec|]. intros s l' E N. pose proof (stopped_reached action period _ _ E) as K. unfold stopped_ok in K. rewrite N in K.
  apply destroyed_stopped; [|exact K|exact N].
  apply (exec_invariant action period (fun s => alive s = true) (fun e => negb (is_destroy e))) with (l := l) (s := NewRecurringThread); auto.
  intros s1 e s2 A D S. apply (alive_step action period s1 e); auto. now apply negb_true_iff.
Qed.

(* The comment of Start and Stop (recurring_thread.hpp:28-29) says that the thread is also stopped by the destruction of the object.  But the members
   of the derived class are destroyed before the thread is stopped, and it may use them. *)
Theorem C89_destruction_refuted : exec (fun _ i => Some i) 10 NewRecurringThread [Put 1; Start; Step; Step; Destroy; Step] = Undefined.
Proof. vm_compute. reflexivity. Qed.

(* The first input is overwritten; the action fails on even numbers; the thread is stopped while the action is about to run. *)
Example C89_example : exists s,
  exec (fun before i => if Nat.even i then None else Some (i + length before)) 10 NewRecurringThread
    ([Put 3; Put 5; Start; Start; Step; Step; Step; Step; Step; Put 4; Step; Step; Get; Get; Step] ++ repeat Tick 10 ++
     [Step; Step; Step; Step; Step; Step; Step; Step; Step] ++ repeat Tick 10 ++ [Put 7; Step; Step; Step; Step; Step; Stop; Step; Step; Step; Join; Get]) = Next s /\
  puts s = [3; 5; 4; 7] /\ ran s = [5; 4; 7] /\ got s = [5] /\ jthread_ s = None /\ action_times s = [20; 10; 0].
Proof. eexists. split; [vm_compute; reflexivity|]. repeat split. Qed.

Print Assumptions C89_started.
Print Assumptions C89_exclusion.
Print Assumptions C89_in_order.
Print Assumptions C89_runs.
Print Assumptions C89_no_hang.
Print Assumptions C89_stop.
Print Assumptions C89_stopped.
Print Assumptions C89_idempotent.
Print Assumptions C89_period.
Print Assumptions C89_period_refuted.
Print Assumptions C89_put_refuted.
Print Assumptions C89_defined.
Print Assumptions C89_destruction_refuted.
