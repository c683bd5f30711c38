(* Model of base/recurring_thread_body.hpp: a thread which transforms the last input into an output, repeatedly.

   The members are protected by mutexes; the critical sections are atomic steps, interleaved arbitrarily with the steps of the thread
   and with the passing of time.  The time is a number of milliseconds.  [I] is the type of the inputs and [O] that of the outputs. *)
From Coq Require Import List Bool Arith.
Import ListNotations.

Section Recurring.
Context {I O : Type}.
(* recurring_thread.hpp:60 and 79, the action; it may have a state, which depends on the inputs on which it was run; None is an
   error. *)
Variable action : list I -> I -> option O.
(* recurring_thread.hpp:49. *)
Variable period : nat.

(* Where the thread is: the places between which it makes a step. *)
Inductive place :=
| AtLoop                         (* recurring_thread_body.hpp:45 *)
| AtFirstCheck                   (* 46 *)
| AtTake                         (* 79-87 *)
| AtSecondCheck (i : I)          (* 88 *)
| AtAction (i : I)               (* 90 *)
| AtThirdCheck (o : option O)    (* 91 *)
| AtStore (o : option O)         (* 93-98 *)
| AtFourthCheck                  (* 50 *)
| Sleeping                       (* 44 *)
| Exited.
(* The thread, and the state of its stop token. *)
Record thread := mkThread { stop_requested : bool; at_ : place; wakeup_time : nat }.
(* MakeStoppableThread, recurring_thread_body.hpp:21-22. *)
Definition NewThread : thread := mkThread false AtLoop 0.

Inductive operation := Stopping | Restarting | Destroying.
Record state := mkState {
  input_ : option I;
  output_ : option O;
  jthread_ : option thread;              (* None if it is not joinable. *)
  holder : option operation;             (* The function that holds jthread_lock_ and is joining the thread. *)
  alive : bool;                          (* The members of the derived class have not been destroyed. *)
  now : nat;
  (* What has happened. *)
  puts : list I;                         (* The inputs given to Put. *)
  ran : list I;                          (* The inputs on which the action was run. *)
  got : list O;                          (* The outputs returned by Get. *)
  born : nat;                            (* When the last thread was created. *)
  action_times : list nat                (* When the actions of that thread were started, the last one first. *)
}.
(* recurring_thread.hpp:62-66. *)
Definition NewRecurringThread : state := mkState None None None None true 0 [] [] [] 0 [].

Inductive event :=
| Put (i : I) | Get | Start | Stop | Restart | Destroy
| Join             (* The function that holds jthread_lock_ has joined the thread. *)
| Step             (* A step of the thread. *)
| Tick.            (* Time passes. *)

(* The result of an event: it can't happen; or the behaviour is undefined. *)
Inductive outcome := Impossible | Undefined | Next (s : state).

Definition set_thread (s : state) (t : option thread) (h : option operation) : state :=
  mkState (input_ s) (output_ s) t h (alive s) (now s) (puts s) (ran s) (got s) (born s) (action_times s).
Definition start_thread (s : state) : state :=
  mkState (input_ s) (output_ s) (Some NewThread) None (alive s) (now s) (puts s) (ran s) (got s) (now s) [].
Definition go (s : state) (t : thread) (p : place) : state := set_thread s (Some (mkThread (stop_requested t) p (wakeup_time t))) (holder s).

(* base/stoppable_thread.hpp:29-36, RETURN_IF_STOPPED; [out] is where the thread goes if it is stopped. *)
Definition return_if_stopped (s : state) (t : thread) (out next : place) : outcome :=
  Next (go s t (if stop_requested t then out else next)).
(* recurring_thread_body.hpp:42-52 and 77-99, RepeatedlyRunAction and RunAction, which is given by the derived class and uses its
   members. *)
Definition thread_step (s : state) (t : thread) : outcome :=
  match at_ t with
  | AtLoop => Next (set_thread s (Some (mkThread (stop_requested t) AtFirstCheck (now s + period))) (holder s))
  | AtFirstCheck => return_if_stopped s t Exited AtTake
  | AtTake =>
    if negb (alive s) then Undefined
    else match input_ s with
    | None => Next (go s t AtFourthCheck)
    | Some i =>
      Next (mkState None (output_ s) (Some (mkThread (stop_requested t) (AtSecondCheck i) (wakeup_time t))) (holder s) (alive s) (now s)
                    (puts s) (ran s) (got s) (born s) (action_times s))
    end
  | AtSecondCheck i => return_if_stopped s t AtFourthCheck (AtAction i)
  | AtAction i =>
    if negb (alive s) then Undefined
    else Next (mkState (input_ s) (output_ s) (Some (mkThread (stop_requested t) (AtThirdCheck (action (ran s) i)) (wakeup_time t))) (holder s)
                       (alive s) (now s) (puts s) (ran s ++ [i]) (got s) (born s) (now s :: action_times s))
  | AtThirdCheck o => return_if_stopped s t AtFourthCheck (AtStore o)
  | AtStore None => Next (go s t AtFourthCheck)
  | AtStore (Some o) =>
    if negb (alive s) then Undefined
    else Next (mkState (input_ s) (Some o) (Some (mkThread (stop_requested t) AtFourthCheck (wakeup_time t))) (holder s)
                       (alive s) (now s) (puts s) (ran s) (got s) (born s) (action_times s))
  | AtFourthCheck => return_if_stopped s t Exited Sleeping
  | Sleeping => if wakeup_time t <=? now s then Next (go s t AtLoop) else Impossible
  | Exited => Impossible
  end.

(* The assignment of an std::jthread to jthread_, or its destruction: it requests the thread to stop and joins it. *)
Definition stop_and_join (s : state) (h : operation) : outcome :=
  match jthread_ s with
  | Some t => Next (set_thread s (Some (mkThread true (at_ t) (wakeup_time t))) (Some h))
  | None => match h with Restarting => Next (start_thread s) | _ => Next s end
  end.
Definition step (s : state) (e : event) : outcome :=
  match e with
  | Step => match jthread_ s with Some t => thread_step s t | None => Impossible end
  | Tick => Next (mkState (input_ s) (output_ s) (jthread_ s) (holder s) (alive s) (S (now s)) (puts s) (ran s) (got s) (born s) (action_times s))
  | Join =>
    match holder s, jthread_ s with
    | Some h, Some (mkThread _ Exited _) => match h with Restarting => Next (start_thread s) | _ => Next (set_thread s None None) end
    | _, _ => Impossible
    end
  | _ =>
    if negb (alive s) then Impossible
    else match e with
    (* recurring_thread_body.hpp:61-65. *)
    | Put i => Next (mkState (Some i) (output_ s) (jthread_ s) (holder s) (alive s) (now s) (puts s ++ [i]) (ran s) (got s) (born s) (action_times s))
    (* recurring_thread_body.hpp:67-75. *)
    | Get => Next (mkState (input_ s) None (jthread_ s) (holder s) (alive s) (now s) (puts s) (ran s)
                           (got s ++ match output_ s with Some o => [o] | None => [] end) (born s) (action_times s))
    | _ =>
      match holder s with
      | Some _ => Impossible
      | None =>
        match e with
        (* recurring_thread_body.hpp:18-24. *)
        | Start => match jthread_ s with None => Next (start_thread s) | Some _ => Next s end
        (* recurring_thread_body.hpp:26-29. *)
        | Stop => stop_and_join s Stopping
        (* recurring_thread_body.hpp:31-36. *)
        | Restart => stop_and_join s Restarting
        (* recurring_thread.hpp:26: the members of RecurringThread are destroyed, then jthread_. *)
        | Destroy => stop_and_join (mkState (input_ s) (output_ s) (jthread_ s) (holder s) false (now s) (puts s) (ran s) (got s) (born s) (action_times s)) Destroying
        | _ => Impossible
        end
      end
    end
  end.
Fixpoint exec (s : state) (l : list event) : outcome :=
  match l with
  | [] => Next s
  | e :: l' => match step s e with Next s' => exec s' l' | r => r end
  end.
End Recurring.
Arguments place : clear implicits.
Arguments thread : clear implicits.
Arguments state : clear implicits.
Arguments event : clear implicits.
Arguments outcome : clear implicits.
