(* Model of base/push_pull_callback_body.hpp: a task that runs on its own thread calls a function which is computed by the
   managed code, on another thread, by pulling the arguments and pushing the results.

   The members of PushPullCallback are protected by a mutex, and so is the result of PushPullExecutor.  Each function is
   therefore atomic, or waits until its condition is true and is then atomic (absl::Mutex::Await).  A step of an execution is a
   critical section, or what happens between two of them on a thread; the steps of the two threads are interleaved arbitrarily.
   [A] is the type of the arguments, [R] that of the results of the callback, [T] that of the result of the task. *)
From Coq Require Import List Bool.
Import ListNotations.

Section PushPull.
Context {A R T : Type}.

(* base/push_pull_callback.hpp:78, the task: a program which is given a function; all that can be observed is the calls that it
   makes to that function, which depend on the results of the preceding ones, and its result, if it terminates. *)
Inductive task := Return (t : T) | Call (a : A) (k : R -> task).

(* base/push_pull_callback.hpp:59-62, the members of the callback. *)
Record callback := mkCallback { arguments_ : option A; result_ : option R; shutdown_ : bool }.
Definition NewCallback : callback := mkCallback None None false.

(* What the functions that wait do: they are blocked, or they return. *)
Inductive outcome (X : Type) := Blocked | Returns (x : X) (c : callback).
Arguments Blocked {X}.
Arguments Returns {X} x c.

(* push_pull_callback_body.hpp:63-75. *)
Definition has_arguments_or_shutting_down (c : callback) : bool :=
  shutdown_ c || match arguments_ c with Some _ => true | None => false end.
(* push_pull_callback_body.hpp:16-25, the managed Pull; the result is None if it returns false.  The value of the arguments exists
   if it is used, because of the condition. *)
Definition PullArguments (c : callback) : outcome (option A) :=
  if has_arguments_or_shutting_down c then
    if shutdown_ c then Returns None c
    else Returns (arguments_ c) (mkCallback None (result_ c) (shutdown_ c))
  else Blocked.
(* push_pull_callback_body.hpp:27-31, the managed Push. *)
Definition PushResult (r : R) (c : callback) : callback := mkCallback (arguments_ c) (Some r) (shutdown_ c).
(* push_pull_callback_body.hpp:42-46. *)
Definition Shutdown (c : callback) : callback := mkCallback (arguments_ c) (result_ c) true.
(* push_pull_callback_body.hpp:48-53, the unmanaged Push. *)
Definition PushArguments (a : A) (c : callback) : callback := mkCallback (Some a) (result_ c) (shutdown_ c).
(* push_pull_callback_body.hpp:55-61 and 77-88, the unmanaged Pull. *)
Definition PullResult (c : callback) : outcome R :=
  match result_ c with
  | Some r => Returns r (mkCallback (arguments_ c) None (shutdown_ c))
  | None => Blocked
  end.

(* push_pull_callback_body.hpp:33-40 and 90-99: where the thread of the task is. *)
Inductive thread_state :=
| Running (m : task)          (* The task is running and does [m]. *)
| Pulling (k : R -> task)     (* In a call to the function, between Push and Pull. *)
| ShuttingDown                (* The task has returned and its result has been stored. *)
| Exited.
(* push_pull_callback.hpp:93-97, the members of the executor. *)
Record executor := mkExecutor { callback_ : callback; task_result : option T; thread_ : thread_state }.
Definition NewExecutor (m : task) : executor := mkExecutor NewCallback None (Running m).

(* A step of the thread of the task; None if it is blocked or has exited. *)
Definition thread_step (e : executor) : option executor :=
  match thread_ e with
  | Running (Call a k) => Some (mkExecutor (PushArguments a (callback_ e)) (task_result e) (Pulling k))
  | Pulling k =>
    match PullResult (callback_ e) with
    | Returns r c => Some (mkExecutor c (task_result e) (Running (k r)))
    | Blocked => None
    end
  | Running (Return t) => Some (mkExecutor (callback_ e) (Some t) ShuttingDown)
  | ShuttingDown => Some (mkExecutor (Shutdown (callback_ e)) (task_result e) Exited)
  | Exited => None
  end.
(* push_pull_callback_body.hpp:118-123; None if the check fails. *)
Definition get (e : executor) : option T := task_result e.
(* push_pull_callback_body.hpp:101-104: whether the destructor is not blocked. *)
Definition joinable (e : executor) : bool := match thread_ e with Exited => true | _ => false end.

(* ksp_plugin_adapter/ksp_plugin_adapter.cs:2518-2535 and ksp_plugin/interface_collision.cpp:65-105: the managed code.  It pulls
   arguments and pushes the results computed by [answer], which may depend on everything that was computed before, until there are
   no more arguments; then it gets the result of the task and destroys the executor. *)
Inductive managed_state :=
| AtPull
| AtPush (a : A)
| AtGet
| AtJoin (t : T)
| Finished (t : T)
| CheckFailed.
Record state := mkState { executor_ : executor; managed : managed_state; history : list (A * R) }.
Definition initial (m : task) : state := mkState (NewExecutor m) AtPull [].

Definition with_callback (e : executor) (c : callback) : executor := mkExecutor c (task_result e) (thread_ e).
Definition managed_step (answer : list (A * R) -> A -> R) (s : state) : option state :=
  let e := executor_ s in
  match managed s with
  | AtPull =>
    match PullArguments (callback_ e) with
    | Blocked => None
    | Returns (Some a) c => Some (mkState (with_callback e c) (AtPush a) (history s))
    | Returns None c => Some (mkState (with_callback e c) AtGet (history s))
    end
  | AtPush a =>
    let r := answer (history s) a in
    Some (mkState (with_callback e (PushResult r (callback_ e))) AtPull (history s ++ [(a, r)]))
  | AtGet =>
    match get e with
    | Some t => Some (mkState e (AtJoin t) (history s))
    | None => Some (mkState e CheckFailed (history s))
    end
  | AtJoin t => if joinable e then Some (mkState e (Finished t) (history s)) else None
  | Finished _ | CheckFailed => None
  end.

(* The executions: either of the threads makes a step. *)
Inductive step (answer : list (A * R) -> A -> R) : state -> state -> Prop :=
| thread_steps s e : thread_step (executor_ s) = Some e -> step answer s (mkState e (managed s) (history s))
| managed_steps s s' : managed_step answer s = Some s' -> step answer s s'.
Inductive steps (answer : list (A * R) -> A -> R) : nat -> state -> state -> Prop :=
| no_step s : steps answer 0 s s
| more_steps n s s' s'' : steps answer n s s' -> step answer s' s'' -> steps answer (S n) s s''.

End PushPull.
Arguments task : clear implicits.
Arguments callback : clear implicits.
Arguments executor : clear implicits.
Arguments state : clear implicits.
Arguments thread_state : clear implicits.
Arguments managed_state : clear implicits.
