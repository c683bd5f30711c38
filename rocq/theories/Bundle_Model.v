(** Model of base/bundle.hpp and base/bundle.cpp (class Bundle), as a small-step interleaving semantics.

    Every access to an atomic and every critical section is one step, so that all the sequentially consistent
    interleavings of the adding threads, the workers and the joining thread are executions of [step].
    Not modelled: what a task does (it takes an arbitrary time and yields an arbitrary status), the payload of
    statuses, the memory used by the threads. *)
From Coq Require Import List Arith Bool ZArith.
Import ListNotations.

(** An erroneous absl::Status: either one returned by a task or the one built by bundle.cpp:40 and 52. *)
Inductive error := TaskError (e : nat) | DeadlineExceeded.

(** Program counter of a worker executing Bundle::Toil, bundle.cpp:59-77.  The argument [r] is the status that
    the task yields, [None] being OK.
    [WRun]: line 60, task executing.  [WUpdate]: lines 64-65.  [WDecrement]: line 73.
    [WCheck n]: line 74, with [n] the local variable number_of_active_workers.  [WNotify]: line 75.
    [WDone]: line 77, the thread may be joined. *)
Inductive worker := WRun (r : option error) | WUpdate (e : error) | WDecrement | WCheck (n : Z) | WNotify | WDone.

(** Program counter of the joining thread, bundle.cpp:25-57.  [JIdle]: no call yet.  [JRead]: joining_ is set,
    line 27/37/49.  [JWait]: line 28/38/50.  [JTimeout]: line 39-40/51-52.  [JLock]: line 80.
    [JJoin i]: line 82, about to join worker number [i].  [JStatus]: line 31-32.  [JReturned s]. *)
Inductive joiner := JIdle | JRead | JWait | JTimeout | JLock | JJoin (i : nat) | JStatus | JReturned (s : option error).

(** Bundle::Add, bundle.cpp:18-23: the phases of the thread that holds lock_.  [AChecked]: line 20 is past.
    [ACounted]: line 21 is past. *)
Inductive adder := ANone | AChecked (r : option error) | ACounted (r : option error).

(** bundle.hpp:62-79.  [notifications] counts the calls to all_done_.Notify().
    Two ghosts: [failures], the errors given to status_.Update, in order; [added], the statuses that the tasks
    whose thread was started yield. *)
Record state := State {
  status : option error;
  joining : bool;
  notifications : nat;
  active : Z;
  workers : list worker;
  add : adder;
  join : joiner;
  failures : list error;
  added : list (option error) }.

Definition initial : state := State None false 0 0 [] ANone JIdle [] [].

(** absl::Status::Update: keeps the first error. *)
Definition update (s : option error) (e : error) : option error := match s with None => Some e | Some _ => s end.

Fixpoint set_nth (i : nat) (w : worker) (l : list worker) : list worker :=
  match l, i with
  | [], _ => []
  | _ :: l', O => w :: l'
  | x :: l', S i' => x :: set_nth i' w l'
  end.

(** One step of worker [i], bundle.cpp:59-77. *)
Definition worker_step (s : state) (i : nat) : option state :=
  let put w s := State (status s) (joining s) (notifications s) (active s) (set_nth i w (workers s)) (add s) (join s) (failures s) (added s) in
  match nth_error (workers s) i with
  | Some (WRun None) => Some (put WDecrement s)
  | Some (WRun (Some e)) => Some (put (WUpdate e) s)
  | Some (WUpdate e) =>
      Some (put WDecrement (State (update (status s) e) (joining s) (notifications s) (active s) (workers s) (add s) (join s) (failures s ++ [e]) (added s)))
  | Some WDecrement =>
      Some (put (WCheck (active s - 1)) (State (status s) (joining s) (notifications s) (active s - 1) (workers s) (add s) (join s) (failures s) (added s)))
  | Some (WCheck n) => Some (put (if joining s && (n =? 0)%Z then WNotify else WDone) s)
  | Some WNotify =>
      Some (put WDone (State (status s) (joining s) (S (notifications s)) (active s) (workers s) (add s) (join s) (failures s) (added s)))
  | _ => None
  end.

Definition set_join (j : joiner) (s : state) : state :=
  State (status s) (joining s) (notifications s) (active s) (workers s) (add s) j (failures s) (added s).

(** The deterministic steps of the joining thread; the timeout is [step_timeout] below. *)
Definition join_step (s : state) : option state :=
  match join s with
  | JIdle => Some (State (status s) true (notifications s) (active s) (workers s) (add s) JRead (failures s) (added s))
  | JRead => Some (set_join (if (0 <? active s)%Z then JWait else JLock) s)
  | JWait => if (0 <? notifications s)%nat then Some (set_join JLock s) else None
  | JTimeout => Some (State (Some DeadlineExceeded) (joining s) (notifications s) (active s) (workers s) (add s) JLock (failures s) (added s))
  | JLock => match add s with ANone => Some (set_join (JJoin 0) s) | _ => None end
  | JJoin i =>
      match nth_error (workers s) i with
      | None => Some (set_join JStatus s)
      | Some WDone => Some (set_join (JJoin (S i)) s)
      | Some _ => None
      end
  | JStatus => Some (set_join (JReturned (status s)) s)
  | JReturned _ => None
  end.

Definition set_add (a : adder) (s : state) : state :=
  State (status s) (joining s) (notifications s) (active s) (workers s) a (join s) (failures s) (added s).

(** [timed]: whether the joining thread is in JoinWithin or JoinBefore, bundle.cpp:35-57, rather than in Join,
    bundle.cpp:25-33. *)
Inductive step (timed : bool) (s : state) : state -> Prop :=
(** bundle.cpp:19-20: lock_ is free and the CHECK passes.  JoinAll does not hold lock_ since joining_ is false. *)
| step_add_check r : add s = ANone -> joining s = false -> step timed s (set_add (AChecked r) s)
(** bundle.cpp:21. *)
| step_add_count r : add s = AChecked r ->
    step timed s (State (status s) (joining s) (notifications s) (active s + 1) (workers s) (ACounted r) (join s) (failures s) (added s))
(** bundle.cpp:22-23: the thread starts and lock_ is released. *)
| step_add_start r : add s = ACounted r ->
    step timed s (State (status s) (joining s) (notifications s) (active s) (workers s ++ [WRun r]) ANone (join s) (failures s) (added s ++ [r]))
| step_worker i s' : worker_step s i = Some s' -> step timed s s'
| step_join s' : join_step s = Some s' -> step timed s s'
| step_timeout : timed = true -> join s = JWait -> step timed s (set_join JTimeout s).

Inductive steps (timed : bool) : state -> state -> Prop :=
| steps_refl s : steps timed s s
| steps_step s1 s2 s3 : steps timed s1 s2 -> step timed s2 s3 -> steps timed s1 s3.
