(** Model of base/thread_pool.hpp and base/thread_pool_body.hpp (class ThreadPool), as a small-step interleaving
    semantics.  Each critical section of lock_ is one step.  A call is identified by its rank of acceptance.
    Not modelled: what the functions do (they return after an arbitrary time) and the values that they yield;
    exceptions. *)
From Coq Require Import List Arith Bool ZArith.
Import ListNotations.

(** Program counter of a thread in DequeueCallAndExecute, thread_pool_body.hpp:97-128.  [TWait]: line 109.
    [TRun c]: line 121, the function of call [c] is executing.  [TRan]: line 124, its promise has been set.
    [TExit]: line 112, the thread may be joined. *)
Inductive thread := TWait | TRun (c : nat) | TRan | TExit.

(** Program counter of the destructor, thread_pool_body.hpp:35-43.  [DNone]: not called.  [DJoin i]: line 41, about
    to join thread number [i].  [DGone]: it has returned. *)
Inductive destructor := DNone | DJoin (i : nat) | DGone.

(** thread_pool.hpp:56-61.  Ghosts: [accepted], the number of
    calls queued so far; [tried], those queued by TryAdd; [started] and [executed], the calls whose execution has
    started or completed, in order. *)
Record state := State {
  shutdown : bool;
  calls : list nat;
  busy : Z;
  threads : list thread;
  dtor : destructor;
  accepted : nat;
  tried : list nat;
  started : list nat;
  executed : list nat }.

(** The constructor, thread_pool_body.hpp:28-32. *)
Definition initial (pool_size : nat) : state := State false [] 0 (repeat TWait pool_size) DNone 0 [] [] [].

Fixpoint set_nth (i : nat) (w : thread) (l : list thread) : list thread :=
  match l, i with
  | [], _ => []
  | _ :: l', O => w :: l'
  | x :: l', S i' => x :: set_nth i' w l'
  end.

(** thread_pool_body.hpp:63-64, 70-71 and 89-90. *)
Definition can_schedule_immediately (s : state) : bool :=
  (Z.of_nat (length (calls s)) + 1 <=? Z.of_nat (length (threads s)) - busy s)%Z.

(** Add, thread_pool_body.hpp:46-54. *)
Definition Add (s : state) : state :=
  State (shutdown s) (calls s ++ [accepted s]) (busy s) (threads s) (dtor s) (S (accepted s)) (tried s) (started s) (executed s).

(** TryAdd, thread_pool_body.hpp:57-80: the critical section of lines 67-74.  [None]: no future is returned.  The
    check under the reader lock, lines 62-64, changes nothing and can only lead to the same refusal. *)
Definition TryAdd (s : state) : option state :=
  if can_schedule_immediately s then
    Some (State (shutdown s) (calls s ++ [accepted s]) (busy s) (threads s) (dtor s) (S (accepted s))
            (tried s ++ [accepted s]) (started s) (executed s))
  else None.

(** One step of thread number [i], thread_pool_body.hpp:97-128; [None]: it is blocked or has exited. *)
Definition thread_step (s : state) (i : nat) : option state :=
  let put w := set_nth i w (threads s) in
  match nth_error (threads s) i with
  | Some TWait =>
      if shutdown s then
        Some (State (shutdown s) (calls s) (busy s) (put TExit) (dtor s) (accepted s) (tried s) (started s) (executed s))
      else match calls s with
           | [] => None
           | c :: cs =>
               Some (State (shutdown s) cs (busy s + 1) (put (TRun c)) (dtor s) (accepted s) (tried s) (started s ++ [c]) (executed s))
           end
  | Some (TRun c) =>
      Some (State (shutdown s) (calls s) (busy s) (put TRan) (dtor s) (accepted s) (tried s) (started s) (executed s ++ [c]))
  | Some TRan =>
      Some (State (shutdown s) (calls s) (busy s - 1) (put TWait) (dtor s) (accepted s) (tried s) (started s) (executed s))
  | _ => None
  end.

(** One step of the destructor, thread_pool_body.hpp:35-43. *)
Definition dtor_step (s : state) : option state :=
  let put sh d := State sh (calls s) (busy s) (threads s) d (accepted s) (tried s) (started s) (executed s) in
  match dtor s with
  | DNone => Some (put true (DJoin 0))
  | DJoin i => match nth_error (threads s) i with
               | Some TExit => Some (put (shutdown s) (DJoin (S i)))
               | Some _ => None
               | None => Some (put (shutdown s) DGone)
               end
  | DGone => None
  end.

(** No member function may be called once the destructor has been called. *)
Inductive step (s : state) : state -> Prop :=
| step_add : dtor s = DNone -> step s (Add s)
| step_try_add s' : dtor s = DNone -> TryAdd s = Some s' -> step s s'
| step_thread i s' : thread_step s i = Some s' -> step s s'
| step_dtor s' : dtor_step s = Some s' -> step s s'.

Inductive steps : state -> state -> Prop :=
| steps_refl s : steps s s
| steps_step s1 s2 s3 : steps s1 s2 -> step s2 s3 -> steps s1 s3.
