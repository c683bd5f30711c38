(** Model of physics/checkpointer_body.hpp.  Times are integers, the messages held by checkpoints are identified by an
    integer (their time field is not modelled, the map key being the source of truth, physics/checkpointer.hpp:157-158).
    A failing CHECK is [None]. *)
From Coq Require Import List Arith ZArith Bool.
Import ListNotations.
Open Scope Z_scope.

Inductive instant := InfinitePast | At (t : Z) | InfiniteFuture.

(** checkpoints_, in the order of the keys. *)
Notation checkpoints A := (list (Z * A)).

(** absl::btree_map::lower_bound and upper_bound: the elements before and after the iterator. *)
Fixpoint split_at {A} (before : Z -> bool) (m : checkpoints A) : checkpoints A * checkpoints A :=
  match m with
  | [] => ([], [])
  | e :: r => if before (fst e) then let '(a, b) := split_at before r in (e :: a, b) else ([], m)
  end.
Definition lower_bound {A} (t : Z) (m : checkpoints A) := split_at (fun k => k <? t) m.
Definition upper_bound {A} (t : Z) (m : checkpoints A) := split_at (fun k => k <=? t) m.
Definition find {A} (t : Z) (m : checkpoints A) : option A :=
  match snd (lower_bound t m) with (k, a) :: _ => if k =? t then Some a else None | [] => None end.
(** emplace and emplace_hint: no effect if the key is present; the hint is not semantically significant. *)
Definition emplace {A} (t : Z) (a : A) (m : checkpoints A) : checkpoints A :=
  match find t m with
  | Some _ => m
  | None => let '(x, y) := lower_bound t m in x ++ (t, a) :: y
  end.
Fixpoint last_entry {A} (m : checkpoints A) : option (Z * A) :=
  match m with [] => None | [e] => Some e | _ :: r => last_entry r end.

(** physics/checkpointer_body.hpp:52-56 *)
Definition size {A} (m : checkpoints A) : nat := length m.
(** physics/checkpointer_body.hpp:58-65 *)
Definition oldest_checkpoint {A} (m : checkpoints A) : instant := match m with [] => InfiniteFuture | e :: _ => At (fst e) end.
(** physics/checkpointer_body.hpp:67-74 *)
Definition newest_checkpoint {A} (m : checkpoints A) : instant :=
  match last_entry m with None => InfinitePast | Some e => At (fst e) end.
(** physics/checkpointer_body.hpp:76-85 *)
Definition checkpoint_at_or_after {A} (t : Z) (m : checkpoints A) : instant :=
  match snd (lower_bound t m) with [] => InfiniteFuture | e :: _ => At (fst e) end.
(** physics/checkpointer_body.hpp:87-96 *)
Definition checkpoint_at_or_before {A} (t : Z) (m : checkpoints A) : instant :=
  match last_entry (fst (upper_bound t m)) with None => InfinitePast | Some e => At (fst e) end.
(** physics/checkpointer_body.hpp:98-110 *)
Definition all_checkpoints {A} (m : checkpoints A) : list Z := map fst m.
(** physics/checkpointer_body.hpp:112-127 *)
Definition all_checkpoints_at_or_before {A} (t : Z) (m : checkpoints A) : list Z := map fst (fst (upper_bound t m)).
(** physics/checkpointer_body.hpp:129-151: the elements from lower_bound(t1) to upper_bound(t2).  The latter is not before
    the former as t1 <= t2. *)
Definition all_checkpoints_between {A} (t1 t2 : Z) (m : checkpoints A) : list Z :=
  if t2 <? t1 then []
  else map fst (firstn (length (fst (upper_bound t2 m)) - length (fst (lower_bound t1 m))) (snd (lower_bound t1 m))).

(** physics/checkpointer_body.hpp:153-157 and 288-300, when no other thread intervenes: the writer fills the checkpoint
    with [a]. *)
Definition WriteToCheckpoint {A} (t : Z) (a : A) (m : checkpoints A) : option (checkpoints A) :=
  match find t m with Some _ => None | None => Some (emplace t a m) end.
(** physics/checkpointer_body.hpp:159-170 *)
Definition needed {A} (t max_time_between_checkpoints : Z) (m : checkpoints A) : bool :=
  match last_entry m with None => true | Some e => max_time_between_checkpoints <? t - fst e end.
Definition WriteToCheckpointIfNeeded {A} (t max_time_between_checkpoints : Z) (a : A) (m : checkpoints A) : option (bool * checkpoints A) :=
  if needed t max_time_between_checkpoints m
  then match WriteToCheckpoint t a m with Some m' => Some (true, m') | None => None end
  else Some (false, m).

(** The checkpoint passed to the reader, [None] for the NotFound status. *)
(** physics/checkpointer_body.hpp:172-183 *)
Definition ReadFromOldestCheckpoint {A} (m : checkpoints A) : option A := match m with [] => None | e :: _ => Some (snd e) end.
(** physics/checkpointer_body.hpp:185-196 *)
Definition ReadFromNewestCheckpoint {A} (m : checkpoints A) : option A := option_map snd (last_entry m).
(** physics/checkpointer_body.hpp:198-212 *)
Definition ReadFromCheckpointAtOrBefore {A} (t : Z) (m : checkpoints A) : option A := option_map snd (last_entry (fst (upper_bound t m))).
(** physics/checkpointer_body.hpp:214-233 *)
Definition ReadFromCheckpointAt {A} (t : Z) (m : checkpoints A) : option A := find t m.

(** physics/checkpointer_body.hpp:235-245 *)
Definition WriteToMessage {A} (m : checkpoints A) : list (Z * A) := m.
(** physics/checkpointer_body.hpp:247-286.  The thread pool returns the result of the rewriting of each checkpoint in its
    future (property C09). *)
Definition ReadFromMessage {A} (rewriter : option (A -> A)) (message : list (Z * A)) : checkpoints A :=
  fold_left (fun m e => emplace (fst e) (match rewriter with None => snd e | Some f => f (snd e) end) m) message [].

(** ** Threads *)

(** The map holds pointers to messages in an arena; [messages] says for each message whether the writer has filled it.
    The iterators of an absl::btree_map are invalidated by insertions, the pointers to the messages are not; [version]
    counts the insertions. *)
Record memory := Memory { entries : checkpoints nat; messages : list bool; version : nat }.

Inductive call :=
| Write (t : Z) | WriteIfNeeded (t max_time_between_checkpoints : Z)
| ReadOldest | ReadNewest | ReadAtOrBefore (t : Z) | ReadAt (t : Z).
(** What a thread is doing outside the lock. *)
Inductive activity :=
| Idle
| Inserted (iterator : nat) (message : nat)    (* physics/checkpointer_body.hpp:297-298, before the iterator is read. *)
| Filling (message : nat)                      (* physics/checkpointer_body.hpp:298, in the writer. *)
| Found (iterator : nat) (message : nat)       (* physics/checkpointer_body.hpp:226, before the iterator is read. *)
| Reading (message : nat).                     (* In the reader. *)
Record thread := Thread { doing : activity; calls : list call }.
(** [seen] records for each reader call whether the message was filled. *)
Inductive outcome := Running | CheckFailure | UndefinedBehaviour.
Record state := State { shared : memory; threads : list thread; seen : list bool; result : outcome }.

Definition set_nth {A} (n : nat) (a : A) (l : list A) : list A := firstn n l ++ a :: skipn (S n) l.

Definition insert_message (t : Z) (m : memory) : memory :=
  Memory (emplace t (length (messages m)) (entries m)) (messages m ++ [false]) (S (version m)).
Definition read_activity (o : option nat) : activity := match o with Some c => Reading c | None => Idle end.

(** One step of thread [n]. *)
Definition step (n : nat) (s : state) : option state :=
  match result s, nth_error (threads s) n with
  | Running, Some th =>
      let m := shared s in
      let continue m' a cs b := Some (State m' (set_nth n (Thread a cs) (threads s)) b Running) in
      let stop r := Some (State m (threads s) (seen s) r) in
      let insertion t cs :=
        match find t (entries m) with
        | Some _ => stop CheckFailure
        | None => continue (insert_message t m) (Inserted (S (version m)) (length (messages m))) cs (seen s)
        end in
      match doing th, calls th with
      | Inserted i c, cs => if Nat.eqb i (version m) then continue m (Filling c) cs (seen s) else stop UndefinedBehaviour
      | Filling c, cs => continue (Memory (entries m) (set_nth c true (messages m)) (version m)) Idle cs (seen s)
      | Found i c, cs => if Nat.eqb i (version m) then continue m (Reading c) cs (seen s) else stop UndefinedBehaviour
      | Reading c, cs => continue m Idle cs (nth c (messages m) false :: seen s)
      | Idle, [] => None
      | Idle, Write t :: cs => insertion t cs
      | Idle, WriteIfNeeded t d :: cs => if needed t d (entries m) then insertion t cs else continue m Idle cs (seen s)
      | Idle, ReadOldest :: cs => continue m (read_activity (ReadFromOldestCheckpoint (entries m))) cs (seen s)
      | Idle, ReadNewest :: cs => continue m (read_activity (ReadFromNewestCheckpoint (entries m))) cs (seen s)
      | Idle, ReadAtOrBefore t :: cs => continue m (read_activity (ReadFromCheckpointAtOrBefore t (entries m))) cs (seen s)
      | Idle, ReadAt t :: cs =>
          continue m (match find t (entries m) with Some c => Found (version m) c | None => Idle end) cs (seen s)
      end
  | _, _ => None
  end.

Definition initial (programs : list (list call)) : state :=
  State (Memory [] [] 0) (map (Thread Idle) programs) [] Running.
Inductive reachable (programs : list (list call)) : state -> Prop :=
| reachable_initial : reachable programs (initial programs)
| reachable_step s n s' : reachable programs s -> step n s = Some s' -> reachable programs s'.
