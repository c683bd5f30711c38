(** Model of physics/protector.cpp and physics/clientele_body.hpp.  Times are integers, callbacks are identified by an
    integer.  A failing CHECK is [None]. *)
From Coq Require Import List Arith ZArith Bool.
Import ListNotations.
Open Scope Z_scope.

(** ** Sorted containers *)

(** std::multiset::insert and std::multimap::emplace: after the equivalent elements. *)
Fixpoint insert {A} (key : A -> Z) (a : A) (l : list A) : list A :=
  match l with [] => [a] | b :: r => if key a <? key b then a :: l else b :: insert key a r end.
(** find followed by erase: the first element with that key. *)
Fixpoint erase (k : Z) (l : list Z) : option (list Z) :=
  match l with
  | [] => None
  | a :: r => if a =? k then Some r else match erase k r with Some r' => Some (a :: r') | None => None end
  end.

(** ** Clientele *)
Record clientele := Clientele { default_key : Z; clients : list Z }.
(** physics/clientele_body.hpp:14-18 *)
Definition Join (key : Z) (c : clientele) : clientele := Clientele (default_key c) (insert (fun k => k) key (clients c)).
(** physics/clientele_body.hpp:20-26 *)
Definition Leave (key : Z) (c : clientele) : option clientele :=
  match erase key (clients c) with Some l => Some (Clientele (default_key c) l) | None => None end.
(** physics/clientele_body.hpp:28-36 *)
Definition first (c : clientele) : Z := match clients c with [] => default_key c | k :: _ => k end.

(** ** Protector *)
Notation callback := (Z * nat)%type.   (* The time and the identity of the callback. *)
Record protector := Protector { callbacks : list callback; protection_start_times : list Z }.

(** The locked part of physics/protector.cpp:15-26: true if the callback is to be run. *)
Definition RunWhenUnprotected_locked (cb : callback) (p : protector) : bool * protector :=
  match protection_start_times p with
  | s :: _ => if s <? fst cb then (false, Protector (insert fst cb (callbacks p)) (protection_start_times p)) else (true, p)
  | [] => (true, p)
  end.
(** physics/protector.cpp:28-31 *)
Definition Protect (t_min : Z) (p : protector) : protector :=
  Protector (callbacks p) (insert (fun k => k) t_min (protection_start_times p)).
(** The locked part of physics/protector.cpp:33-57, with the callbacks to run. *)
Definition Unprotect_locked (t_min : Z) (p : protector) : option (list callback * protector) :=
  match erase t_min (protection_start_times p) with
  | None => None
  | Some times =>
      let free (cb : callback) := match times with [] => true | s :: _ => fst cb <=? s end in
      Some (filter free (callbacks p), Protector (filter (fun cb => negb (free cb)) (callbacks p)) times)
  end.

(** *** Threads *)

(** A thread executes calls in order; between its critical section and its end a call has callbacks to run
    (physics/protector.cpp:24 and 60-62). *)
Inductive call := CallRun (cb : callback) | CallProtect (t_min : Z) | CallUnprotect (t_min : Z).
Record thread := Thread { running : list callback; calls : list call }.
(** [trace] is the list of the callbacks that were run, the latest first, with the protections at that time;
    [submitted] is the list of the callbacks given to RunWhenUnprotected. *)
Record state := State { shared : protector; threads : list thread; trace : list (callback * list Z); submitted : list callback; failed : bool }.

Definition set_nth {A} (n : nat) (a : A) (l : list A) : list A := firstn n l ++ a :: skipn (S n) l.

(** One step of thread [n]. *)
Definition step (n : nat) (s : state) : option state :=
  match nth_error (threads s) n with
  | None => None
  | Some (Thread (cb :: r) cs) =>
      Some (State (shared s) (set_nth n (Thread r cs) (threads s)) ((cb, protection_start_times (shared s)) :: trace s) (submitted s) (failed s))
  | Some (Thread [] []) => None
  | Some (Thread [] (CallRun cb :: cs)) =>
      let '(now, p) := RunWhenUnprotected_locked cb (shared s) in
      Some (State p (set_nth n (Thread (if now then [cb] else []) cs) (threads s)) (trace s) (cb :: submitted s) (failed s))
  | Some (Thread [] (CallProtect t :: cs)) =>
      Some (State (Protect t (shared s)) (set_nth n (Thread [] cs) (threads s)) (trace s) (submitted s) (failed s))
  | Some (Thread [] (CallUnprotect t :: cs)) =>
      match Unprotect_locked t (shared s) with
      | None => Some (State (shared s) (set_nth n (Thread [] []) (threads s)) (trace s) (submitted s) true)
      | Some (run, p) => Some (State p (set_nth n (Thread run cs) (threads s)) (trace s) (submitted s) (failed s))
      end
  end.

Definition initial (programs : list (list call)) : state := State (Protector [] []) (map (Thread []) programs) [] [] false.
Inductive reachable (programs : list (list call)) : state -> Prop :=
| reachable_initial : reachable programs (initial programs)
| reachable_step s n s' : reachable programs s -> step n s = Some s' -> reachable programs s'.

(** *** RAII clients *)

(** physics/clientele_body.hpp:38-47: a client joins when constructed and leaves, with the same key, when destroyed.
    The objects alive are kept as a list of (identity, key). *)
Inductive client_event := Construct (id : nat) (key : Z) | Destroy (id : nat).
Definition client_step (e : client_event) (s : list (nat * Z) * clientele) : option (list (nat * Z) * clientele) :=
  let '(objects, c) := s in
  match e with
  | Construct id key => Some ((id, key) :: objects, Join key c)
  | Destroy id =>
      match find (fun o => Nat.eqb (fst o) id) objects with
      | None => Some s                                    (* No such object: nothing to destroy. *)
      | Some o =>
          match Leave (snd o) c with
          | None => None
          | Some c' => Some (filter (fun o => negb (Nat.eqb (fst o) id)) objects, c')
          end
      end
  end.
Fixpoint client_run (es : list client_event) (s : list (nat * Z) * clientele) : option (list (nat * Z) * clientele) :=
  match es with [] => Some s | e :: r => match client_step e s with Some s' => client_run r s' | None => None end end.

(** *** References into the clientele *)

(** [first] returns a reference (physics/clientele_body.hpp:28-36), which the caller reads after the lock was released.
    The elements of an absl::btree_multiset are moved by insertions and erasures, so a reference to one of them is valid
    only as long as the container is not modified.  [version] counts the modifications. *)
Record counted := Counted { version : nat; contents : clientele }.
Inductive reference := ToDefault | ToElement (at_version : nat).
Definition first_reference (c : counted) : reference :=
  match clients (contents c) with [] => ToDefault | _ => ToElement (version c) end.
(** Reading through a reference; [None] is undefined behaviour. *)
Definition dereference (r : reference) (c : counted) : option Z :=
  match r with
  | ToDefault => Some (default_key (contents c))
  | ToElement v => if Nat.eqb v (version c) then Some (first (contents c)) else None
  end.
Definition counted_Join (key : Z) (c : counted) : counted := Counted (S (version c)) (Join key (contents c)).
Definition counted_Leave (key : Z) (c : counted) : option counted :=
  match Leave key (contents c) with Some l => Some (Counted (S (version c)) l) | None => None end.
