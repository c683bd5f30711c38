(* The journal: journal/recorder.cpp, journal/method_body.hpp, journal/player.cpp,
   journal/player_body.hpp, base/get_line_body.hpp. *)
From Coq Require Import ZArith List Bool Arith.
From Verif Require Import Hex_Model.
Import ListNotations.
Local Open Scope nat_scope.

(* ------------------------------------------------------------- messages *)

(* A message of type serialization::Method, with exactly one extension, the message of a
   profile; the submessages in, out and return are opaque. *)
Record message := mkMessage {
  ext : nat;
  m_in : option (list Z);
  m_out : option (list Z);
  m_return : option (list Z)
}.

(* A call to a function of the interface: the extension of its profile, and what Fill
   yields for the objects of type In, Out and Return, when the profile has them.  For
   Out, this is the value at the time of the destruction. *)
Record call := mkCall {
  c_ext : nat;
  c_in : option (list Z);
  c_out : option (list Z);
  c_return : option (list Z)
}.

Definition is_some {A} (o : option A) : bool := match o with Some _ => true | None => false end.

(* ------------------------------------------------------------- recorder *)

(* The progress of a call in a thread.  [g] identifies the recorder that was active when
   the pointer was read; the fillers are those of the object of class Method. *)
Inductive frame :=
| CtorLock (g : nat) (c : call)       (* recorder.cpp:29, before Lock. *)
| CtorWrite (g : nat) (c : call)      (* recorder.cpp:30, the lock is held. *)
| Running (c : call) (out_filler return_filler returned : bool)
| DtorWrite (g : nat) (c : call) (out_filler return_filler : bool)
                                      (* recorder.cpp:34 *)
| DtorUnlock (g : nat) (c : call).    (* recorder.cpp:35 *)

(* The active recorder: the contents of the file and the thread that holds the lock.
   [gen] is the number of recorders that were activated so far.  A thread has a stack
   of calls, the innermost one first. *)
Record state := mkState {
  gen : nat;
  active : option (list Z * option nat);
  closed : list (list Z);             (* The files of the recorders that were deleted. *)
  stacks : nat -> list frame
}.

Inductive event :=
| EBegin (c : call)                   (* The constructor of Method starts. *)
| EStep                               (* A step of a constructor or destructor. *)
| EReturn                             (* Method::Return is called. *)
| EEnd                                (* The destructor of Method starts. *)
| EActivate                           (* principia__ActivateRecorder(true) *)
| EDeactivate.                        (* principia__ActivateRecorder(false) *)

(* The outcome of an event: a new state, an event that is not possible in the state (in
   particular, waiting for the lock), a failed CHECK, or undefined behaviour: the use
   or destruction of a deleted or locked mutex, or the release of a mutex that the
   thread does not hold. *)
Inductive outcome :=
| Next (s : state)
| Blocked
| CheckFailed
| Undefined.

Section Recorder.

(* Message::SerializeAsArray. *)
Variable serialize : message -> list Z.
(* The uninitialized memory of the buffers. *)
Variable junk : Hex_Model.mem.

(* The operator << for a null-terminated string. *)
Fixpoint c_string (l : list Z) : list Z :=
  match l with
  | [] => []
  | x :: l' => if (x =? 0)%Z then [] else x :: c_string l'
  end.

(* journal/recorder.cpp:64-70, WriteLocked: the text to be appended to the file; None if
   the check fails (here or in the encoder). *)
Definition WriteLocked (m : message) : option (list Z) :=
  let bytes := serialize m in
  match bytes with
  | [] => None
  | _ => match EncodeNew true junk bytes with
         | Some hexadecimal => Some (c_string hexadecimal ++ [10%Z])
         | None => None
         end
  end.

(* journal/method_body.hpp:19-27, 29-40, 42-58, 60-77: the message written by the
   constructors. *)
Definition message_at_construction (c : call) : message :=
  mkMessage (c_ext c) (c_in c) None None.
(* journal/method_body.hpp:79-94, the message written by the destructor. *)
Definition message_at_destruction (c : call) (out_filler return_filler : bool) : message :=
  mkMessage (c_ext c) None (if out_filler then c_out c else None)
    (if return_filler then c_return c else None).

Definition push (s : state) (t : nat) (stack : list frame) : nat -> list frame :=
  fun u => if u =? t then stack else stacks s u.
Definition set_stack (s : state) (t : nat) (stack : list frame) : state :=
  mkState (gen s) (active s) (closed s) (push s t stack).
Definition set_active (s : state) (a : option (list Z * option nat)) (t : nat)
    (stack : list frame) : state :=
  mkState (gen s) a (closed s) (push s t stack).

Definition step (s : state) (t : nat) (e : event) : outcome :=
  match e, stacks s t with
  (* method_body.hpp:20, 32, 45, 64: the test of the active recorder. *)
  | EBegin c, [] | EBegin c, Running _ _ _ _ :: _ =>
    let frame := match active s with
                 | None => Running c false false false
                 | Some _ => CtorLock (gen s) c
                 end in
    Next (set_stack s t (frame :: stacks s t))
  (* recorder.cpp:28-31, WriteAtConstruction. *)
  | EStep, CtorLock g c :: rest =>
    match active s with
    | Some (file, owner) =>
      if gen s =? g then
        match owner with
        | None => Next (set_active s (Some (file, Some t)) t (CtorWrite g c :: rest))
        | Some _ => Blocked
        end
      else Undefined
    | None => Undefined
    end
  | EStep, CtorWrite g c :: rest =>
    match active s with
    | Some (file, owner) =>
      if gen s =? g then
        match WriteLocked (message_at_construction c) with
        | Some text => Next (set_active s (Some (file ++ text, owner)) t
                               (Running c (is_some (c_out c)) false false :: rest))
        | None => CheckFailed
        end
      else Undefined
    | None => Undefined
    end
  (* recorder.cpp:33-36, WriteAtDestruction. *)
  | EStep, DtorWrite g c out_filler return_filler :: rest =>
    match active s with
    | Some (file, owner) =>
      if gen s =? g then
        match WriteLocked (message_at_destruction c out_filler return_filler) with
        | Some text => Next (set_active s (Some (file ++ text, owner)) t
                               (DtorUnlock g c :: rest))
        | None => CheckFailed
        end
      else Undefined
    | None => Undefined
    end
  | EStep, DtorUnlock g c :: rest =>
    match active s with
    | Some (file, owner) =>
      if gen s =? g then
        match owner with
        | Some u => if u =? t then Next (set_active s (Some (file, None)) t rest)
                    else Undefined
        | None => Undefined
        end
      else Undefined
    | None => Undefined
    end
  (* method_body.hpp:96-115, Return. *)
  | EReturn, Running c out_filler return_filler returned :: rest =>
    if returned then CheckFailed
    else Next (set_stack s t
                 (Running c out_filler (is_some (active s) && is_some (c_return c)) true
                  :: rest))
  (* method_body.hpp:80-82, the beginning of the destructor. *)
  | EEnd, Running c out_filler return_filler returned :: rest =>
    if returned then
      match active s with
      | None => Next (set_stack s t rest)
      | Some _ => Next (set_stack s t (DtorWrite (gen s) c out_filler return_filler :: rest))
      end
    else CheckFailed
  (* ksp_plugin/interface.cpp:344-366 and recorder.cpp:38-58.  The call of
     principia__GetVersion by Activate is a call like the others. *)
  | EActivate, [] =>
    match active s with
    | None => Next (mkState (S (gen s)) (Some ([], None)) (closed s) (stacks s))
    | Some _ => Next s
    end
  | EDeactivate, [] =>
    match active s with
    | None => Next s
    | Some (file, None) => Next (mkState (gen s) None (closed s ++ [file]) (stacks s))
    | Some (_, Some _) => Undefined
    end
  | _, _ => Blocked
  end.

Fixpoint exec (s : state) (l : list (nat * event)) : outcome :=
  match l with
  | [] => Next s
  | (t, e) :: l' => match step s t e with Next s' => exec s' l' | o => o end
  end.

End Recorder.

(* --------------------------------------------------------------- player *)

(* A file stream: the characters that were not extracted, eofbit and failbit. *)
Record stream := mkStream {
  rest : list Z;
  eofbit : bool;
  failbit : bool
}.
Definition open (file : list Z) : stream := mkStream file false false.

(* std::istream::getline for n - 1 = [n] characters.  [extracted] tells whether some
   character was extracted. *)
Fixpoint scan (n : Z) (extracted : bool) (r : list Z) : list Z * stream :=
  match r with
  | [] => ([], mkStream [] true (negb extracted))
  | x :: r' =>
    if (x =? 10)%Z then ([], mkStream r' false false)
    else if (n <=? 0)%Z then ([], mkStream r false true)
    else let '(l, st) := scan (n - 1) true r' in (x :: l, st)
  end.
Definition getline (size : Z) (st : stream) : list Z * stream :=
  if eofbit st || failbit st then ([], mkStream (rest st) (eofbit st) true)
  else scan (size - 1) false (rest st).

(* base/get_line_body.hpp:15-28, GetLineWithSize; None if the fuel is exhausted. *)
Fixpoint GetLineWithSize (fuel : nat) (size : Z) (st : stream) : option (list Z * stream) :=
  match fuel with
  | O => None
  | S fuel' =>
    let '(buffer, st) := getline size st in
    if negb (eofbit st) && failbit st then
      match GetLineWithSize fuel' (2 * size) (mkStream (rest st) false false) with
      | Some (l, st) => Some (c_string buffer ++ l, st)
      | None => None
      end
    else Some (c_string buffer, st)
  end.
(* base/get_line_body.hpp:30-32.  Each recursion extracts a character. *)
Definition GetLine (st : stream) : option (list Z * stream) :=
  GetLineWithSize (S (length (rest st))) 200 st.

Inductive read_result :=
| ReadNothing (st : stream)           (* nullptr *)
| ReadMessage (m : message) (st : stream)
| ReadFatal.                          (* A failed CHECK, LOG(FATAL), etc. *)

Inductive play_result :=
| PlayEnd                             (* Play returns false. *)
| PlayMessages (m_in m_out_return : message) (ran : list message) (st : stream)
                                      (* Play returns true; the arguments of Run. *)
| PlayFatal.

Section Player.

(* Message::ParseFromArray. *)
Variable parse : list Z -> option message.
Variable junk : Hex_Model.mem.
(* The extensions of the profiles, in the order of player.generated.cc. *)
Variable profiles : list nat.
(* The extension of GetVersion, and player.cpp:95-110, the comparison of the version and
   platform with those of the binary. *)
Variable get_version : nat.
Variable compatible : message -> bool.

(* journal/player.cpp:54-72, Read. *)
Definition Read (st : stream) : read_result :=
  match GetLine st with
  | None => ReadFatal
  | Some ([], st) => ReadNothing st
  | Some (line, st) =>
    match DecodeNew junk line with
    | None => ReadFatal
    | Some bytes =>
      if Nat.even (length line) then
        match parse bytes with
        | Some m => ReadMessage m st
        | None => ReadFatal
        end
      else ReadFatal
    end
  end.

(* Message::MergeFrom, for messages that don't have a submessage in common. *)
Definition or_else {A} (x y : option A) : option A := match y with Some _ => y | None => x end.
Definition MergeFrom (a b : message) : message :=
  mkMessage (ext a) (or_else (m_in a) (m_in b)) (or_else (m_out a) (m_out b))
    (or_else (m_return a) (m_return b)).

(* journal/player_body.hpp:15-30, RunIfAppropriate, and tools/journal_proto_processor.cpp:
   197-203: it is called for each profile.  The result is made of the arguments of Run,
   None if a check fails. *)
Fixpoint run_profiles (l : list nat) (m_in m_out : message) : option (list message) :=
  match l with
  | [] => Some []
  | p :: l' =>
    if ext m_in =? p then
      if ext m_out =? p then
        match run_profiles l' m_in m_out with
        | Some ran => Some (MergeFrom m_in m_out :: ran)
        | None => None
        end
      else None
    else run_profiles l' m_in m_out
  end.

(* journal/player.cpp:40-42 and 74-141, Play and Process. *)
Definition Play (st : stream) : play_result :=
  match Read st with
  | ReadFatal => PlayFatal
  | ReadNothing _ => PlayEnd
  | ReadMessage m_in st =>
    match Read st with
    | ReadFatal => PlayFatal
    | ReadNothing _ => PlayEnd
    | ReadMessage m_out st =>
      if (ext m_in =? get_version) && negb (compatible m_out) then PlayFatal
      else
        match run_profiles profiles m_in m_out with
        | None => PlayFatal
        | Some [] => PlayFatal
        | Some ran => PlayMessages m_in m_out ran st
        end
    end
  end.

(* while (player.Play(count)) { ++count; }, as in journal/player_test.cpp:92-95. *)
Fixpoint play_all (fuel : nat) (st : stream)
  : list (message * message * list message) * play_result :=
  match fuel with
  | O => ([], PlayFatal)
  | S fuel' =>
    match Play st with
    | PlayMessages m_in m_out ran st =>
      let '(l, r) := play_all fuel' st in ((m_in, m_out, ran) :: l, r)
    | r => ([], r)
    end
  end.

End Player.
