(** Model of base/pull_serializer.hpp and base/pull_serializer_body.hpp (DelegatingArrayOutputStream and
    PullSerializer), as a small-step interleaving semantics of the serializing thread and of the client that calls
    Pull.  Each critical section of lock_ is one step; a chunk is designated by its number in data_.

    The protocol buffer library is modelled by the sequence of operations that it performs on the
    ZeroCopyOutputStream: it repeatedly calls Next, fills the buffer that it obtains and, if it did not fill it
    entirely (or if it so pleases), calls BackUp to give back the rest.  The bytes of a chunk are written in one
    step.  Compression is an arbitrary function of the chunk. *)
From Coq Require Import List Arith Bool.
Import ListNotations.

Definition byte := nat.

(** An element of the sequence of operations of the writer: the bytes that it puts into the buffer returned by
    Next, and whether it then calls BackUp. *)
Record write := Write { bytes : list byte; back_up : bool }.

(** pull_serializer.hpp:104-120. *)
Record config := Config {
  chunk_size : nat;
  number_of_chunks : nat;
  compressor : option (list byte -> list byte) }.

(** pull_serializer_body.hpp:75. *)
Definition number_of_compression_chunks (c : config) : nat := match compressor c with None => 0 | Some _ => 1 end.

(** What follows a call to Push: the end of Next, lines 31-40, for the given element; the end of BackUp, lines
    55-58; the end of the thread, line 122. *)
Inductive continuation := KNext (w : write) | KBackUp | KEnd.

(** Program counter of the serializing thread, Start lines 111-122.
    [SNext]: about to call Next, line 28, or at the end of the serialization.  [SFill w]: lines 34-40 and whatever
    the writer does with the buffer, up to line 54.  [SPush b n k]: lines 145-156, with the array of [n] bytes in
    chunk [b].  [SCompress b n c k]: lines 157-165, compressing into chunk [c].  [SQueue b n k]: lines 167-186.
    [SEnd]: lines 116-120.  [SDone]: line 122. *)
Inductive serializer :=
  SNext | SFill (w : write) | SPush (b n : nat) (k : continuation) | SCompress (b n c : nat) (k : continuation)
| SQueue (b n : nat) (k : continuation) | SEnd | SDone.

(** [mem]: the contents of data_, by chunk.  [stream_chunk], [stream_size] and [position]: bytes_ and position_ of
    the stream, pull_serializer.hpp:48-52.  [script]: the operations that the writer has not started yet.
    [crashed]: a CHECK failed.  [received]: the arrays returned by Pull.  Ghosts: [plain], the arrays given to Push;
    [sent], the arrays put into queue_. *)
Record state := State {
  mem : nat -> list byte;
  free : list nat;
  queue : list (nat * nat);
  stream_chunk : nat;
  stream_size : nat;
  position : nat;
  script : list write;
  pc : serializer;
  crashed : bool;
  received : list (list byte);
  plain : list (list byte);
  sent : list (list byte) }.

(** The constructor, pull_serializer_body.hpp:65-93, whose CHECK of line 81 is the hypothesis [valid] of the
    theorems. *)
Definition initial (c : config) (m : nat -> list byte) (w : list write) : state :=
  State m (seq 0 (number_of_chunks c - 1)) [(number_of_chunks c - 1, 0)] 0 (chunk_size c) 0 w SNext false [] [] [].

Definition array (m : nat -> list byte) (a : nat * nat) : list byte := firstn (snd a) (m (fst a)).
Definition set_mem (m : nat -> list byte) (b : nat) (l : list byte) : nat -> list byte :=
  fun x => if Nat.eqb x b then l else m x.

Definition crash (s : state) : state :=
  State (mem s) (free s) (queue s) (stream_chunk s) (stream_size s) (position s) (script s) (pc s) true (received s) (plain s) (sent s).
Definition set_pc (p : serializer) (s : state) : state :=
  State (mem s) (free s) (queue s) (stream_chunk s) (stream_size s) (position s) (script s) p (crashed s) (received s) (plain s) (sent s).

(** One step of the serializing thread; [None]: it is blocked or finished. *)
Definition serializer_step (c : config) (s : state) : option state :=
  match pc s with
  | SNext =>
      match script s with
      | [] => Some (set_pc SEnd s)
      | w :: l =>
          let s := State (mem s) (free s) (queue s) (stream_chunk s) (stream_size s) (position s) l (pc s) (crashed s) (received s) (plain s) (sent s) in
          if position s =? stream_size s then Some (set_pc (SPush (stream_chunk s) (stream_size s) (KNext w)) s)
          else Some (set_pc (SFill w) s)
      end
  | SFill w =>
      (* line 34 *)
      if negb (position s <? stream_size s) then Some (crash s)
      else
        let p := position s + length (bytes w) in
        let m := set_mem (mem s) (stream_chunk s) (firstn (position s) (mem s (stream_chunk s)) ++ bytes w) in
        if back_up w then
          (* lines 43-58, with count = stream_size - p *)
          let s := State m (free s) (queue s) (stream_chunk s) (stream_size s) p (script s) (pc s) (crashed s) (received s) (plain s) (sent s) in
          if 0 <? p then Some (set_pc (SPush (stream_chunk s) p KBackUp) s) else Some (set_pc SNext s)
        else
          Some (State m (free s) (queue s) (stream_chunk s) (stream_size s) (stream_size s) (script s) SNext (crashed s) (received s) (plain s) (sent s))
  | SPush b n k =>
      let s := State (mem s) (free s) (queue s) (stream_chunk s) (stream_size s) (position s) (script s) (pc s) (crashed s) (received s)
                 (plain s ++ [array (mem s) (b, n)]) (sent s) in
      if negb (n <=? chunk_size c) then Some (crash s)
      else match compressor c with
           | None => Some (set_pc (SQueue b n k) s)
           | Some _ =>
               if 0 <? n then
                 match free s with
                 | f0 :: f1 :: f =>
                     Some (State (mem s) (f1 :: f ++ [b]) (queue s) (stream_chunk s) (stream_size s) (position s) (script s)
                             (SCompress b n f1 k) (crashed s) (received s) (plain s) (sent s))
                 | _ => Some (crash s)
                 end
               else Some (set_pc (SQueue b n k) s)
           end
  | SCompress b n c' k =>
      match compressor c with
      | None => None
      | Some z =>
          let l := z (array (mem s) (b, n)) in
          Some (State (set_mem (mem s) c' l) (free s) (queue s) (stream_chunk s) (stream_size s) (position s) (script s)
                  (SQueue c' (length l) k) (crashed s) (received s) (plain s) (sent s))
      end
  | SQueue b n k =>
      if length (queue s) <? number_of_chunks c - number_of_compression_chunks c - 1 then
        let q := queue s ++ [(b, n)] in
        if negb (2 + number_of_compression_chunks c <=? length (free s)) then Some (crash s)
        else match free s with
             | f0 :: f1 :: f =>
                 if negb (Nat.eqb f0 b) then Some (crash s)
                 else if negb (Nat.eqb (number_of_chunks c) (length q + length (f1 :: f))) then Some (crash s)
                 else
                   let '(chunk, size, p, pc') :=
                     match k with
                     | KNext w => (f1, chunk_size c, 0, SFill w)
                     | KBackUp => (f1, chunk_size c, 0, SNext)
                     | KEnd => (stream_chunk s, stream_size s, position s, SDone)
                     end in
                   Some (State (mem s) (f1 :: f) q chunk size p (script s) pc' (crashed s) (received s) (plain s)
                           (sent s ++ [array (mem s) (b, n)]))
             | _ => Some (crash s)
             end
      else None
  | SEnd =>
      match free s with
      | [] => Some (crash s)
      | f0 :: _ => Some (set_pc (SPush f0 0 KEnd) s)
      end
  | SDone => None
  end.

(** Pull, pull_serializer_body.hpp:125-142; [None]: the client is blocked. *)
Definition Pull (c : config) (s : state) : option state :=
  if 1 <? length (queue s) then
    match queue s with
    | f :: r :: q =>
        let fr := free s ++ [fst f] in
        if negb (Nat.eqb (number_of_chunks c) (length (r :: q) + length fr)) then Some (crash s)
        else Some (State (mem s) fr (r :: q) (stream_chunk s) (stream_size s) (position s) (script s) (pc s) (crashed s)
                     (received s ++ [array (mem s) r]) (plain s) (sent s))
    | _ => Some (crash s)
    end
  else None.

(** The client stops calling Pull when it has received an empty array. *)
Inductive step (c : config) (s : state) : state -> Prop :=
| step_serializer s' : crashed s = false -> serializer_step c s = Some s' -> step c s s'
| step_pull s' : crashed s = false -> ~ In [] (received s) -> Pull c s = Some s' -> step c s s'.

Inductive steps (c : config) : state -> state -> Prop :=
| steps_refl s : steps c s s
| steps_step s1 s2 s3 : steps c s1 s2 -> step c s2 s3 -> steps c s1 s3.
