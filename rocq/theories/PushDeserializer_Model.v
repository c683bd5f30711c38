(** Model of base/push_deserializer.hpp and base/push_deserializer_body.hpp (DelegatingArrayInputStream and
    PushDeserializer), as a small-step interleaving semantics of the client that calls Push and of the
    deserializing thread.  Each critical section of lock_ is one step.

    The protocol buffer library is modelled by a reader that consumes, in arbitrary pieces, the bytes that it gets
    from the stream until the stream is at an end: Next, BackUp and Skip (push_deserializer_body.hpp:26-75) amount
    to consuming some of the bytes between position_ and the end of bytes_, and call on_empty_ only when there are
    none left.  Parsing errors are not modelled.  Neither is the computation, on line 214, of a pointer beyond the
    end of the client's array (it is not used). *)
From Coq Require Import List Arith Bool.
Import ListNotations.

Definition byte := nat.

(** push_deserializer_body.hpp:107-122.  [compressor] is the function computed by UncompressStream, [None] if there
    is no compressor. *)
Record config := Config {
  chunk_size : nat;
  compressed_chunk_size : nat;
  number_of_chunks : nat;
  compressor : option (list byte -> option (list byte)) }.

(** A call to Push: the array, and the callback (identified by a number), [None] for nullptr. *)
Record push := Push { bytes : list byte; done_callback : option nat }.

(** Lines 189-195. *)
Definition queued_chunk_size (c : config) : nat := match compressor c with None => chunk_size c | Some _ => compressed_chunk_size c end.

(** Program counter of the deserializing thread.  [DRead]: lines 148-149, reading the stream.  [DEnd]: the stream
    has returned false, lines 150-159.  [DDone]: from line 160. *)
Inductive deserializer := DRead | DEnd | DDone.

(** [pushing]: the call to Push in progress, with the rest of the array, variable current.  [pushes]: the calls to
    come.  [queue], [done]: queue_ and done_.  [current]: the bytes between position_ and the end of bytes_.
    [consumed]: the bytes given to the reader.  [ran]: the callbacks that were run, in order.
    [crashed]: a CHECK failed. *)
Record state := State {
  pushing : option (list byte * option nat);
  pushes : list push;
  queue : list (list byte);
  done : list (option nat);
  pc : deserializer;
  current : list byte;
  consumed : list byte;
  ran : list nat;
  crashed : bool }.

Definition initial (p : list push) : state := State None p [] [None] DRead [] [] [] false.

Definition crash (s : state) : state :=
  State (pushing s) (pushes s) (queue s) (done s) (pc s) (current s) (consumed s) (ran s) true.

(** A step of Push, lines 174-218: entering it, or one iteration of the loop of lines 198-217. *)
Definition push_step (c : config) (s : state) : option state :=
  match pushing s with
  | None =>
      match pushes s with
      | [] => None
      | p :: l =>
          (* line 193 *)
          if match compressor c with None => true | Some _ => length (bytes p) <=? compressed_chunk_size c end then
            Some (State (Some (bytes p, done_callback p)) l (queue s) (done s) (pc s) (current s) (consumed s) (ran s) (crashed s))
          else Some (crash s)
      end
  | Some (cur, d) =>
      let q := queued_chunk_size c in
      let is_last := length cur <=? q in
      if length (queue s) <? number_of_chunks c then
        Some (State (if is_last then None else Some (skipn q cur, d)) (pushes s) (queue s ++ [firstn q cur])
                (done s ++ [if is_last then d else None]) (pc s) (current s) (consumed s) (ran s) (crashed s))
      else None
  end.

Definition run (d : option nat) (l : list nat) : list nat := match d with Some x => l ++ [x] | None => l end.

(** A step of the deserializing thread: Pull, lines 227-257, called by the stream when its array is exhausted (lines
    28-36), or the final part of the thread. *)
Definition pull_step (c : config) (s : state) : option state :=
  match pc s with
  | DRead =>
      match current s, queue s with
      | _ :: _, _ => None
      | [], [] => None
      | [], front :: q =>
          match done s with
          | [] => Some (crash s)
          | d :: ds =>
              match (match front, compressor c with
                     | [], _ | _, None => Some front
                     | _, Some u => u front
                     end) with
              | None => Some (crash s)
              | Some [] => Some (State (pushing s) (pushes s) q ds DEnd [] (consumed s) (run d (ran s)) (crashed s))
              | Some r => Some (State (pushing s) (pushes s) q ds DRead r (consumed s) (run d (ran s)) (crashed s))
              end
          end
      end
  | DEnd =>
      match done s with
      | [d] => Some (State (pushing s) (pushes s) (queue s) [] DDone (current s) (consumed s) (run d (ran s)) (crashed s))
      | _ => Some (crash s)
      end
  | DDone => None
  end.

Inductive step (c : config) (s : state) : state -> Prop :=
| step_push s' : crashed s = false -> push_step c s = Some s' -> step c s s'
| step_pull s' : crashed s = false -> pull_step c s = Some s' -> step c s s'
(** The reader consumes [l]. *)
| step_consume l r : crashed s = false -> pc s = DRead -> current s = l ++ r -> l <> [] ->
    step c s (State (pushing s) (pushes s) (queue s) (done s) (pc s) r (consumed s ++ l) (ran s) (crashed s)).

Inductive steps (c : config) : state -> state -> Prop :=
| steps_refl s : steps c s s
| steps_step s1 s2 s3 : steps c s1 s2 -> step c s2 s3 -> steps c s1 s3.
