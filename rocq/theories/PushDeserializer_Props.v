(** C08: base/push_deserializer_body.hpp. *)
From Coq Require Import List Arith Bool.
From Verif Require Import PushDeserializer_Model PushDeserializer_Proofs.
Import ListNotations.

(** The client makes the calls [p], with data, and a last call with an empty array, as documented on
    push_deserializer.hpp:99-104; [valid] says that the chunk sizes are positive and that compressed data fits in one
    chunk and uncompresses to something that is not empty. *)

(** No CHECK fails, whatever the interleaving. *)
Theorem C08_no_check_fails : forall c p d s, valid c p -> steps c (initial (client c p d)) s -> crashed s = false.
Proof. exact never_crashes. Qed.
Print Assumptions C08_no_check_fails.

(** The bytes read are at any time a prefix of the concatenation of the arrays pushed. *)
Theorem C08_consumed_prefix : forall c p d s, valid c p -> steps c (initial (client c p d)) s ->
  exists l, consumed s ++ l = concat (map (fun x => plain c (bytes x)) p).
Proof. exact consumed_prefix. Qed.
Print Assumptions C08_consumed_prefix.

(** The callbacks that have run are at any time those of the first n pushes, each once and in order, and the bytes of
    these pushes have all been read. *)
Theorem C08_callbacks_in_order : forall c p d s, valid c p -> steps c (initial (client c p d)) s ->
  exists n l, ran s = somes (map done_callback (firstn n (client c p d))) /\
    consumed s = concat (map (fun x => plain c (bytes x)) (firstn n (client c p d))) ++ l.
Proof. exact callbacks_in_order. Qed.
Print Assumptions C08_callbacks_in_order.

(** When the thread ends, all the bytes have been read, all the callbacks have run, and nothing is left behind. *)
Theorem C08_complete : forall c p d s, valid c p -> steps c (initial (client c p d)) s -> pc s = DDone ->
  consumed s = concat (map (fun x => plain c (bytes x)) p) /\ ran s = somes (map done_callback (client c p d)) /\
  pushing s = None /\ pushes s = [] /\ queue s = [] /\ done s = [].
Proof. exact complete. Qed.
Print Assumptions C08_complete.

(** There is no deadlock... *)
Theorem C08_no_deadlock : forall c p d s, valid c p -> steps c (initial (client c p d)) s ->
  pc s <> DDone -> exists s', step c s s'.
Proof. exact no_deadlock. Qed.
Print Assumptions C08_no_deadlock.

(** ... and no infinite execution: each step decreases a pair of natural numbers in the lexicographic order. *)
Theorem C08_terminates : forall c p d s s', valid c p -> steps c (initial (client c p d)) s -> step c s s' ->
  remaining c p s' < remaining c p s \/ remaining c p s' = remaining c p s /\ work s' < work s.
Proof. exact terminates. Qed.
Print Assumptions C08_terminates.

(** Chunks of 2 bytes, a queue of 2 chunks, three pushes. *)
Definition example_config : config := Config 2 7 2 None.
Definition example_pushes := [Push [1;2;3] (Some 10); Push [4] None; Push [5;6] (Some 11)].
Definition P := Some 0.
Definition C n := Some (S n).
Definition G : option nat := None.
Example C08_example :
  match schedule example_config (initial (client example_config example_pushes (Some 12)))
    [P;P;G;C 0;P;C 0;G;P;P;C 0;G;P;P;C 0;P;G;P;C 1;G;G] with
  | Some s => consumed s = [1;2;3;4;5;6] /\ ran s = [10;11;12] /\ pc s = DDone | None => False end.
Proof. vm_compute. auto. Qed.

(** Halfway: the first push has been read entirely but its callback has not run; it will at the next Pull. *)
Example C08_example_halfway :
  match schedule example_config (initial (client example_config example_pushes (Some 12)))
    [P;P;G;C 0;P;C 0;G;P;P;C 0] with
  | Some s => consumed s = [1;2;3] /\ ran s = [] | None => False end.
Proof. vm_compute. auto. Qed.
Example C08_example_halfway_after :
  match schedule example_config (initial (client example_config example_pushes (Some 12)))
    [P;P;G;C 0;P;C 0;G;P;P;C 0;G] with
  | Some s => consumed s = [1;2;3] /\ ran s = [10] | None => False end.
Proof. vm_compute. auto. Qed.
Example C08_example_valid : valid example_config example_pushes.
Proof.
  split; [repeat constructor|]. split; [repeat constructor|].
  repeat apply Forall_cons; try apply Forall_nil; (split; [discriminate|]); intros u Hu; discriminate.
Qed.
