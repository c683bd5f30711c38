(** C07: base/pull_serializer_body.hpp. *)
From Coq Require Import List Arith Bool.
From Verif Require Import PullSerializer_Model PullSerializer_Proofs.
Import ListNotations.

(** No CHECK fails, whatever the interleaving. *)
Theorem C07_no_check_fails : forall c m w s,
  valid c -> Forall (conforming c) w -> steps c (initial c m w) s -> crashed s = false.
Proof. exact never_crashes. Qed.
Print Assumptions C07_no_check_fails.

(** The arrays received by the client are at any time a prefix of the sequence of arrays written, each compressed if
    there is a compressor, followed by an empty array... *)
Theorem C07_received_prefix : forall c m w s, valid c -> Forall (conforming c) w -> steps c (initial c m w) s ->
  exists l, received s ++ l = map (compressed c) (expected w) ++ [[]].
Proof. exact received_prefix. Qed.
Print Assumptions C07_received_prefix.

(** ... and once an empty array has been received, it is all of that sequence. *)
Theorem C07_received_all : forall c m w s, valid c -> Forall (conforming c) w -> steps c (initial c m w) s ->
  In [] (received s) -> received s = map (compressed c) (expected w) ++ [[]].
Proof. exact received_all. Qed.
Print Assumptions C07_received_all.

(** Hence, without compression, and if the writer ends with a call to BackUp, the bytes received are the bytes
    written. *)
Theorem C07_bytes_partial : forall c m w s, valid c -> Forall (conforming c) w -> steps c (initial c m w) s ->
  compressor c = None -> (forall a, last w a = a \/ back_up (last w a) = true) ->
  In [] (received s) -> concat (received s) = concat (map bytes w).
Proof.
  intros c m w s Hv Hw H Hc Hb Hin. rewrite (received_all c m w s Hv Hw H Hin), concat_app.
  rewrite (map_ext _ (fun x => x)), map_id by (intros; apply compressed_none; assumption).
  rewrite (concat_expected w Hb). apply app_nil_r.
Qed.
Print Assumptions C07_bytes_partial.

(** The interface of ZeroCopyOutputStream does not require a call to BackUp if the last buffer was filled entirely.
    In that case the last chunk is lost, whatever the configuration and the interleaving: when the empty array is
    received, the bytes [b] are missing. *)
Theorem C07_bytes_refuted : forall c m l b s, valid c -> compressor c = None ->
  Forall (conforming c) (l ++ [Write b false]) -> (forall a, last l a = a \/ back_up (last l a) = true) ->
  steps c (initial c m (l ++ [Write b false])) s ->
  In [] (received s) -> concat (received s) = concat (map bytes l) /\ concat (map bytes (l ++ [Write b false])) = concat (received s) ++ b /\ b <> [].
Proof.
  intros c m l b s Hv Hc Hw Hb H Hin.
  assert (He : expected (l ++ [Write b false]) = expected l \/ exists a l', l = l' ++ [a] /\ back_up a = true).
  { destruct l as [|a l'] using rev_ind; [left; reflexivity|]. right. exists a, l'. split; [reflexivity|]. clear IHl'.
    specialize (Hb (Write (bytes a) (negb (back_up a)))). rewrite last_app_one in Hb. destruct Hb as [Hb|Hb]; [|exact Hb].
    exfalso. destruct a as [x y]. cbn in Hb. injection Hb as Hb. now destruct y. }
  assert (He' : expected (l ++ [Write b false]) = expected l).
  { destruct He as [He|(a & l' & -> & Ha)]; [exact He|]. clear - Ha. induction l' as [|x l' IH].
    - cbn. rewrite Ha, app_nil_r. reflexivity.
    - change (((x :: l') ++ [a]) ++ [Write b false]) with (x :: ((l' ++ [a]) ++ [Write b false])).
      change ((x :: l') ++ [a]) with (x :: (l' ++ [a])).
      rewrite (expected_cons x ((l' ++ [a]) ++ [Write b false])), (expected_cons x (l' ++ [a])), IH; [reflexivity| |];
      destruct l'; discriminate. }
  assert (Hr : concat (received s) = concat (map bytes l)).
  { rewrite (received_all c m _ s Hv Hw H Hin), concat_app, He'.
    rewrite (map_ext _ (fun x => x)), map_id by (intros; apply compressed_none; assumption).
    rewrite (concat_expected l Hb). apply app_nil_r. }
  split; [exact Hr|]. split.
  - rewrite Hr, map_app, concat_app. cbn. rewrite app_nil_r. reflexivity.
  - apply Forall_app in Hw. destruct Hw as [_ Hw]. apply Forall_inv in Hw. destruct Hw as [_ Hw]. specialize (Hw eq_refl). cbn in Hw.
    destruct Hv as [Hcs _]. intros ->. cbn in Hw. rewrite <- Hw in Hcs. inversion Hcs.
Qed.
Print Assumptions C07_bytes_refuted.

(** There is no deadlock: as long as the client has not received the final empty array, a step is possible... *)
Theorem C07_no_deadlock : forall c m w s, valid c -> Forall (conforming c) w -> steps c (initial c m w) s ->
  ~ In [] (received s) -> exists s', step c s s'.
Proof. exact no_deadlock. Qed.
Print Assumptions C07_no_deadlock.

(** ... and every step decreases a natural number. *)
Theorem C07_terminates : forall c m w s s',
  valid c -> Forall (conforming c) w -> steps c (initial c m w) s -> step c s s' -> measure s' < measure s.
Proof. exact terminates. Qed.
Print Assumptions C07_terminates.

(** The array last returned by Pull is not overwritten until the next call. *)
Theorem C07_held_array_intact : forall c m w s l x,
  valid c -> Forall (conforming c) w -> steps c (initial c m w) s ->
  received s = l ++ [x] -> exists a q, queue s = a :: q /\ array (mem s) a = x.
Proof. exact held_array_intact. Qed.
Print Assumptions C07_held_array_intact.

(** Chunks of 3 bytes, 4 chunks, and a compressor that reverses and appends a 9. *)
Definition example_config : config := Config 3 4 (Some (fun l => rev l ++ [9])).
Definition example_writes := [Write [1;2;3] false; Write [] true; Write [4;5] true; Write [6;7;8] true].
Definition t := true.
Definition f := false.
Example C07_example :
  match schedule example_config (initial example_config (fun _ => [0]) example_writes)
    [t;t;t;t;t;t;t;t;t;t;t;f;t;t;t;t;t;f;t;t;t;t;f;t;f] with
  | Some s => received s = [[3;2;1;9]; [5;4;9]; [8;7;6;9]; []] /\ pc s = SDone | None => False end.
Proof. vm_compute. auto. Qed.

(** The same without BackUp at the end: the last three bytes are lost. *)
Example C07_lost_chunk :
  match schedule (Config 3 3 None) (initial (Config 3 3 None) (fun _ => []) [Write [1;2;3] false; Write [4;5;6] false])
    [t;t;t;t;t;t;t;t;t;f;t;f] with
  | Some s => received s = [[1;2;3]; []] | None => False end.
Proof. vm_compute. auto. Qed.
