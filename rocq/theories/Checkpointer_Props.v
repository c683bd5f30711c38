(** Property C39: the checkpointer. *)
From Coq Require Import List Arith ZArith Bool Lia Sorted Permutation.
From Verif Require Import Checkpointer_Model Checkpointer_Proofs.
Import ListNotations.
Open Scope Z_scope.

(** A sequence of creations succeeds exactly when no checkpoint is created twice at the same time, WriteToCheckpointIfNeeded
    creating one exactly when all those created before are old enough; the map is then, in increasing order of time, the
    checkpoints created. *)
Theorem C39_history : forall (A : Type) (ops : list (operation (A := A))),
  (forall m, execute ops [] = Some m -> exists c, history ops [] c /\ sorted m /\ Permutation m c) /\
  (execute ops [] = None -> forall c, ~ history ops [] c).
Proof. intros A ops. exact (execute_ok ops [] [] (SSorted_nil _) (Permutation_refl _)). Qed.
Print Assumptions C39_history.

Theorem C39_if_needed : forall (A : Type) t d (a : A) m b m', sorted m -> WriteToCheckpointIfNeeded t d a m = Some (b, m') ->
  (b = true <-> forall e, In e m -> d < t - fst e) /\
  (b = true -> In (t, a) m' /\ ~ In t (map fst m)) /\ (b = false -> m' = m).
Proof. intros A. exact if_needed_result. Qed.
Print Assumptions C39_if_needed.

(** The queries. *)
Theorem C39_queries : forall (A : Type) (m : list (Z * A)), sorted m ->
  least (fun _ => True) (map fst m) (oldest_checkpoint m) /\
  greatest (fun _ => True) (map fst m) (newest_checkpoint m) /\
  (forall t, least (fun u => t <= u) (map fst m) (checkpoint_at_or_after t m)) /\
  (forall t, greatest (fun u => u <= t) (map fst m) (checkpoint_at_or_before t m)) /\
  exactly (fun _ => True) (map fst m) (all_checkpoints m) /\
  (forall t, exactly (fun u => u <= t) (map fst m) (all_checkpoints_at_or_before t m)) /\
  (forall t1 t2, exactly (fun u => t1 <= u <= t2) (map fst m) (all_checkpoints_between t1 t2 m)).
Proof.
  intros A m S. exact (conj (oldest_ok m S) (conj (newest_ok m S) (conj (fun t => at_or_after_ok t m S)
    (conj (fun t => at_or_before_ok t m S) (conj (all_ok m S) (conj (fun t => all_at_or_before_ok t m S)
    (fun t1 t2 => all_between_ok t1 t2 m S))))))).
Qed.
Print Assumptions C39_queries.

(** The reader is called on the message created at the designated time. *)
Theorem C39_reading : forall (A : Type) (m : list (Z * A)), sorted m ->
  designates m (oldest_checkpoint m) (ReadFromOldestCheckpoint m) /\
  designates m (newest_checkpoint m) (ReadFromNewestCheckpoint m) /\
  (forall t, designates m (checkpoint_at_or_before t m) (ReadFromCheckpointAtOrBefore t m)) /\
  (forall t a, ReadFromCheckpointAt t m = Some a <-> In (t, a) m).
Proof.
  intros A m S. exact (conj (read_oldest_ok m) (conj (read_newest_ok m) (conj (fun t => read_at_or_before_ok t m S)
    (fun t a => read_at_ok t m a S)))).
Qed.
Print Assumptions C39_reading.

Theorem C39_serialization : forall (A : Type) (m : list (Z * A)), sorted m ->
  ReadFromMessage None (WriteToMessage m) = m /\
  forall f, ReadFromMessage (Some f) (WriteToMessage m) = map (fun e => (fst e, f (snd e))) m.
Proof. intros A m S. exact (conj (round_trip m S) (fun f => round_trip_rewriter f m S)). Qed.
Print Assumptions C39_serialization.

(** Whatever the message, the map read from it is ordered and holds the first entry of the message for each time. *)
Theorem C39_deserialization : forall (A : Type) (rewriter : option (A -> A)) (message : list (Z * A)),
  sorted (ReadFromMessage rewriter message) /\
  forall t x, In (t, x) (ReadFromMessage rewriter message) <-> exists a, first_for message t a /\ x = rewritten rewriter a.
Proof. exact @read_any. Qed.
Print Assumptions C39_deserialization.

(** With a single thread the readers only see complete checkpoints and no iterator is used after invalidation. *)
Theorem C39_single_thread : forall program s, reachable [program] s ->
  result s <> UndefinedBehaviour /\ Forall (fun b => b = true) (seen s).
Proof. exact single_thread. Qed.
Print Assumptions C39_single_thread.

(** With several threads a checkpoint in the map is complete unless some thread is writing it, and remains so.  What is
    missing: that the readers do not see those that are being written. *)
Theorem C39_complete_partial : forall programs s, reachable programs s ->
  (forall t c, In (t, c) (entries (shared s)) -> nth c (messages (shared s)) false = true \/
     exists th, In th (threads s) /\ writing c th) /\
  (forall n s' c, step n s = Some s' -> nth c (messages (shared s)) false = true -> nth c (messages (shared s')) false = true).
Proof.
  intros programs s R. pose proof (reachable_invariant _ _ R) as I.
  exact (conj (inv_filled s I) (fun n s' c => filled_stays n s s' c I)).
Qed.
Print Assumptions C39_complete_partial.

(** They do see them: the checkpoint is in the map before the writer is called, and the lock is not held meanwhile. *)
Theorem C39_incomplete_refuted : exists programs s, reachable programs s /\ In false (seen s).
Proof.
  exists [[Write 1]; [ReadNewest]]. eexists. split.
  - refine (reachable_step _ _ 1 _ (reachable_step _ _ 1 _ (reachable_step _ _ 0 _ (reachable_initial _) _) _) _);
      cbn; reflexivity.
  - left. reflexivity.
Qed.
Print Assumptions C39_incomplete_refuted.

(** No iterator is used after invalidation if only one thread creates checkpoints and the others only read at the ends or
    at or before a time.  What is missing: other combinations. *)
Theorem C39_iterators_partial : forall w rs s, Forall (Forall pointer_read) rs -> reachable (w :: rs) s ->
  result s <> UndefinedBehaviour.
Proof. exact one_writer. Qed.
Print Assumptions C39_iterators_partial.

(** Two writers, or a writer and a ReadFromCheckpointAt, use an invalidated iterator, although the class is documented as
    thread-safe. *)
Theorem C39_iterators_refuted :
  (exists s, reachable [[Write 1]; [Write 2]] s /\ result s = UndefinedBehaviour) /\
  (exists s, reachable [[Write 1; ReadAt 1]; [Write 2]] s /\ result s = UndefinedBehaviour).
Proof.
  split; eexists; split.
  - refine (reachable_step _ _ 0 _ (reachable_step _ _ 1 _ (reachable_step _ _ 0 _ (reachable_initial _) _) _) _);
      cbn; reflexivity.
  - reflexivity.
  - refine (reachable_step _ _ 0 _ (reachable_step _ _ 1 _ (reachable_step _ _ 0 _ (reachable_step _ _ 0 _ (reachable_step _ _ 0 _ (reachable_step _ _ 0 _ (reachable_initial _) _) _) _) _) _) _);
      cbn; reflexivity.
  - reflexivity.
Qed.
Print Assumptions C39_iterators_refuted.

Definition example_ops : list (operation (A := Z)) :=
  [OpWrite 10 1; OpWriteIfNeeded 15 10 2; OpWriteIfNeeded 25 10 3; OpWrite 5 4; OpWriteIfNeeded 35 10 5].
Example C39_example_history : execute example_ops [] = Some [(5, 4); (10, 1); (25, 3)].
Proof. reflexivity. Qed.
Example C39_example_duplicate : execute [OpWrite 10 1; OpWrite 10 2] [] = None.
Proof. reflexivity. Qed.
Example C39_example_queries : let m := [(5, 4); (10, 1); (25, 3)] in
  sorted m /\ oldest_checkpoint m = At 5 /\ newest_checkpoint m = At 25 /\
  checkpoint_at_or_after 6 m = At 10 /\ checkpoint_at_or_after 26 m = InfiniteFuture /\
  checkpoint_at_or_before 24 m = At 10 /\ checkpoint_at_or_before 4 m = InfinitePast /\
  all_checkpoints_at_or_before 10 m = [5; 10] /\ all_checkpoints_between 6 25 m = [10; 25] /\
  ReadFromCheckpointAtOrBefore 24 m = Some 1 /\ ReadFromCheckpointAt 25 m = Some 3 /\ ReadFromCheckpointAt 24 m = None.
Proof. split; [|repeat split]. repeat (constructor; cbn; try lia). Qed.
