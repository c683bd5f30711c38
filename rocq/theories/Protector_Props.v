(** Properties C40 (protector) and C41 (clientele). *)
From Coq Require Import List Arith ZArith Bool Lia Sorted Permutation.
From Verif Require Import Protector_Model Protector_Proofs.
Import ListNotations.
Open Scope Z_scope.

(** * C40 *)

(** Every callback submitted is, exactly once, either already run, or about to be run by some thread, or delayed; the
    delayed ones are protected, so that a callback leaves the delayed state in the very critical section that unprotects
    its range; the callbacks that a thread is about to run are in time order. For all programs and schedules. *)
Theorem C40_exactly_once : forall programs s, reachable programs s ->
  Permutation (submitted s) (map fst (trace s) ++ concat (map running (threads s)) ++ callbacks (shared s)) /\
  (forall cb, In cb (callbacks (shared s)) -> ~ unprotected (fst cb) (protection_start_times (shared s))) /\
  Forall (fun th => StronglySorted (fun a b : callback => fst a <= fst b) (running th)) (threads s).
Proof. intros programs s H. destruct (reachable_invariant _ _ H) as [P _ _ D R]. exact (conj P (conj D R)). Qed.
Print Assumptions C40_exactly_once.

(** When the threads have no callback left to run, the callbacks that did not run are exactly the protected ones. *)
Theorem C40_quiescent : forall programs s, reachable programs s -> (forall th, In th (threads s) -> running th = []) ->
  Permutation (submitted s) (map fst (trace s) ++ callbacks (shared s)) /\
  forall cb, In cb (callbacks (shared s)) -> ~ unprotected (fst cb) (protection_start_times (shared s)).
Proof. exact quiescent. Qed.
Print Assumptions C40_quiescent.

Theorem C40_progress : forall s n th, nth_error (threads s) n = Some th -> running th <> [] -> exists s', step n s = Some s'.
Proof. exact progress. Qed.
Print Assumptions C40_progress.

(** A single thread runs the callbacks only while their range is unprotected. *)
Theorem C40_single_thread : forall program s, reachable [program] s ->
  Forall (fun e => unprotected (fst (fst e)) (snd e)) (trace s).
Proof. intros program s H. exact (proj2 (single_thread_invariant program s H)). Qed.
Print Assumptions C40_single_thread.

(** With several threads only the decision to run is taken while the range is unprotected. What is missing: that the
    callback itself runs while it is. *)
Theorem C40_decision_partial : forall programs s n s' th th', reachable programs s -> step n s = Some s' ->
  nth_error (threads s) n = Some th -> nth_error (threads s') n = Some th' -> running th = [] ->
  Forall (fun cb => unprotected (fst cb) (protection_start_times (shared s'))) (running th').
Proof. exact decision. Qed.
Print Assumptions C40_decision_partial.

(** It does not: the lock is released before the callback runs, and another thread may protect the range meanwhile. *)
Theorem C40_race_refuted : exists programs s cb times, reachable programs s /\ In (cb, times) (trace s) /\
  ~ unprotected (fst cb) times.
Proof.
  exists [[CallRun (10, 0%nat)]; [CallProtect 5]].
  assert (R : exists s, reachable [[CallRun (10, 0%nat)]; [CallProtect 5]] s /\ trace s = [((10, 0%nat), [5])]).
  { eexists. split.
    - refine (reachable_step _ _ 0 _ (reachable_step _ _ 1 _ (reachable_step _ _ 0 _ (reachable_initial _) _) _) _);
        cbn; reflexivity.
    - reflexivity. }
  destruct R as (s & R & E). exists s, (10, 0%nat), [5]. split; [exact R|]. split; [rewrite E; left; reflexivity|].
  intros U. apply (U 5 (or_introl eq_refl) 7); cbn; lia.
Qed.
Print Assumptions C40_race_refuted.

(** A run: two protections, three delayed callbacks and an immediate one. *)
Definition example_program : list call :=
  [CallProtect 5; CallProtect 8; CallRun (9, 1%nat); CallRun (7, 2%nat); CallRun (6, 3%nat); CallRun (4, 4%nat);
   CallUnprotect 5; CallUnprotect 8].
Fixpoint run_thread (fuel : nat) (s : state) : state :=
  match fuel with O => s | S f => match step 0 s with Some s' => run_thread f s' | None => s end end.
Example C40_example :
  rev (trace (run_thread 20 (initial [example_program]))) =
  [((4, 4%nat), [5; 8]); ((6, 3%nat), [8]); ((7, 2%nat), [8]); ((9, 1%nat), [])].
Proof. reflexivity. Qed.
Example C40_example_delayed : (* Before the last call. *)
  callbacks (shared (run_thread 9 (initial [example_program]))) = [(9, 1%nat)].
Proof. reflexivity. Qed.
Example C40_boundary : (* ]-∞, 5[ does not meet [5, +∞[. *)
  unprotected 5 [5] /\ ~ unprotected 6 [5].
Proof.
  split; [intros s [<-|[]] x X; lia|]. intros U. apply (U 5 (or_introl eq_refl) 5); lia.
Qed.

(** * C41 *)

(** The calls succeed if and only if no client leaves without having joined, and then [first] is the least live key, or
    the default key if there are none. *)
Theorem C41_first : forall d es,
  (run es (Clientele d []) <> None <-> balanced es []) /\
  forall c, run es (Clientele d []) = Some c -> least_or_default d (live es []) (first c).
Proof. exact clientele_ok. Qed.
Print Assumptions C41_first.

Theorem C41_join_leave : forall c k, StronglySorted Z.le (clients c) ->
  exists c', Leave k (Join k c) = Some c' /\ Permutation (clients c') (clients c) /\ first c' = first c.
Proof. exact join_leave. Qed.
Print Assumptions C41_join_leave.

(** RAII clients: whatever the order of construction and destruction, no CHECK fails and [first] is the least key of the
    objects alive. *)
Theorem C41_raii : forall d es, fresh es [] ->
  exists objects c, client_run es ([], Clientele d []) = Some (objects, c) /\
    Permutation (clients c) (map snd objects) /\ least_or_default d (map snd objects) (first c).
Proof.
  intros d es F. refine (raii_ok es [] [] (Clientele d []) F _ _ _ _).
  - intros x [].
  - constructor.
  - constructor.
  - constructor.
Qed.
Print Assumptions C41_raii.

(** A reference obtained from [first] is the least key as long as nobody joins or leaves. *)
Theorem C41_reference : forall c, dereference (first_reference c) c = Some (first (contents c)).
Proof.
  intros [v [d l]]. unfold first_reference, dereference, first. cbn. destruct l; [reflexivity|]. rewrite Nat.eqb_refl. reflexivity.
Qed.
Print Assumptions C41_reference.

(** But it dangles if another thread joins or leaves before it is read, although the class takes a lock for thread
    safety. *)
Theorem C41_reference_refuted : exists c key, clients (contents c) <> [] /\
  dereference (first_reference c) (counted_Join key c) = None.
Proof. exists (Counted 1 (Clientele 100 [3])), 2. split; [discriminate|reflexivity]. Qed.
Print Assumptions C41_reference_refuted.

Example C41_example :
  option_map first (run [Joins 5; Joins 3; Joins 3; Leaves 3] (Clientele 100 [])) = Some 3 /\
  option_map first (run [Joins 5; Joins 3; Joins 3; Leaves 3; Leaves 3] (Clientele 100 [])) = Some 5 /\
  option_map first (run [Joins 5; Leaves 5] (Clientele 100 [])) = Some 100 /\
  run [Joins 5; Leaves 4] (Clientele 100 []) = None.
Proof. repeat split. Qed.
Example C41_example_raii :
  option_map (fun p => first (snd p)) (client_run [Construct 1 7; Construct 2 4; Construct 3 4; Destroy 2; Destroy 1] ([], Clientele 0 [])) = Some 4.
Proof. reflexivity. Qed.
