(** Discrete trajectories: consistency (C34), iteration (C35), lookup (C36), forgetting (C37). *)
From Coq Require Import List Arith ZArith Bool Lia Sorted.
From Verif Require Import Trajectory_Model Trajectory_Proofs TrajectoryIterator_Proofs TrajectoryHistory_Proofs.
Import ListNotations.
Open Scope Z_scope.

(** ** C34 *)

(** Whatever the history of operations, if they return, the trajectory is consistent. *)
Theorem C34_reachable_consistent : forall x, reachable x -> consistent x.
Proof. intros x H. exact (proj1 (wf_iff x) (reachable_wf x H)). Qed.
Print Assumptions C34_reachable_consistent.

(** The check made after each operation accepts exactly the consistent trajectories (the containers of the standard
    library being sorted), so the CHECK of an operation fails if and only if the operation breaks consistency. *)
Theorem C34_check_exact : forall x, ordered x -> (ConsistencyStatus x = Done true <-> consistent x).
Proof. intros x H. rewrite <- wf_iff. exact (consistency_exact x H). Qed.
Print Assumptions C34_check_exact.

(** No CHECK fails, and nothing is undefined, under the conditions of [permitted]; the results may be operated upon
    again.  Partial: ForgetBefore must not be called with a time strictly between the last two points of a segment that
    is followed by another one, at least one of the segments detached must have a point, and a trajectory attached after
    the end must start with a segment of at least two points or have a single segment; the documentation has no such
    restrictions, see the refutations below.  Serialization is not modelled. *)
Theorem C34_no_check_fails_partial : forall o x, reachable x -> segments x <> [] -> permitted o x ->
  exists ys, run o x = Done ys /\ Forall (fun y => reachable y /\ segments y <> []) ys.
Proof. exact permitted_done. Qed.
Print Assumptions C34_no_check_fails_partial.

(** What the operations on segments do. *)
Theorem C34_delete_segments : forall x k, reachable x -> (k <= length (segments x))%nat ->
  exists y, DeleteSegments x k = Done y /\ segments y = firstn k (segments x).
Proof. intros x k H Hk. destruct (delete_segments_wf x k (reachable_wf x H) Hk) as (y & A & _ & B). eauto. Qed.
Print Assumptions C34_delete_segments.
Theorem C34_detach_segments : forall x k, reachable x -> (k <= length (segments x))%nat -> concat (skipn k (segments x)) <> [] ->
  exists y z, DetachSegments x k = Done (y, z) /\ segments y = firstn k (segments x) /\ segments z = skipn k (segments x) /\ consistent z.
Proof.
  intros x k H Hk Hn. destruct (detach_segments_wf x k (reachable_wf x H) Hk Hn) as (y & z & A & _ & W & B & C). exists y, z.
  repeat split; try assumption; apply wf_iff; assumption.
Qed.
Print Assumptions C34_detach_segments.
Theorem C34_attach_segments : forall x y, reachable x -> reachable y -> attachable (segments x) (segments y) ->
  exists z, AttachSegments x y = Done z /\ segments z = attached (segments x) (segments y).
Proof. intros x y Hx Hy H. destruct (attach_wf x y (reachable_wf x Hx) (reachable_wf y Hy) H) as (z & A & _ & B). eauto. Qed.
Print Assumptions C34_attach_segments.
Theorem C34_merge : forall x y, reachable x -> reachable y -> segments x <> [] ->
  all_separate (segments y) (segments x) -> splices (segments y) (segments x) -> chained (merged (segments y) (segments x)) ->
  exists z, Merge x y = Done z /\ segments z = merged (segments y) (segments x).
Proof. intros x y Hx Hy Hn H1 H2 H3. destruct (merge_wf x y (reachable_wf x Hx) (reachable_wf y Hy) Hn H1 H2 H3) as (z & A & _ & B). eauto. Qed.
Print Assumptions C34_merge.

(** A trajectory with the points 0, 2, 4 and, in a second segment, 4, 6, 8; the degrees of freedom are the double of the
    times. *)
Definition append_all (l : list Z) (x : result trajectory) : result trajectory := fold_left (fun x t => do x <- x; Append false (t, 2 * t) x) l x.
Definition new_segment (x : result trajectory) : result trajectory := do x <- x; NewSegment x.
Definition two_segments : result trajectory := append_all [6; 8] (new_segment (append_all [0; 2; 4] (Done new))).
Definition two_segments_value : trajectory := Trajectory [[(0, 0); (2, 4); (4, 8)]; [(4, 8); (6, 12); (8, 16)]] [(0, 0%nat); (4, 1%nat)].

Lemma append_all_reachable l : forall x y, reachable x -> append_all l (Done x) = Done y -> reachable y.
Proof.
  induction l as [|t l IH]; intros x y H E; [injection E as <-; assumption|]. unfold append_all in E. cbn [fold_left bind] in E.
  destruct (Append false (t, 2 * t) x) as [z| |] eqn:Ez.
  - apply (IH z); [exact (reach_append _ _ _ _ H Ez)|exact E].
  - exfalso. clear - E. induction l; [discriminate|]. apply IHl. exact E.
  - exfalso. clear - E. induction l; [discriminate|]. apply IHl. exact E.
Qed.

Example two_segments_ok : two_segments = Done two_segments_value. Proof. vm_compute. reflexivity. Qed.
Lemma two_segments_reachable : reachable two_segments_value.
Proof.
  pose (a := Trajectory [[(0, 0); (2, 4); (4, 8)]] [(0, 0%nat)]). pose (b := Trajectory [[(0, 0); (2, 4); (4, 8)]; [(4, 8)]] [(0, 0%nat); (4, 1%nat)]).
  assert (reachable a) by (apply (append_all_reachable [0; 2; 4] new); [apply reach_new|vm_compute; reflexivity]).
  assert (reachable b) by (apply (reach_new_segment a); [assumption|vm_compute; reflexivity]).
  apply (append_all_reachable [6; 8] b); [assumption|vm_compute; reflexivity].
Qed.

Example C34_example_forget_before : ForgetBefore 2 two_segments_value =
  Done (Trajectory [[(2, 4); (4, 8)]; [(4, 8); (6, 12); (8, 16)]] [(2, 0%nat); (4, 1%nat)]).
Proof. vm_compute. reflexivity. Qed.
Example C34_example_attach : exists z, AttachSegments two_segments_value (Trajectory [[(10, 0); (12, 1)]] [(10, 0%nat)]) = Done z /\
  nth_error (segments z) 2 = Some [(8, 16); (10, 0); (12, 1)] /\ left z = [(0, 0%nat); (4, 1%nat); (8, 2%nat)].
Proof. eexists. repeat split; vm_compute; reflexivity. Qed.
Example C34_example_detach : DetachSegments two_segments_value 1 =
  Done (Trajectory [[(0, 0); (2, 4); (4, 8)]] [(0, 0%nat)], Trajectory [[(4, 8); (6, 12); (8, 16)]] [(4, 0%nat)]).
Proof. vm_compute. reflexivity. Qed.

(** ForgetBefore with a time between the last two points of the first segment fails a CHECK. *)
Theorem C34_forget_before_refuted : exists x t, reachable x /\ segments x <> [] /\ ForgetBefore t x = Crash.
Proof. exists two_segments_value, 3. split; [exact two_segments_reachable|]. split; [discriminate|vm_compute; reflexivity]. Qed.
Print Assumptions C34_forget_before_refuted.

(** AttachSegments fails a CHECK when given a nonempty trajectory that is entirely in the future, but whose first segment has
    one point. *)
Theorem C34_attach_refuted : exists x y b f, reachable x /\ reachable y /\ trajectory_back x = Done b /\ trajectory_front y = Done f /\ fst b < fst f /\
  AttachSegments x y = Crash.
Proof.
  exists two_segments_value. eexists (Trajectory [[(10, 20)]; [(10, 20); (12, 24)]] [(10, 1%nat)]), (8, 16), (10, 20). split; [exact two_segments_reachable|]. split.
  - pose (a := Trajectory [[(10, 20)]] [(10, 0%nat)]). assert (reachable a) by (apply (append_all_reachable [10] new); [apply reach_new|vm_compute; reflexivity]).
    pose (b := Trajectory [[(10, 20)]; [(10, 20)]] [(10, 1%nat)]). assert (reachable b) by (apply (reach_new_segment a); [assumption|vm_compute; reflexivity]).
    apply (append_all_reachable [12] b); [assumption|vm_compute; reflexivity].
  - repeat split; vm_compute; reflexivity.
Qed.
Print Assumptions C34_attach_refuted.

(** DetachSegments fails a CHECK on segments which are all empty, although the trajectory is consistent. *)
Theorem C34_detach_refuted : exists x, reachable x /\ length (segments x) = 2%nat /\ DetachSegments x 1 = Crash.
Proof.
  exists (Trajectory [[]; []] []). split; [apply (reach_new_segment new); [apply reach_new|vm_compute; reflexivity]|]. split; [reflexivity|vm_compute; reflexivity].
Qed.
Print Assumptions C34_detach_refuted.

(** Detaching or deleting all the segments leaves a trajectory on which NewSegment, clear and Append are undefined. *)
Theorem C34_no_segment_refuted : exists x, reachable x /\ NewSegment x = UB /\ clear x = UB /\ forall b p, Append b p x = UB.
Proof.
  exists (Trajectory [] []). split; [apply (reach_delete two_segments_value 0); [exact two_segments_reachable|vm_compute; reflexivity]|].
  repeat split; vm_compute; reflexivity.
Qed.
Print Assumptions C34_no_segment_refuted.

(** ** C35: [denotes segs P it n] says that [it] is at the point number [n] of the ordered list [P] of the points. *)

Theorem C35_points_exist_unique : forall x, reachable x -> exists P, points_of (segments x) P /\ forall Q, points_of (segments x) Q -> Q = P.
Proof.
  intros x H. destruct (reachable_wf x H) as [Hc _]. exists (points (segments x)). split; [exact (points_ok _ Hc)|]. intros Q HQ. exact (points_unique _ _ Hc HQ).
Qed.
Print Assumptions C35_points_exist_unique.

Theorem C35_begin : forall x P, reachable x -> points_of (segments x) P -> exists it, begin x = Done it /\ denotes (segments x) P it 0.
Proof. intros x P H. exact (begin_ok x P (reachable_wf x H)). Qed.
Print Assumptions C35_begin.

Theorem C35_increment : forall x P it n, reachable x -> points_of (segments x) P -> denotes (segments x) P it n -> (n < length P)%nat ->
  exists it', increment (segments x) it = Done it' /\ denotes (segments x) P it' (S n).
Proof. intros x P it n H. exact (increment_ok _ P it n (proj1 (reachable_wf x H))). Qed.
Print Assumptions C35_increment.

Theorem C35_decrement : forall x P it n, reachable x -> points_of (segments x) P -> denotes (segments x) P it (S n) ->
  exists it', decrement (segments x) it = Done it' /\ denotes (segments x) P it' n.
Proof. intros x P it n H. exact (decrement_ok _ P it n (proj1 (reachable_wf x H))). Qed.
Print Assumptions C35_decrement.

Theorem C35_advance : forall x P it n m, reachable x -> points_of (segments x) P -> denotes (segments x) P it n -> (n + m <= length P)%nat ->
  exists it', advance (segments x) m it = Done it' /\ denotes (segments x) P it' (n + m).
Proof. intros x P it n m H. exact (advance_ok _ P it n m (proj1 (reachable_wf x H))). Qed.
Print Assumptions C35_advance.

Theorem C35_retreat : forall x P it n m, reachable x -> points_of (segments x) P -> denotes (segments x) P it n -> (m <= n)%nat ->
  exists it', retreat (segments x) m it = Done it' /\ denotes (segments x) P it' (n - m).
Proof. intros x P it n m H. exact (retreat_ok _ P it n m (proj1 (reachable_wf x H))). Qed.
Print Assumptions C35_retreat.

Theorem C35_distance : forall x P l r n m, reachable x -> points_of (segments x) P -> denotes (segments x) P l n -> denotes (segments x) P r m -> (m <= n)%nat ->
  distance (segments x) l r = Done (n - m)%nat.
Proof. intros x P l r n m H. exact (distance_ok _ P l r n m (proj1 (reachable_wf x H))). Qed.
Print Assumptions C35_distance.

Theorem C35_equality : forall x P a b n m, reachable x -> points_of (segments x) P -> denotes (segments x) P a n -> denotes (segments x) P b m ->
  iterator_eq (segments x) a b = Done (n =? m)%nat.
Proof. intros x P a b n m H. exact (iterator_eq_ok _ P a b n m). Qed.
Print Assumptions C35_equality.

Theorem C35_size : forall x P, reachable x -> points_of (segments x) P -> size x = Z.of_nat (length P).
Proof. intros x P H. exact (size_ok x P (reachable_wf x H)). Qed.
Print Assumptions C35_size.

Example C35_example : points_of (segments two_segments_value) [(0, 0); (2, 4); (4, 8); (6, 12); (8, 16)] /\ size two_segments_value = 5 /\
  increment (segments two_segments_value) (At 0 1) = Done (At 0 2) /\ increment (segments two_segments_value) (At 0 2) = Done (At 1 1) /\
  increment (segments two_segments_value) (At 1 2) = Done End /\ decrement (segments two_segments_value) (At 1 1) = Done (At 1 0) /\
  decrement (segments two_segments_value) (At 1 0) = Done (At 0 1) /\ advance (segments two_segments_value) 4 (At 0 1) = Done End /\
  distance (segments two_segments_value) End (At 0 0) = Done 5%nat.
Proof.
  split; [split; [repeat constructor|]|repeat split; vm_compute; reflexivity].
  intros q. cbn. tauto.
Qed.

(** ** C36 *)

Theorem C36_find : forall x P t, reachable x -> points_of (segments x) P ->
  exists it, trajectory_find t x = Done it /\
    ((exists n p, nth_error P n = Some p /\ fst p = t /\ denotes (segments x) P it n) \/ ((forall p, In p P -> fst p <> t) /\ it = End)).
Proof. intros x P t H. exact (find_ok x P t (reachable_wf x H)). Qed.
Print Assumptions C36_find.

Theorem C36_lower_bound : forall x P t, reachable x -> points_of (segments x) P ->
  exists it, trajectory_lower_bound t x = Done it /\ denotes (segments x) P it (length (filter (fun q => fst q <? t) P)).
Proof. intros x P t H. exact (lower_bound_ok x P t (reachable_wf x H)). Qed.
Print Assumptions C36_lower_bound.

Theorem C36_upper_bound : forall x P t, reachable x -> points_of (segments x) P ->
  exists it, trajectory_upper_bound t x = Done it /\ denotes (segments x) P it (length (filter (fun q => fst q <=? t) P)).
Proof. intros x P t H. exact (upper_bound_ok x P t (reachable_wf x H)). Qed.
Print Assumptions C36_upper_bound.

Theorem C36_t_min : forall x P, reachable x -> points_of (segments x) P -> t_min x = Done (match P with [] => None | p :: _ => Some (fst p) end).
Proof. intros x P H. exact (t_min_ok x P (reachable_wf x H)). Qed.
Print Assumptions C36_t_min.
Theorem C36_t_max : forall x P, reachable x -> points_of (segments x) P -> t_max x = Done (match rev P with [] => None | p :: _ => Some (fst p) end).
Proof. intros x P H. exact (t_max_ok x P (reachable_wf x H)). Qed.
Print Assumptions C36_t_max.

Example C36_example : trajectory_find 4 two_segments_value = Done (At 1 0) /\ trajectory_find 5 two_segments_value = Done End /\
  trajectory_lower_bound 3 two_segments_value = Done (At 0 2) /\ trajectory_upper_bound 4 two_segments_value = Done (At 1 1) /\
  trajectory_upper_bound 8 two_segments_value = Done End /\ trajectory_lower_bound (-1) two_segments_value = Done (At 0 0).
Proof. repeat split; vm_compute; reflexivity. Qed.

(** ** C37 *)

Theorem C37_forget_before : forall t x y, reachable x -> ForgetBefore t x = Done y ->
  forall q, In q (concat (segments y)) <-> In q (concat (segments x)) /\ t <= fst q.
Proof. intros t x y H. exact (forget_before_points t x y (reachable_wf x H)). Qed.
Print Assumptions C37_forget_before.

(** What ForgetAfter keeps: the points before [t], and the point at [t] if it is a junction and the segment that ends
    there has several points. *)
Theorem C37_forget_after_exact : forall t x, reachable x -> segments x <> [] ->
  exists y, ForgetAfter t x = Done y /\
    forall q, In q (concat (segments y)) <-> In q (concat (segments x)) /\ (fst q < t \/ fst q = t /\ junction_at t (segments x)).
Proof. intros t x H Hne. destruct (forget_after_points t x (reachable_wf x H) Hne) as (y & A & _ & B). eauto. Qed.
Print Assumptions C37_forget_after_exact.

(** The documented behaviour, but not at a junction. *)
Theorem C37_forget_after_partial : forall t x, reachable x -> segments x <> [] -> ~ junction_at t (segments x) ->
  exists y, ForgetAfter t x = Done y /\ forall q, In q (concat (segments y)) <-> In q (concat (segments x)) /\ fst q < t.
Proof.
  intros t x H Hne J. destruct (forget_after_points t x (reachable_wf x H) Hne) as (y & A & _ & B). exists y. split; [exact A|].
  intros q. rewrite B. tauto.
Qed.
Print Assumptions C37_forget_after_partial.

Theorem C37_forget_after_refuted : exists x y t q, reachable x /\ ForgetAfter t x = Done y /\ In q (concat (segments y)) /\ t <= fst q.
Proof.
  exists two_segments_value, (Trajectory [[(0, 0); (2, 4); (4, 8)]] [(0, 0%nat)]), 4, (4, 8). split; [exact two_segments_reachable|]. split; [vm_compute; reflexivity|].
  split; [cbn; tauto|cbn; lia].
Qed.
Print Assumptions C37_forget_after_refuted.

Example C37_example : ForgetAfter 3 two_segments_value = Done (Trajectory [[(0, 0); (2, 4)]] [(0, 0%nat)]) /\
  ForgetAfter 5 two_segments_value = Done (Trajectory [[(0, 0); (2, 4); (4, 8)]; [(4, 8)]] [(0, 0%nat); (4, 1%nat)]) /\
  ForgetBefore 4 two_segments_value = Done (Trajectory [[(4, 8)]; [(4, 8); (6, 12); (8, 16)]] [(4, 1%nat)]).
Proof. repeat split; vm_compute; reflexivity. Qed.
