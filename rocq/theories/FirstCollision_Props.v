(** C94, continued: the first collision with the terrain. *)
From Coq Require Import Bool List Reals Lra Sorted.
From Verif Require Import Chebyshev_Model Chebyshev_Proofs Approximation_Model Approximation_Proofs FirstCollision_Model FirstCollision_Proofs.
Import ListNotations.
Open Scope R_scope.

(** The time returned is the first zero of the successive interpolants, and if there is none they cover the whole interval and don't vanish.  This is for a root
    finder that is exact; C59 shows that the one of the code isn't in degree 1. *)
Theorem C94_first_collision : forall height RealRoots fuel max_degree max_error min max result pieces, min < max -> (forall piece, In piece pieces -> exact_roots RealRoots (fst piece)) ->
  ComputeFirstCollision height RealRoots fuel max_degree max_error min max = Some (result, pieces) ->
  match result with
  | Some t => min <= t <= max /\ vanishes pieces t /\ forall u, vanishes pieces u -> t <= u
  | None => tiles pieces min max /\ forall u, ~ vanishes pieces u
  end.
Proof.
  intros height RealRoots fuel max_degree max_error min max result pieces Hm Hr H. unfold ComputeFirstCollision in H.
  destruct (Streaming _ _ _ _ _ _ _ _ _) as [[[b final] e] |] eqn:E; [| discriminate]. injection H as <- <-.
  destruct (Streaming_ok _ _ _ _ _ _ _ _ _ _ _ _ Hm E) as (l & reached & -> & T & L & R & _ & P & _). cbn [app] in *.
  pose proof (first_ok RealRoots l [] b min reached Hr T P) as F. unfold first_collision_time. destruct (fold_left _ l None) as [t |].
  - destruct F as (_ & B & F). split; [lra | exact F].
  - destruct F as (Hb & F). rewrite (R Hb) in T. split; [exact T | exact F].
Qed.
Print Assumptions C94_first_collision.

(** If the error estimates are bounds, the height at the time returned is at most the maximum error: an inaccurate interpolant is never used. *)
Theorem C94_height : forall height RealRoots fuel max_degree max_error min max t pieces, min < max -> (forall piece, In piece pieces -> exact_roots RealRoots (fst piece)) ->
  ComputeFirstCollision height RealRoots fuel max_degree max_error min max = Some (Some t, pieces) ->
  (forall piece u, In piece pieces -> lower_bound (fst piece) <= u <= upper_bound (fst piece) -> Rabs (height u - value (fst piece) u) <= snd piece) ->
  Rabs (height t) <= max_error.
Proof.
  intros height RealRoots fuel max_degree max_error min max t pieces Hm Hr H A.
  destruct (C94_first_collision _ _ _ _ _ _ _ _ _ Hm Hr H) as (_ & (piece & I & B & Z) & _). unfold ComputeFirstCollision in H.
  destruct (Streaming _ _ _ _ _ _ _ _ _) as [[[b final] e] |] eqn:E; [| discriminate]. injection H as _ <-.
  destruct (Streaming_ok _ _ _ _ _ _ _ _ _ _ _ _ Hm E) as (l & reached & -> & T & _ & _ & G & _). cbn [app] in *.
  destruct (tiles_bounds _ _ _ _ T I) as (_ & W & _). specialize (A piece t I B). specialize (G piece I).
  destruct (Rle_dec (snd piece) max_error) as [K | K]; [rewrite Z, Rminus_0_r in A; lra |].
  elim (inaccurate_pieces_do_not_vanish max_degree height max_error piece (value (fst piece)) W G ltac:(lra)) with (t := t); [| exact B | exact Z].
  intros u _. rewrite Rminus_diag_eq by reflexivity. rewrite Rabs_R0. pose proof (Rabs_pos (height t - value (fst piece) t)). lra.
Qed.
Print Assumptions C94_height.

(** If the error estimates are bounds, a collision that is missed is where the interpolant is within the maximum error: no collision is hidden by an inaccurate
    interpolant. *)
Theorem C94_missed : forall height RealRoots fuel max_degree max_error min max result pieces piece u, min < max ->
  ComputeFirstCollision height RealRoots fuel max_degree max_error min max = Some (result, pieces) ->
  In piece pieces -> lower_bound (fst piece) <= u <= upper_bound (fst piece) -> height u = 0 ->
  (forall t, lower_bound (fst piece) <= t <= upper_bound (fst piece) -> Rabs (height t - value (fst piece) t) <= snd piece) ->
  snd piece <= max_error /\ Rabs (value (fst piece) u) <= max_error.
Proof.
  intros height RealRoots fuel max_degree max_error min max result pieces piece u Hm H I B Z A. unfold ComputeFirstCollision in H.
  destruct (Streaming _ _ _ _ _ _ _ _ _) as [[[b final] e] |] eqn:E; [| discriminate]. injection H as _ <-.
  destruct (Streaming_ok _ _ _ _ _ _ _ _ _ _ _ _ Hm E) as (l & reached & -> & T & _ & _ & G & _). cbn [app] in *.
  destruct (tiles_bounds _ _ _ _ T I) as (_ & W & _). specialize (G piece I). destruct (Rle_dec (snd piece) max_error) as [K | K].
  - specialize (A u B). rewrite Z in A. replace (0 - value (fst piece) u) with (- value (fst piece) u) in A by ring. rewrite Rabs_Ropp in A. split; lra.
  - elim (inaccurate_pieces_do_not_vanish max_degree height max_error piece height W G ltac:(lra) A u B Z).
Qed.
Print Assumptions C94_missed.

(** A trajectory that reaches the ground at 1, between 0 and 2: the hypotheses of both theorems are satisfied, and 1 is returned. *)
Example C94_first_collision_example : let height := fun t => 1 - t in let RealRoots := fun _ => [1] in
  exists pieces, ComputeFirstCollision height RealRoots 1 1 (1 / 10) 0 2 = Some (Some 1, pieces) /\
    (forall piece, In piece pieces -> exact_roots RealRoots (fst piece)) /\
    forall piece u, In piece pieces -> lower_bound (fst piece) <= u <= upper_bound (fst piece) -> Rabs (height u - value (fst piece) u) <= snd piece.
Proof.
  cbv zeta.
  assert (I : exists s e, Interpolant 1 (fun t => 1 - t) 0 2 (1 / 10) = Some (s, e) /\ s = Series [1 / 2 * (1 - 2 + (1 - 0)); 1 / 2 * (1 - 2 - (1 - 0))] 0 2 /\ e = 0).
  { unfold Interpolant. cbn [Implementation Nat.leb andb negb]. eexists; eexists; split; [reflexivity |]. split; [reflexivity |].
    assert (H1 : cos (PI * 1 * 1 / 2) = 0) by (replace (PI * 1 * 1 / 2) with (PI / 2) by field; apply cos_PI2).
    assert (H2 : cos (PI * 1 * 2 / 2) = -1) by (replace (PI * 1 * 2 / 2) with PI by field; apply cos_PI).
    assert (H3 : cos (PI * 2 * 1 / 2) = -1) by (replace (PI * 2 * 1 / 2) with PI by field; apply cos_PI).
    assert (H4 : cos (PI * 2 * 2 / 2) = 1) by (replace (PI * 2 * 2 / 2) with (2 * PI) by field; apply cos_2PI).
    assert (H5 : cos (PI * 1 / 2) = 0) by (replace (PI * 1 / 2) with (PI / 2) by field; apply cos_PI2).
    assert (Z : cos 0 = 1) by apply cos_0.
    unfold current_error_estimate, matrix_times, function_values, InterpolationMatrix, lobatto_argument, LobattoPoint.
    cbn [seq map Nat.even Nat.div2 nth sum_f_R0 Nat.eqb orb fold_left Nat.leb INR].
    replace (1 + 1) with 2 by ring. rewrite !Rmult_0_r, ?Rmult_0_l. replace (0 / 2) with 0 by field. rewrite ?H1, ?H2, ?H3, ?H4, ?H5, ?Z.
    unfold Rabs. repeat (destruct (Rcase_abs _)); lra. }
  destruct I as (s & e & I & Es & Ee).
  assert (V : forall u, value s u = 1 - u).
  { intros u. subst s. unfold value, scaled_value, position. cbn [coefficients lower_bound upper_bound length Nat.pred sum_f_R0 nth]. rewrite T_0, T_1. field. }
  assert (B : lower_bound s = 0 /\ upper_bound s = 2) by (subst s; split; reflexivity). destruct B as [Bl Bu].
  assert (M : MayHaveRealRoots s 0 = Some true).
  { subst s. unfold MayHaveRealRoots. rewrite (proj2 (Rleb_spec 0 0)) by lra. f_equal. apply Rleb_spec. cbn. unfold Rabs. repeat (destruct (Rcase_abs _)); lra. }
  exists [(s, e)]. split; [| split].
  - unfold ComputeFirstCollision. cbn [Streaming]. destruct (Rleb (1 / 10) 0) eqn:P; [apply Rleb_spec in P; lra |]. rewrite I.
    rewrite (proj2 (Rleb_spec e (1 / 10))) by lra. cbn [orb app]. unfold first_collision_time. cbn [fold_left fst]. unfold collision_time. rewrite M. reflexivity.
  - intros piece [<- | []]. cbn [fst]. split; [repeat constructor |]. intros t. rewrite V, Bl, Bu. cbn [In]. split; [intros [<- | []]; lra | intros [_ K]; left; lra].
  - intros piece u [<- | []] _. cbn [fst snd]. rewrite V, Rminus_diag_eq by reflexivity. rewrite Rabs_R0. lra.
Qed.
