(** C60: interpolation at the Чебышёв-Lobatto points, and its adaptive subdivision. *)
From Coq Require Import Bool List Arith Reals Lra Lia.
From Verif Require Import Chebyshev_Model Chebyshev_Proofs Approximation_Model Approximation_Proofs.
Import ListNotations.
Open Scope R_scope.

(** The interpolant goes through the function at its points; its degree is as requested; the error estimate bounds its distance, over the whole interval, to
    the interpolant of twice the degree. *)
Theorem C60_interpolant : forall max_degree f a b max_error, a < b ->
  exists s e, Interpolant max_degree f a b max_error = Some (s, e) /\
  exists N, (1 <= N)%nat /\ (N <= Nat.max 1 max_degree)%nat /\ interpolates s N f a b /\
    (e <= max_error \/ (max_degree < 2 * N)%nat) /\
    exists finer, interpolates finer (2 * N) f a b /\ forall t, a <= t <= b -> Rabs (value s t - value finer t) <= e.
Proof. exact Interpolant_ok. Qed.
Print Assumptions C60_interpolant.
(** The pieces given to [stop] are consecutive from the lower bound, up to the upper bound unless one stops, and only the last may; each is a good interpolant which is accurate
    enough or must not be subdivided; the resulting error estimate is the largest of theirs. *)
Theorem C60_streaming : forall max_degree f max_error subdivide stop fuel lower upper state b final e, lower < upper ->
  Streaming fuel max_degree f max_error subdivide stop lower upper state = Some (b, final, e) ->
  exists l reached, final = state ++ l /\ tiles l lower reached /\ reached <= upper /\ (b = false -> reached = upper) /\
    (forall piece, In piece l -> good_piece max_degree f max_error subdivide piece) /\ presented stop state l b /\ largest l e.
Proof. exact Streaming_ok. Qed.
Print Assumptions C60_streaming.
Theorem C60_adaptive : forall fuel max_degree f max_error subdivide lower upper l e, lower < upper ->
  Adaptive fuel max_degree f max_error subdivide lower upper = Some (l, e) ->
  exists pieces, l = map fst pieces /\ tiles pieces lower upper /\ (forall piece, In piece pieces -> good_piece max_degree f max_error subdivide piece) /\ largest pieces e.
Proof. exact Adaptive_ok. Qed.
Print Assumptions C60_adaptive.
(** As in the search for collisions, subdividing what may have real roots: an inaccurate piece has no zeros of any function within its error estimate. *)
Theorem C60_collisions : forall max_degree f max_error piece g, lower_bound (fst piece) < upper_bound (fst piece) ->
  good_piece max_degree f max_error (fun s e => match MayHaveRealRoots s e with Some b => b | None => true end) piece -> max_error < snd piece ->
  (forall t, lower_bound (fst piece) <= t <= upper_bound (fst piece) -> Rabs (g t - value (fst piece) t) <= snd piece) ->
  forall t, lower_bound (fst piece) <= t <= upper_bound (fst piece) -> g t <> 0.
Proof. exact inaccurate_pieces_do_not_vanish. Qed.
Print Assumptions C60_collisions.

(** Example: the square over [0, 2] by a polynomial of degree 1, the chord [2 + 2 x]. *)
Lemma cos_half_turns : cos (PI * 1 * 1 / 2) = 0 /\ cos (PI * 1 * 2 / 2) = -1 /\ cos (PI * 2 * 1 / 2) = -1 /\ cos (PI * 2 * 2 / 2) = 1 /\ cos (PI * 1 / 2) = 0.
Proof.
  repeat split.
  - replace (PI * 1 * 1 / 2) with (PI / 2) by field. apply cos_PI2.
  - replace (PI * 1 * 2 / 2) with PI by field. apply cos_PI.
  - replace (PI * 2 * 1 / 2) with PI by field. apply cos_PI.
  - replace (PI * 2 * 2 / 2) with (2 * PI) by field. apply cos_2PI.
  - replace (PI * 1 / 2) with (PI / 2) by field. apply cos_PI2.
Qed.
Example example_chord : exists s e, Interpolant 1 (fun t => t * t) 0 2 (1 / 10) = Some (s, e) /\ coefficients s = [2; 2] /\ e = 1.
Proof.
  unfold Interpolant. cbn [Implementation Nat.leb andb negb]. eexists; eexists; split; [reflexivity | ]. split; [cbn [coefficients]; f_equal; [lra | f_equal; lra] | ].
  destruct cos_half_turns as (H1 & H2 & H3 & H4 & H5).
  assert (Z : cos 0 = 1) by apply cos_0.
  unfold current_error_estimate, matrix_times, function_values, InterpolationMatrix, lobatto_argument, LobattoPoint.
  cbn [seq map Nat.even Nat.div2 nth sum_f_R0 Nat.eqb orb fold_left Nat.leb INR].
  replace (1 + 1) with 2 by ring. rewrite !Rmult_0_r, ?Rmult_0_l. replace (0 / 2) with 0 by field. rewrite ?H1, ?H2, ?H3, ?H4, ?H5, ?Z.
  unfold Rabs. repeat (destruct (Rcase_abs _)); lra.
Qed.
