(** Quadratic equations (C55), Hermite interpolation (C25) and downsampling (C38). *)
From Coq Require Import Reals List Bool Lra Psatz.
From Verif Require Import Geometry_Model Hermite_Model Hermite_Proofs Downsampling_Model Downsampling_Proofs.
Import ListNotations.
Open Scope R_scope.

(** ** C55 *)
Theorem C55_roots_exact : forall o a0 a1 a2 x, a1 <> 0 \/ a2 <> 0 ->
  (In (Fin x) (SolveQuadraticEquation o a0 a1 a2) <-> a0 + a1 * (x - o) + a2 * ((x - o) * (x - o)) = 0).
Proof. exact solve_quadratic_ok. Qed.
Print Assumptions C55_roots_exact.
Theorem C55_roots_increasing : forall o a0 a1 a2 x y l l', SolveQuadraticEquation o a0 a1 a2 = l ++ Fin x :: Fin y :: l' -> x < y.
Proof. exact solve_quadratic_sorted. Qed.
Print Assumptions C55_roots_increasing.
(** A nonzero constant has no root, but a NaN is returned. *)
Theorem C55_constant_refuted : exists o a0 a1 a2, (forall x, a0 + a1 * (x - o) + a2 * ((x - o) * (x - o)) <> 0) /\ SolveQuadraticEquation o a0 a1 a2 = [NaN].
Proof.
  exists 0, 1, 0, 0. split; [intros x; lra|]. unfold SolveQuadraticEquation, ediv. cbv zeta.
  destruct (Req_EM_T (0 * 0 - 4 * 1 * 0) 0) as [_|N]; [|exfalso; apply N; ring].
  destruct (Req_EM_T 0 0) as [_|N]; [|exfalso; apply N; ring]. destruct (Rlt_dec 0 (1 / 2 * 0)); [lra|]. destruct (Rlt_dec (1 / 2 * 0) 0); [lra|]. reflexivity.
Qed.
Print Assumptions C55_constant_refuted.
(** A linear equation yields an infinity and the solution. *)
Theorem C55_infinity_refuted : exists o a0 a1 a2 x, SolveQuadraticEquation o a0 a1 a2 = [NegInf; Fin x].
Proof.
  exists 0, (-3), 1, 0, 3. unfold SolveQuadraticEquation. cbv zeta.
  replace (1 * 1 - 4 * -3 * 0) with 1 by ring. destruct (Req_EM_T 1 0); [lra|]. destruct (Rlt_dec 1 0); [lra|]. destruct (Rlt_dec 0 1); [|lra]. rewrite sqrt_1.
  unfold ediv. destruct (Req_EM_T (2 * 0) 0); [|lra]. destruct (Rlt_dec 0 (- (1) - 1)); [lra|]. destruct (Rlt_dec (- (1) - 1) 0); [|lra].
  destruct (Req_EM_T (- (1) - 1) 0); [lra|]. cbn [eadd elt]. do 3 f_equal. field.
Qed.
Print Assumptions C55_infinity_refuted.
Example C55_example : forall x, In (Fin x) (SolveQuadraticEquation 1 2 (-3) 1) <-> x = 2 \/ x = 3.
Proof.
  intros x. rewrite solve_quadratic_ok by (right; lra). split; [|intros [->| ->]; ring].
  intros E. assert (E' : (x - 2) * (x - 3) = 0) by lra. apply Rmult_integral in E'. destruct E'; [left|right]; lra.
Qed.

(** ** C25 *)
Theorem C25_interpolates : forall t1 t2 x1 x2 v1 v2, t1 <> t2 ->
  let h := MakeHermite3 t1 t2 x1 x2 v1 v2 in
  evaluate h t1 = x1 /\ evaluate h t2 = x2 /\ evaluate_derivative h t1 = v1 /\ evaluate_derivative h t2 = v2 /\ lower h = t1 /\ upper h = t2.
Proof. exact interpolates. Qed.
Print Assumptions C25_interpolates.
Theorem C25_interpolates_same : forall t x v, let h := MakeHermite3 t t x x v v in evaluate h t = x /\ evaluate_derivative h t = v.
Proof. exact interpolates_same. Qed.
Print Assumptions C25_interpolates_same.
Theorem C25_derivative : forall h t, derivable_pt_lim (fun t => cx (evaluate h t)) t (cx (evaluate_derivative h t)) /\
  derivable_pt_lim (fun t => cy (evaluate h t)) t (cy (evaluate_derivative h t)) /\ derivable_pt_lim (fun t => cz (evaluate h t)) t (cz (evaluate_derivative h t)).
Proof. exact derivative_ok. Qed.
Print Assumptions C25_derivative.
Theorem C25_l2_norm : forall h, lower h <= upper h -> evaluate h (lower h) = zero3 -> evaluate_derivative h (lower h) = zero3 ->
  (forall t, lower h <= t <= upper h -> Norm (evaluate h t) <= LInfinityL2Norm h) /\
  exists t, lower h <= t <= upper h /\ Norm (evaluate h t) = LInfinityL2Norm h.
Proof. exact l2_norm. Qed.
Print Assumptions C25_l2_norm.
(** The L1 bound is a bound only for polynomials that vanish at both ends. *)
Theorem C25_l1_bound_partial : forall h t, lower h <= t <= upper h ->
  evaluate h (lower h) = zero3 -> evaluate h (upper h) = zero3 -> L1 (evaluate h t) <= LInfinityL1NormUpperBound h.
Proof. exact l1_bound. Qed.
Print Assumptions C25_l1_bound_partial.
Theorem C25_l1_bound_general : forall h t, lower h <= t <= upper h ->
  L1 (evaluate h t) <= LInfinityL1NormUpperBound h + L1 (evaluate h (lower h)) + L1 (evaluate h (upper h)).
Proof. exact l1_bound_general. Qed.
Print Assumptions C25_l1_bound_general.

(** The polynomial t -> (t - lower)^2 * b along the first axis. *)
Definition parabola (l u b : R) : hermite3 := Hermite3 l u zero3 zero3 (mk3 b 0 0) zero3.
Definition line (l u b : R) : hermite3 := Hermite3 l u zero3 (mk3 b 0 0) zero3 zero3.

Theorem C25_l1_bound_refuted : exists h t, lower h <= t <= upper h /\ LInfinityL1NormUpperBound h = 0 /\ L1 (evaluate h t) = 1.
Proof.
  exists (line 0 1 1), 1. split; [cbn; lra|]. split.
  - assert (G : forall c, (c zero3 = 0) -> max_at_extrema (split c (line 0 1 1)) = 0).
    { intros c Hc. unfold max_at_extrema, FindExtrema, split, line, SolveQuadraticEquation, ediv. cbn [slower supper s0 s1 s2 s3 lower upper h0 h1 h2 h3]. rewrite Hc. cbv zeta.
      destruct (Req_EM_T (2 * 0 * (2 * 0) - 4 * c (mk3 1 0 0) * (3 * 0)) 0) as [_|N]; [|exfalso; apply N; ring].
      destruct (Req_EM_T (3 * 0) 0) as [_|N]; [|exfalso; apply N; ring]. destruct (Rlt_dec 0 (1 / 2 * (2 * 0))); [lra|]. destruct (Rlt_dec (1 / 2 * (2 * 0)) 0); [lra|]. reflexivity. }
    unfold LInfinityL1NormUpperBound. rewrite !G by reflexivity. ring.
  - unfold L1, evaluate, line, add3, scal3, zero3. cbn [lower h0 h1 h2 h3 cx cy cz]. rewrite (Rabs_pos_eq (_ + _)) by lra.
    replace (0 + (1 - 0) * (0 + (1 - 0) * (0 + (1 - 0) * 0))) with 0 by ring. rewrite Rabs_R0. ring.
Qed.
Print Assumptions C25_l1_bound_refuted.

Lemma parabola_evaluate l u b t : evaluate (parabola l u b) t = mk3 (b * ((t - l) * (t - l))) 0 0.
Proof. unfold evaluate, parabola, add3, scal3, zero3. cbn [lower h0 h1 h2 h3 cx cy cz]. f_equal; ring. Qed.
Lemma parabola_norm l u b : l <= u -> 0 <= b -> LInfinityL2Norm (parabola l u b) = b * ((u - l) * (u - l)).
Proof.
  intros H Hb. assert (N : forall t, Norm (evaluate (parabola l u b) t) = b * ((t - l) * (t - l))).
  { intros t. rewrite parabola_evaluate. unfold Norm, Norm2. cbn [cx cy cz]. replace (_ + _ + _) with ((b * ((t - l) * (t - l))) * (b * ((t - l) * (t - l)))) by ring.
    apply sqrt_square. apply Rmult_le_pos; [exact Hb|]. apply Rle_0_sqr. }
  destruct (l2_norm (parabola l u b)) as [A (t & Ht & E)].
  - exact H.
  - rewrite parabola_evaluate. cbn [parabola lower]. unfold zero3. f_equal; ring.
  - unfold evaluate_derivative, parabola, add3, scal3, zero3. cbn [lower h0 h1 h2 h3 cx cy cz]. f_equal; ring.
  - cbn [parabola lower upper] in *. apply Rle_antisym; [|rewrite <- N; apply A; lra]. rewrite <- E, N. apply Rmult_le_compat_l; [exact Hb|]. apply Rmult_le_compat; lra.
Qed.
Example C25_example : LInfinityL2Norm (parabola 1 3 2) = 8.
Proof. rewrite parabola_norm by lra. ring. Qed.

(** ** C38 *)

(** With no save and reload, a point that was dropped is at a distance less than the tolerance of the interpolation. *)
Theorem C38_downsampling : forall b s H p, 0 <= b -> history b s H 0 -> H p -> represented b s p.
Proof. intros b s H p Hb Hh Hp. pose proof (history_represented b s H 0 p Hb Hh Hp) as R. cbn [INR] in R. rewrite Rmult_1_l in R. exact R. Qed.
Print Assumptions C38_downsampling.

(** Each save and reload adds the tolerance to the error; the property requires the bound [b]. *)
Theorem C38_reload_partial : forall b s H n p, 0 <= b -> history b s H n -> H p -> represented (INR (S n) * b) s p.
Proof. exact history_represented. Qed.
Print Assumptions C38_reload_partial.

(** The points and the interpolations are restored by a reload, but the accumulated error is not. *)
Theorem C38_reload_state : forall b s H n, history b s H n -> ReadFromMessage (WriteToMessage s) = Some (Segment (timeline s) (tolerance s) 0).
Proof. intros b s H n Hh. exact (reload_state s (inv_linked b s H n (history_inv b s H n Hh))). Qed.
Print Assumptions C38_reload_state.

(** A point of the parabola x = b t^2. *)
Definition pt (b t : R) : point := Point t (mk3 (b * (t * t)) 0 0) (mk3 (2 * b * t) 0 0).
Lemma interpolate_parabola b b' t : 0 < t -> Interpolate (pt b' 0) (pt b t) = parabola 0 t b.
Proof.
  intros Ht. unfold Interpolate, MakeHermite3, pt. cbn [ptime pposition pvelocity]. destruct (Req_EM_T (t - 0) 0); [lra|]. cbn [andb]. cbv zeta. unfold parabola, sub3, add3, scal3, zero3. cbn [cx cy cz].
  f_equal; f_equal; field; lra.
Qed.

Lemma subtract_parabola b b' t t' : t < t' -> subtract (parabola 0 t' b') (parabola 0 t b) = Some (parabola 0 t (b' - b)).
Proof.
  intros H. unfold subtract, parabola. cbn [lower upper h0 h1 h2 h3]. destruct (Req_EM_T 0 0) as [_|N]; [|exfalso; apply N; reflexivity].
  rewrite Rmin_right by lra. unfold sub3, zero3. cbn [cx cy cz]. f_equal. f_equal; f_equal; ring.
Qed.

(** Append of a point of another parabola, when there are two points. *)
Lemma append_parabola b b' t t' error er er' : 0 < t -> t < t' -> b <= b' ->
  Append (pt b' t') (Segment [Element (pt b t) (Some (parabola 0 t b, error)); Element (pt 0 0) None] (Some 1) er) =
  (if Rlt_dec (er + (b' - b) * (t * t)) 1 then
     Some (Segment [Element (pt b' t') (Some (parabola 0 t' b', er + (b' - b) * (t * t))); Element (pt 0 0) None] (Some 1) (er + (b' - b) * (t * t)))
   else AppendPoint (pt b' t') (Segment [Element (pt b t) (Some (parabola 0 t b, error)); Element (pt 0 0) None] (Some 1) er')).
Proof.
  intros Ht Ht' Hb. unfold Append. cbn [timeline last dof ptime pt tolerance interpolation]. destruct (Req_EM_T 0 t') as [E0|_]; [lra|]. destruct (Rlt_dec t t') as [_|N]; [|lra].
  rewrite interpolate_parabola by lra. rewrite subtract_parabola by assumption. cbv zeta. cbn [downsampling_error].
  rewrite parabola_norm by lra. rewrite Rminus_0_r. destruct (Rlt_dec _ 1); reflexivity.
Qed.
Lemma append_second b t er : 0 < t -> Append (pt b t) (Segment [Element (pt 0 0) None] (Some 1) er) =
  Some (Segment [Element (pt b t) (Some (parabola 0 t b, 0)); Element (pt 0 0) None] (Some 1) 0).
Proof.
  intros Ht. unfold Append, AppendPoint. cbn [timeline last dof ptime pt tolerance interpolation]. destruct (Req_EM_T 0 t); [lra|]. destruct (Rlt_dec 0 t); [|lra].
  rewrite interpolate_parabola by assumption. reflexivity.
Qed.

(** Points at the times 0, 1 (at rest at the origin), and 2; the second one is dropped, with an error of 9/10. *)
Definition saved : segment := Segment [Element (pt (9 / 10) 2) (Some (parabola 0 2 (9 / 10), 9 / 10)); Element (pt 0 0) None] (Some 1) (9 / 10).
Lemma saved_history : exists H, history 1 saved H 0 /\ H (pt 0 1).
Proof.
  eexists. split.
  - refine (history_append 1 (Segment [Element (pt 0 1) (Some (parabola 0 1 0, 0)); Element (pt 0 0) None] (Some 1) 0) _ 0 (pt (9 / 10) 2) saved _ _).
    + refine (history_append 1 (Segment [Element (pt 0 0) None] (Some 1) 0) _ 0 (pt 0 1) _ _ _).
      * refine (history_append 1 (Segment [] (Some 1) 0) _ 0 (pt 0 0) _ _ eq_refl). refine (history_set 1 new _ 0 1 _ (history_new 1) _ eq_refl). lra.
      * apply append_second. lra.
    + rewrite (append_parabola 0 (9 / 10) 1 2 0 0 0) by lra. destruct (Rlt_dec (0 + (9 / 10 - 0) * (1 * 1)) 1); [|lra]. unfold saved. do 2 f_equal; [|lra]. do 4 f_equal. lra.
  - cbn beta. left. right. split; [reflexivity|]. eexists. eexists. reflexivity.
Qed.
Definition overrun : segment := Segment [Element (pt (11 / 10) 3) (Some (parabola 0 3 (11 / 10), 8 / 10)); Element (pt 0 0) None] (Some 1) (8 / 10).
Lemma append_overrun : Append (pt (11 / 10) 3) (Segment (timeline saved) (tolerance saved) 0) = Some overrun.
Proof.
  unfold saved. cbn [timeline tolerance]. rewrite (append_parabola (9 / 10) (11 / 10) 2 3 (9 / 10) 0 0) by lra. destruct (Rlt_dec (0 + (11 / 10 - 9 / 10) * (2 * 2)) 1); [|lra]. unfold overrun. do 2 f_equal; [|lra]. do 4 f_equal. lra.
Qed.
Lemma evaluate_overrun : EvaluatePosition 1 overrun = Some (mk3 (11 / 10) 0 0).
Proof.
  unfold EvaluatePosition, overrun. cbn [timeline last lower_bound dof ptime pt]. destruct (Rle_dec 0 1); [|lra]. destruct (Rle_dec 1 3); [|lra].
  destruct (Rlt_dec 3 1); [lra|]. destruct (Rlt_dec 0 1); [|lra]. cbn [dof ptime interpolation]. rewrite parabola_evaluate. cbn [ptime pt]. destruct (Req_EM_T 3 1); [lra|]. f_equal. f_equal. ring.
Qed.
Lemma overrun_distance : 1 < Norm (sub3 (mk3 (11 / 10) 0 0) (pposition (pt 0 1))).
Proof.
  unfold Norm, Norm2, sub3, pt. cbn [pposition cx cy cz]. replace (_ + _ + _) with ((11 / 10) * (11 / 10)) by ring. rewrite sqrt_square by lra. lra.
Qed.

(** Saving and reloading at the wrong time makes the error exceed the tolerance. *)
Theorem C38_reload_refuted : exists s H p x, history 1 s H 1 /\ H p /\ EvaluatePosition (ptime p) s = Some x /\ 1 < Norm (sub3 x (pposition p)).
Proof.
  destruct saved_history as (H & Hs & Hp). exists overrun. eexists. exists (pt 0 1), (mk3 (11 / 10) 0 0). split; [|split; [|split; [exact evaluate_overrun|exact overrun_distance]]].
  - eapply history_append; [|exact append_overrun]. eapply history_reload; [exact Hs|]. exact (C38_reload_state 1 saved H 0 Hs).
  - cbn beta. left. exact Hp.
Qed.
Print Assumptions C38_reload_refuted.

(** Merging into an empty segment does not transfer the downsampling state (the error) either, and an Append has the same
    effect. *)
Theorem C38_merge_refuted : exists s H p m s' x, history 1 s H 0 /\ H p /\ Merge s new = Some m /\ downsampling_error m <> downsampling_error s /\
  (exists q, Append q m = Some s') /\ EvaluatePosition (ptime p) s' = Some x /\ 1 < Norm (sub3 x (pposition p)).
Proof.
  destruct saved_history as (H & Hs & Hp). exists saved, H, (pt 0 1). eexists. exists overrun, (mk3 (11 / 10) 0 0). split; [exact Hs|]. split; [exact Hp|]. split; [reflexivity|].
  split; [cbn; lra|]. split; [exists (pt (11 / 10) 3); exact append_overrun|]. split; [exact evaluate_overrun|exact overrun_distance].
Qed.
Print Assumptions C38_merge_refuted.

(** Without the reload, the same point is not dropped. *)
Example C38_example : Append (pt (11 / 10) 3) saved <> Some overrun /\ exists s, Append (pt (11 / 10) 3) saved = Some s /\ length (timeline s) = 3%nat.
Proof.
  unfold saved. rewrite (append_parabola (9 / 10) (11 / 10) 2 3 (9 / 10) (9 / 10) 0) by lra. destruct (Rlt_dec (9 / 10 + (11 / 10 - 9 / 10) * (2 * 2)) 1); [lra|]. unfold AppendPoint. cbn [timeline].
  split; [discriminate|]. eexists. split; reflexivity.
Qed.
