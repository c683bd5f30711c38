(** Proofs about quadratic equations and cubic Hermite interpolation. *)
From Coq Require Import Reals List Bool Lra Psatz.
From Verif Require Import Geometry_Model Hermite_Model.
Import ListNotations.
Open Scope R_scope.

(** ** Quadratic equations *)

Lemma Rsqr_pos r : r <> 0 -> 0 < r * r.
Proof. intros H. destruct (Rdichotomy _ _ H); nra. Qed.

Lemma solve_quadratic_ok o a0 a1 a2 x : a1 <> 0 \/ a2 <> 0 ->
  (In (Fin x) (SolveQuadraticEquation o a0 a1 a2) <-> a0 + a1 * (x - o) + a2 * ((x - o) * (x - o)) = 0).
Proof.
  intros Hne. unfold SolveQuadraticEquation. cbv zeta. set (D := a1 * a1 - 4 * a0 * a2).
  assert (Sq : a2 <> 0 -> (a0 + a1 * (x - o) + a2 * ((x - o) * (x - o)) = 0 <-> (2 * a2 * (x - o) + a1) * (2 * a2 * (x - o) + a1) = D)).
  { intros Ha. split; intros E; unfold D in *; [nra|]. apply (Rmult_eq_reg_l (4 * a2)); [|lra]. nra. }
  destruct (Req_EM_T D 0) as [E0|N0].
  { assert (Ha : a2 <> 0) by (intros Ha; destruct Hne as [H|H]; [|exact (H Ha)]; pose proof (Rsqr_pos a1 H); unfold D in E0; rewrite Ha in E0; lra).
    unfold ediv. destruct (Req_EM_T a2 0) as [|_]; [contradiction|]. cbn [esub In]. rewrite (Sq Ha), E0. split.
    - intros [E|[]]. injection E as <-. replace (2 * a2 * (o - 1 / 2 * a1 / a2 - o) + a1) with 0 by (field; assumption). ring.
    - intros E. left. f_equal. assert (E' : 2 * a2 * (x - o) + a1 = 0) by nra. apply (Rmult_eq_reg_l (2 * a2)); [|lra].
      replace (2 * a2 * (o - 1 / 2 * a1 / a2)) with (2 * a2 * o - a1) by (field; assumption). lra. }
  destruct (Rlt_dec D 0) as [Hn|Hp].
  { cbn [In]. split; [intros []|]. intros E. destruct (Req_EM_T a2 0) as [Ha|Ha]; [unfold D in Hn; rewrite Ha in Hn; nra|].
    apply (Sq Ha) in E. pose proof (Rle_0_sqr (2 * a2 * (x - o) + a1)) as Hq. unfold Rsqr in Hq. lra. }
  assert (HD : 0 < D) by lra. pose proof (sqrt_lt_R0 D HD) as Hs. pose proof (sqrt_sqrt D (Rlt_le _ _ HD)) as Hss. set (s := sqrt D) in *.
  set (nu := if Rlt_dec 0 a1 then - a1 - s else - a1 + s).
  assert (Hnu : nu <> 0) by (unfold nu; destruct (Rlt_dec 0 a1); lra).
  assert (Hnu2 : (nu + a1) * (nu + a1) = D) by (unfold nu; destruct (Rlt_dec 0 a1); nra).
  assert (Hnu3 : nu * nu + 2 * a1 * nu + 4 * a0 * a2 = 0) by (unfold D in Hnu2; nra).
  assert (HX : In (Fin x) (if elt (eadd o (ediv nu (2 * a2))) (eadd o (ediv (2 * a0) nu)) then [eadd o (ediv nu (2 * a2)); eadd o (ediv (2 * a0) nu)] else [eadd o (ediv (2 * a0) nu); eadd o (ediv nu (2 * a2))])
               <-> (eadd o (ediv nu (2 * a2)) = Fin x \/ eadd o (ediv (2 * a0) nu) = Fin x)) by (destruct (elt _ _); cbn [In]; tauto).
  rewrite HX. clear HX. unfold ediv at 2. destruct (Req_EM_T nu 0) as [|_]; [contradiction|]. cbn [eadd].
  unfold ediv. destruct (Req_EM_T (2 * a2) 0) as [Ha|Ha].
  - assert (Ha2 : a2 = 0) by lra. assert (Ha1 : a1 <> 0) by (destruct Hne; [assumption|contradiction]).
    assert (HI : eadd o (if Rlt_dec 0 nu then PosInf else if Rlt_dec nu 0 then NegInf else NaN) <> Fin x) by (destruct (Rlt_dec 0 nu); [|destruct (Rlt_dec nu 0)]; discriminate).
    rewrite Ha2 in *. assert (Hn1 : nu = - 2 * a1) by (apply (Rmult_eq_reg_l nu); [lra|assumption]).
    split.
    + intros [E|E]; [contradiction|]. injection E as <-. rewrite Hn1. field. assumption.
    + intros E. right. f_equal. rewrite Hn1. apply (Rmult_eq_reg_l a1); [|assumption]. replace (a1 * (o + 2 * a0 / (-2 * a1))) with (a1 * o - a0) by (field; assumption). lra.
  - assert (Ha2 : a2 <> 0) by lra. cbn [eadd]. rewrite (Sq Ha2). split.
    + intros [E|E]; injection E as <-.
      * replace (2 * a2 * (o + nu / (2 * a2) - o) + a1) with (nu + a1) by (field; assumption). exact Hnu2.
      * apply (Rmult_eq_reg_l (nu * nu)); [|nra]. replace (nu * nu * ((2 * a2 * (o + 2 * a0 / nu - o) + a1) * (2 * a2 * (o + 2 * a0 / nu - o) + a1))) with ((4 * a0 * a2 + a1 * nu) * (4 * a0 * a2 + a1 * nu)) by (field; assumption).
        replace (4 * a0 * a2) with (- (nu * nu + 2 * a1 * nu)) by lra. unfold D. replace (4 * a0 * a2) with (- (nu * nu + 2 * a1 * nu)) by lra. ring.
    + intros E. assert (Ex : (2 * a2 * (x - o) + a1 - (nu + a1)) * (2 * a2 * (x - o) + a1 + (nu + a1)) = 0) by nra.
      apply Rmult_integral in Ex. destruct Ex as [Ex|Ex].
      * left. f_equal. apply (Rmult_eq_reg_l (2 * a2)); [|assumption]. replace (2 * a2 * (o + nu / (2 * a2))) with (2 * a2 * o + nu) by (field; assumption). lra.
      * right. f_equal. apply (Rmult_eq_reg_l (2 * a2 * nu)); [|nra]. replace (2 * a2 * nu * (o + 2 * a0 / nu)) with (2 * a2 * nu * o + 4 * a0 * a2) by (field; assumption).
        replace (4 * a0 * a2) with (- (nu * nu + 2 * a1 * nu)) by lra. replace (2 * a2 * nu * x) with (nu * (2 * a2 * (x - o) + a1 + (nu + a1)) + 2 * a2 * nu * o - nu * (nu + 2 * a1)) by ring. rewrite Ex. ring.
Qed.

(** The solutions are given in increasing order. *)
Lemma solve_quadratic_sorted o a0 a1 a2 x y l l' : SolveQuadraticEquation o a0 a1 a2 = l ++ Fin x :: Fin y :: l' -> x < y.
Proof.
  unfold SolveQuadraticEquation. cbv zeta. set (D := a1 * a1 - 4 * a0 * a2).
  destruct (Req_EM_T D 0); [destruct l as [|? [|]]; discriminate|]. destruct (Rlt_dec D 0); [destruct l; discriminate|].
  assert (HD : 0 < D) by lra. pose proof (sqrt_lt_R0 D HD) as Hs. pose proof (sqrt_sqrt D (Rlt_le _ _ HD)) as Hss. set (s := sqrt D) in *.
  set (nu := if Rlt_dec 0 a1 then - a1 - s else - a1 + s).
  assert (Hnu : nu <> 0) by (unfold nu; destruct (Rlt_dec 0 a1); lra).
  assert (Hnu2 : (nu + a1) * (nu + a1) = D) by (unfold nu; destruct (Rlt_dec 0 a1); nra).
  assert (Hnu3 : nu * nu + 2 * a1 * nu + 4 * a0 * a2 = 0) by (unfold D in Hnu2; nra).
  assert (Hnu4 : nu + a1 <> 0) by (intros E; rewrite E in Hnu2; lra).
  assert (D2 : ediv (2 * a0) nu = Fin (2 * a0 / nu)) by (unfold ediv; destruct (Req_EM_T nu 0); [contradiction|reflexivity]). rewrite D2. cbn [eadd].
  unfold ediv. destruct (Req_EM_T (2 * a2) 0) as [Ha|Ha].
  { destruct (Rlt_dec 0 nu); [|destruct (Rlt_dec nu 0)]; cbn; destruct l as [|? [|? [|? l]]]; cbn; intros E; try discriminate; try (destruct l; discriminate). }
  cbn [eadd elt]. destruct (Rlt_dec (o + nu / (2 * a2)) (o + 2 * a0 / nu)) as [H|H]; destruct l as [|? [|? [|? l]]]; cbn; intros E; try discriminate; try (destruct l; discriminate); assert (Ex := f_equal (fun l => nth 0 l NaN) E); assert (Ey := f_equal (fun l => nth 1 l NaN) E); cbn in Ex, Ey; injection Ex as Ex; injection Ey as Ey; rewrite <- Ex, <- Ey.
  - exact H.
  - assert (o + nu / (2 * a2) <> o + 2 * a0 / nu); [|lra]. intros E3. clear E Ex Ey. rename E3 into E. assert (E2 : nu * nu = 4 * a0 * a2).
    { apply (Rmult_eq_reg_r (/ (2 * a2) * / nu)); [|apply Rmult_integral_contrapositive_currified; apply Rinv_neq_0_compat; assumption]. replace (nu * nu * (/ (2 * a2) * / nu)) with (nu / (2 * a2)) by (field; split; [assumption|lra]).
      replace (4 * a0 * a2 * (/ (2 * a2) * / nu)) with (2 * a0 / nu) by (field; split; [assumption|lra]). lra. }
    apply Hnu4. apply (Rmult_eq_reg_l (2 * nu)); [|lra]. nra.
Qed.

(** ** Maximum of a function that is differentiable on an interval *)
Lemma maximum_principle (f f' : R -> R) a b B : a <= b -> (forall x, derivable_pt_lim f x (f' x)) ->
  f a <= B -> f b <= B -> (forall x, a < x < b -> f' x = 0 -> f x <= B) -> forall x, a <= x <= b -> f x <= B.
Proof.
  intros Hab Hd Ha Hb Hc x Hx.
  destruct (continuity_ab_maj f a b Hab) as (m & Hm & Hi).
  { intros c _. apply derivable_continuous_pt. exists (f' c). apply Hd. }
  apply Rle_trans with (f m); [apply Hm; assumption|].
  destruct (Req_EM_T m a) as [->|Na]; [exact Ha|]. destruct (Req_EM_T m b) as [->|Nb]; [exact Hb|].
  assert (Hin : a < m < b) by lra. apply Hc; [exact Hin|].
  assert (pr : derivable_pt f m) by (exists (f' m); apply Hd).
  pose proof (deriv_maximum f a b m pr (proj1 Hin) (proj2 Hin)) as E.
  rewrite <- E; [|intros y Hy1 Hy2; apply Hm; lra]. symmetry. apply derive_pt_eq_0. apply Hd.
Qed.

Definition cubic (l a0 a1 a2 a3 t : R) : R := let d := t - l in a0 + d * (a1 + d * (a2 + d * a3)).
Definition cubic' (l a1 a2 a3 t : R) : R := let d := t - l in a1 + d * (2 * a2 + d * (3 * a3)).
Lemma cubic_derivative l a0 a1 a2 a3 t : derivable_pt_lim (cubic l a0 a1 a2 a3) t (cubic' l a1 a2 a3 t).
Proof.
  assert (Hd : derivable_pt_lim (fun t => t - l) t 1).
  { replace 1 with (1 - 0) by ring. apply (derivable_pt_lim_minus id (fct_cte l)); [apply derivable_pt_lim_id|apply derivable_pt_lim_const]. }
  assert (Hc : forall c, derivable_pt_lim (fun _ => c) t 0) by (intros c; apply (derivable_pt_lim_const c)).
  pose proof (derivable_pt_lim_mult _ _ t _ _ Hd (Hc a3)) as H1.
  pose proof (derivable_pt_lim_plus _ _ t _ _ (Hc a2) H1) as H2.
  pose proof (derivable_pt_lim_mult _ _ t _ _ Hd H2) as H3.
  pose proof (derivable_pt_lim_plus _ _ t _ _ (Hc a1) H3) as H4.
  pose proof (derivable_pt_lim_mult _ _ t _ _ Hd H4) as H5.
  pose proof (derivable_pt_lim_plus _ _ t _ _ (Hc a0) H5) as H6.
  unfold mult_fct, plus_fct in H6. unfold cubic, cubic'. cbv zeta. match type of H6 with derivable_pt_lim _ _ ?v => replace (a1 + (t - l) * (2 * a2 + (t - l) * (3 * a3))) with v; [exact H6|] end. cbv beta. ring.
Qed.

Lemma fold_max_ge (f : R -> R) l : forall m, m <= fold_left (fun max x => Rmax max (f x)) l m.
Proof. induction l as [|a l IH]; intros m; cbn; [lra|]. eapply Rle_trans; [|apply IH]. apply Rmax_l. Qed.
Lemma fold_max_in (f : R -> R) l x : In x l -> forall m, f x <= fold_left (fun max x => Rmax max (f x)) l m.
Proof.
  induction l as [|a l IH]; intros H m; [destruct H|]. cbn. destruct H as [->|H]; [|apply IH; assumption].
  eapply Rle_trans; [|apply fold_max_ge]. apply Rmax_r.
Qed.
Lemma fold_max_attained (f : R -> R) l : forall m, fold_left (fun max x => Rmax max (f x)) l m = m \/ exists x, In x l /\ f x = fold_left (fun max x => Rmax max (f x)) l m.
Proof.
  induction l as [|a l IH]; intros m; cbn; [left; reflexivity|]. destruct (IH (Rmax m (f a))) as [E|(x & Hx & E)].
  - rewrite E. unfold Rmax. destruct (Rle_dec m (f a)); [right; exists a; auto|left; reflexivity].
  - right. exists x. auto.
Qed.

Lemma in_inside (P : extended -> bool) x l : In x (flat_map finite_part (filter P l)) <-> In (Fin x) l /\ P (Fin x) = true.
Proof.
  rewrite in_flat_map. split.
  - intros (e & He & Hx). apply filter_In in He. destruct e; cbn in Hx; try contradiction. destruct Hx as [->|[]]. exact He.
  - intros [H1 H2]. exists (Fin x). split; [apply filter_In; split; assumption|left; reflexivity].
Qed.

(** ** Interpolation *)
Lemma hermite_value D x1 x2 v1 v2 : D <> 0 -> x1 + D * (v1 + D * ((1 / D * (1 / D) * (3 * (x2 - x1)) - 1 / D * (2 * v1 + v2)) + D * (1 / D * (1 / D * (1 / D)) * (-2 * (x2 - x1)) + 1 / D * (1 / D) * (v1 + v2)))) = x2.
Proof. intros H. field; assumption. Qed.
Lemma hermite_derivative D x1 x2 v1 v2 : D <> 0 -> v1 + D * (2 * (1 / D * (1 / D) * (3 * (x2 - x1)) - 1 / D * (2 * v1 + v2)) + D * (3 * (1 / D * (1 / D * (1 / D)) * (-2 * (x2 - x1)) + 1 / D * (1 / D) * (v1 + v2)))) = v2.
Proof. intros H. field; assumption. Qed.
Lemma at_lower (a b c d : R3) : add3 a (scal3 0 (add3 b (scal3 0 (add3 c (scal3 0 d))))) = a.
Proof. destruct a as [a1 a2 a3], b as [b1 b2 b3], c as [c1 c2 c3], d as [d1 d2 d3]. unfold add3, scal3. cbn [cx cy cz]. f_equal; ring. Qed.
Lemma derivative_at_lower (a b c : R3) : add3 a (scal3 0 (add3 (scal3 2 b) (scal3 0 (scal3 3 c)))) = a.
Proof. destruct a as [a1 a2 a3], b as [b1 b2 b3], c as [c1 c2 c3]. unfold add3, scal3. cbn [cx cy cz]. f_equal; ring. Qed.

Lemma interpolates t1 t2 x1 x2 v1 v2 : t1 <> t2 ->
  let h := MakeHermite3 t1 t2 x1 x2 v1 v2 in
  evaluate h t1 = x1 /\ evaluate h t2 = x2 /\ evaluate_derivative h t1 = v1 /\ evaluate_derivative h t2 = v2 /\ lower h = t1 /\ upper h = t2.
Proof.
  intros Hne h. assert (Hd : t2 - t1 <> 0) by lra. unfold h, MakeHermite3. destruct (Req_EM_T (t2 - t1) 0); [contradiction|]. cbn [andb]. cbv zeta.
  unfold evaluate, evaluate_derivative. cbn [lower upper h0 h1 h2 h3]. replace (t1 - t1) with 0 by ring. split; [apply at_lower|]. split; [|split; [apply derivative_at_lower|split; [|split; reflexivity]]].
  - destruct x1 as [xa xb xc], x2 as [ya yb yc], v1 as [ua ub uc], v2 as [va vb vc]. unfold add3, scal3, sub3. cbn [cx cy cz]. f_equal; apply hermite_value; assumption.
  - destruct x1 as [xa xb xc], x2 as [ya yb yc], v1 as [ua ub uc], v2 as [va vb vc]. unfold add3, scal3, sub3. cbn [cx cy cz]. f_equal; apply hermite_derivative; assumption.
Qed.
(** If the same point is given twice. *)
Lemma same3_refl x : same3 x x = true.
Proof. unfold same3. repeat (match goal with |- context [Req_EM_T ?a ?a] => destruct (Req_EM_T a a) as [|N]; [|exfalso; apply N; reflexivity] end). reflexivity. Qed.
Lemma interpolates_same t x v : let h := MakeHermite3 t t x x v v in evaluate h t = x /\ evaluate_derivative h t = v.
Proof.
  unfold MakeHermite3. rewrite !same3_refl. cbv zeta. destruct (Req_EM_T (t - t) 0) as [E|N]; [|exfalso; apply N; ring]. cbn [andb]. unfold evaluate, evaluate_derivative.
  cbn [lower h0 h1 h2 h3]. rewrite E. split; [apply at_lower|apply derivative_at_lower].
Qed.
(** The derivative is the derivative. *)
Lemma derivative_ok h t : derivable_pt_lim (fun t => cx (evaluate h t)) t (cx (evaluate_derivative h t)) /\
  derivable_pt_lim (fun t => cy (evaluate h t)) t (cy (evaluate_derivative h t)) /\ derivable_pt_lim (fun t => cz (evaluate h t)) t (cz (evaluate_derivative h t)).
Proof. repeat split; apply cubic_derivative. Qed.

(** ** The L1 norm *)
Lemma scalar_bound h t : slower h <= supper h -> slower h <= t <= supper h ->
  Rabs (sevaluate h t) <= Rmax (max_at_extrema h) (Rmax (Rabs (sevaluate h (slower h))) (Rabs (sevaluate h (supper h)))).
Proof.
  intros Hab Ht. set (B := Rmax _ _).
  assert (HB : 0 <= B) by (eapply Rle_trans; [apply (Rabs_pos (sevaluate h (slower h)))|]; eapply Rle_trans; [|apply Rmax_r]; apply Rmax_l).
  assert (Hsq : sevaluate h t * sevaluate h t <= B * B).
  { assert (Hle : forall x, Rabs (sevaluate h x) <= B -> sevaluate h x * sevaluate h x <= B * B).
    { intros x Hx. pose proof (Rabs_pos (sevaluate h x)). replace (sevaluate h x * sevaluate h x) with (Rabs (sevaluate h x) * Rabs (sevaluate h x)) by (rewrite <- Rabs_mult; apply Rabs_pos_eq; nra). nra. }
    apply (maximum_principle (fun x => sevaluate h x * sevaluate h x) (fun x => cubic' (slower h) (s1 h) (s2 h) (s3 h) x * sevaluate h x + sevaluate h x * cubic' (slower h) (s1 h) (s2 h) (s3 h) x) (slower h) (supper h)).
    - exact Hab.
    - intros x. apply (derivable_pt_lim_mult (sevaluate h) (sevaluate h)); apply cubic_derivative.
    - apply Hle. eapply Rle_trans; [|apply Rmax_r]. apply Rmax_l.
    - apply Hle. eapply Rle_trans; [|apply Rmax_r]. apply Rmax_r.
    - intros x Hx E. destruct (Req_EM_T (sevaluate h x) 0) as [Z|Z]; [rewrite Z; nra|].
      assert (E' : cubic' (slower h) (s1 h) (s2 h) (s3 h) x = 0) by (apply (Rmult_eq_reg_r (sevaluate h x)); [lra|assumption]).
      destruct (Req_EM_T (s2 h) 0) as [Z2|Z2], (Req_EM_T (s3 h) 0) as [Z3|Z3].
      + (* the derivative is constant, hence zero *)
        assert (s1 h = 0) by (unfold cubic' in E'; cbv zeta in E'; rewrite Z2, Z3 in E'; lra).
        apply Hle. replace (sevaluate h x) with (sevaluate h (slower h)); [eapply Rle_trans; [|apply Rmax_r]; apply Rmax_l|].
        unfold sevaluate. cbv zeta. rewrite Z2, Z3, H. ring.
      + apply Hle. eapply Rle_trans; [|apply Rmax_l]. apply (fold_max_in (fun x => Rabs (sevaluate h x))).
        unfold FindExtrema. apply in_inside. split.
        * apply solve_quadratic_ok; [right; lra|]. unfold cubic' in E'. cbv zeta in E'. lra.
        * cbn. destruct (Rle_dec (slower h) x); [|lra]. destruct (Rle_dec x (supper h)); [reflexivity|lra].
      + apply Hle. eapply Rle_trans; [|apply Rmax_l]. apply (fold_max_in (fun x => Rabs (sevaluate h x))).
        unfold FindExtrema. apply in_inside. split.
        * apply solve_quadratic_ok; [left; lra|]. unfold cubic' in E'. cbv zeta in E'. lra.
        * cbn. destruct (Rle_dec (slower h) x); [|lra]. destruct (Rle_dec x (supper h)); [reflexivity|lra].
      + apply Hle. eapply Rle_trans; [|apply Rmax_l]. apply (fold_max_in (fun x => Rabs (sevaluate h x))).
        unfold FindExtrema. apply in_inside. split.
        * apply solve_quadratic_ok; [right; lra|]. unfold cubic' in E'. cbv zeta in E'. lra.
        * cbn. destruct (Rle_dec (slower h) x); [|lra]. destruct (Rle_dec x (supper h)); [reflexivity|lra].
    - exact Ht. }
  apply Rabs_le. split; nra.
Qed.

Definition L1 (v : R3) : R := Rabs (cx v) + Rabs (cy v) + Rabs (cz v).

Lemma l1_bound h t : lower h <= t <= upper h ->
  evaluate h (lower h) = zero3 -> evaluate h (upper h) = zero3 -> L1 (evaluate h t) <= LInfinityL1NormUpperBound h.
Proof.
  intros Ht E1 E2.
  assert (G : forall c, (forall x, c (evaluate h x) = sevaluate (split c h) x) -> c zero3 = 0 -> Rabs (c (evaluate h t)) <= max_at_extrema (split c h)).
  { intros c Hc Hz. rewrite Hc. eapply Rle_trans; [apply (scalar_bound (split c h) t); cbn [split slower supper]; lra|].
    cbn [split slower supper]. rewrite <- 2!Hc, E1, E2, Hz, Rabs_R0. rewrite (Rmax_left 0 0) by lra. apply Req_le. apply Rmax_left. apply (fold_max_ge (fun x => Rabs (sevaluate (split c h) x))). }
  unfold L1, LInfinityL1NormUpperBound. pose proof (G cx (fun _ => eq_refl) eq_refl). pose proof (G cy (fun _ => eq_refl) eq_refl). pose proof (G cz (fun _ => eq_refl) eq_refl). lra.
Qed.

(** In general, only the excursions inside of the interval are accounted for. *)
Lemma l1_bound_general h t : lower h <= t <= upper h ->
  L1 (evaluate h t) <= LInfinityL1NormUpperBound h + L1 (evaluate h (lower h)) + L1 (evaluate h (upper h)).
Proof.
  intros Ht.
  assert (G : forall c, (forall x, c (evaluate h x) = sevaluate (split c h) x) -> Rabs (c (evaluate h t)) <= max_at_extrema (split c h) + Rabs (c (evaluate h (lower h))) + Rabs (c (evaluate h (upper h)))).
  { intros c Hc. rewrite !Hc. eapply Rle_trans; [apply (scalar_bound (split c h) t); cbn [split slower supper]; lra|]. cbn [split slower supper].
    pose proof (fold_max_ge (fun x => Rabs (sevaluate (split c h) x)) (FindExtrema (split c h)) 0) as Hm. change (0 <= max_at_extrema (split c h)) in Hm.
    pose proof (Rabs_pos (sevaluate (split c h) (lower h))). pose proof (Rabs_pos (sevaluate (split c h) (upper h))).
    apply Rmax_lub; [lra|]. apply Rmax_lub; lra. }
  unfold L1, LInfinityL1NormUpperBound. pose proof (G cx (fun _ => eq_refl)). pose proof (G cy (fun _ => eq_refl)). pose proof (G cz (fun _ => eq_refl)). lra.
Qed.

Lemma squares_zero a b c : a * a + b * b + c * c = 0 -> a = 0 /\ b = 0 /\ c = 0.
Proof.
  intros H. pose proof (Rle_0_sqr a). pose proof (Rle_0_sqr b). pose proof (Rle_0_sqr c). unfold Rsqr in *.
  repeat split; apply Rsqr_0_uniq; unfold Rsqr; lra.
Qed.

(** ** The L2 norm *)
Lemma l2_norm h : lower h <= upper h -> evaluate h (lower h) = zero3 -> evaluate_derivative h (lower h) = zero3 ->
  (forall t, lower h <= t <= upper h -> Norm (evaluate h t) <= LInfinityL2Norm h) /\
  exists t, lower h <= t <= upper h /\ Norm (evaluate h t) = LInfinityL2Norm h.
Proof.
  intros Hlu E0 E1.
  assert (Z0 : h0 h = zero3).
  { rewrite <- E0. unfold evaluate. cbv zeta. rewrite Rminus_diag_eq by reflexivity. destruct (h0 h). unfold add3, scal3. cbn. f_equal; ring. }
  assert (Z1 : h1 h = zero3).
  { rewrite <- E1. unfold evaluate_derivative. cbv zeta. rewrite Rminus_diag_eq by reflexivity. destruct (h1 h). unfold add3, scal3. cbn. f_equal; ring. }
  assert (N0 : forall v, 0 <= Norm2 v) by (intros v; unfold Norm2; nra).
  unfold LInfinityL2Norm. cbv zeta. set (qd1 := add3 (h3 h) (scal3 (1 / 2) (h3 h))).
  set (roots := SolveQuadraticEquation _ _ _ _). set (inside := flat_map _ _). set (M := fold_left _ _ _). split.
  - intros t Ht. unfold Norm. apply sqrt_le_1_alt.
    apply (maximum_principle (fun x => Norm2 (evaluate h x)) (fun x => 4 * ((x - lower h) * (x - lower h) * (x - lower h)) *
       (Dot (h2 h) (h2 h) + (Dot (h2 h) qd1 + Dot (h3 h) (h2 h)) * (x - lower h) + Dot (h3 h) qd1 * ((x - lower h) * (x - lower h)))) (lower h) (upper h)); [exact Hlu| | | | |exact Ht].
    + intros x.
      pose proof (derivable_pt_lim_mult _ _ x _ _ (cubic_derivative (lower h) (cx (h0 h)) (cx (h1 h)) (cx (h2 h)) (cx (h3 h)) x) (cubic_derivative (lower h) (cx (h0 h)) (cx (h1 h)) (cx (h2 h)) (cx (h3 h)) x)) as Hx.
      pose proof (derivable_pt_lim_mult _ _ x _ _ (cubic_derivative (lower h) (cy (h0 h)) (cy (h1 h)) (cy (h2 h)) (cy (h3 h)) x) (cubic_derivative (lower h) (cy (h0 h)) (cy (h1 h)) (cy (h2 h)) (cy (h3 h)) x)) as Hy.
      pose proof (derivable_pt_lim_mult _ _ x _ _ (cubic_derivative (lower h) (cz (h0 h)) (cz (h1 h)) (cz (h2 h)) (cz (h3 h)) x) (cubic_derivative (lower h) (cz (h0 h)) (cz (h1 h)) (cz (h2 h)) (cz (h3 h)) x)) as Hz.
      pose proof (derivable_pt_lim_plus _ _ x _ _ (derivable_pt_lim_plus _ _ x _ _ Hx Hy) Hz) as H. unfold plus_fct, mult_fct in H.
      match type of H with derivable_pt_lim _ _ ?v => match goal with |- derivable_pt_lim _ _ ?w => replace w with v; [exact H|] end end.
      unfold cubic, cubic', qd1, Dot, add3, scal3. cbv zeta. rewrite Z0, Z1. destruct (h2 h), (h3 h). cbn. field.
    + rewrite E0. unfold M. apply Rle_trans with (Norm2 (evaluate h (upper h))); [|apply (fold_max_ge (fun x => Norm2 (evaluate h x)))].
      replace (Norm2 zero3) with 0 by (unfold Norm2; cbn; ring). apply N0.
    + unfold M. apply (fold_max_ge (fun x => Norm2 (evaluate h x))).
    + intros x Hx E. assert (Hp : 0 < 4 * ((x - lower h) * (x - lower h) * (x - lower h))) by (pose proof (Rmult_lt_0_compat (x - lower h) (x - lower h)); nra).
      apply Rmult_integral in E. destruct E as [E|E]; [lra|].
      destruct (Req_EM_T (Dot (h3 h) qd1) 0) as [Z|Z].
      * assert (Z3 : h3 h = zero3).
        { unfold qd1, Dot, add3, scal3 in Z. destruct (h3 h) as [a b c]. cbn in Z. assert (S : a * a + b * b + c * c = 0) by lra.
          destruct (squares_zero _ _ _ S) as (-> & -> & ->). reflexivity. }
        assert (Z2 : h2 h = zero3).
        { unfold qd1 in E. rewrite Z3 in E. unfold Dot, add3, scal3 in E. destruct (h2 h) as [a b c]. cbn in E. assert (S : a * a + b * b + c * c = 0) by lra.
          destruct (squares_zero _ _ _ S) as (-> & -> & ->). reflexivity. }
        assert (Ez : evaluate h x = zero3). { unfold evaluate. cbv zeta. rewrite Z0, Z1, Z2, Z3. unfold add3, scal3, zero3. cbn. f_equal; ring. }
        rewrite Ez. replace (Norm2 zero3) with 0 by (unfold Norm2; cbn; ring). apply Rle_trans with (Norm2 (evaluate h (upper h))); [apply N0|]. unfold M. apply (fold_max_ge (fun x => Norm2 (evaluate h x))).
      * unfold M. apply (fold_max_in (fun x => Norm2 (evaluate h x))). unfold inside. apply in_inside. split.
        -- unfold roots. apply solve_quadratic_ok; [right; exact Z|]. exact E.
        -- cbn. destruct (Rlt_dec (lower h) x); [|lra]. destruct (Rlt_dec x (upper h)); [reflexivity|lra].
  - destruct (fold_max_attained (fun x => Norm2 (evaluate h x)) inside (Norm2 (evaluate h (upper h)))) as [E|(x & Hx & E)]; fold M in E.
    + exists (upper h). split; [lra|]. unfold Norm. f_equal. symmetry. exact E.
    + exists x. split; [|unfold Norm; f_equal; exact E]. unfold inside in Hx. apply in_inside in Hx. destruct Hx as [_ Hx]. cbn in Hx.
      destruct (Rlt_dec (lower h) x); [|discriminate]. destruct (Rlt_dec x (upper h)); [|discriminate]. lra.
Qed.
