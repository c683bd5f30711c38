(** Proofs for conformal maps, affine maps, rigid motions and barycentres. *)
From Coq Require Import Reals List ZArith Bool Lra Lia Permutation.
From Verif Require Import Geometry_Model Geometry_Proofs.
Import ListNotations.
Open Scope R_scope.

(** * Conformal maps *)
Lemma scal3_one v : scal3 1 v = v.
Proof. d3. red_all. apply mk3_eq; ring. Qed.
Lemma conf_eq d c v : conf_vector d c v = scal3 (scale c) (orth_vector d (quat c) v).
Proof. reflexivity. Qed.
Lemma orth_scal d q a v : orth_vector d q (scal3 a v) = scal3 a (orth_vector d q v).
Proof. rewrite !orth_vector_eq, rotate_scal. destruct (rotate q v), d; cbn; red_all; try reflexivity; apply mk3_eq; ring. Qed.
Lemma orth_add d q u v : orth_vector d q (add3 u v) = add3 (orth_vector d q u) (orth_vector d q v).
Proof. rewrite !orth_vector_eq, rotate_add. destruct (rotate q u), (rotate q v), d; cbn; red_all; try reflexivity; apply mk3_eq; ring. Qed.
Lemma orth_sub d q u v : orth_vector d q (sub3 u v) = sub3 (orth_vector d q u) (orth_vector d q v).
Proof. rewrite !orth_vector_eq, rotate_sub. destruct (rotate q u), (rotate q v), d; cbn; red_all; try reflexivity; apply mk3_eq; ring. Qed.
Lemma scal_scal a b v : scal3 a (scal3 b v) = scal3 (a * b) v.
Proof. d3. red_all. apply mk3_eq; ring. Qed.
Lemma scal_sub a u v : scal3 a (sub3 u v) = sub3 (scal3 a u) (scal3 a v).
Proof. d3. red_all. apply mk3_eq; ring. Qed.
Lemma qinverse_unit q : unit_q q -> QInverse q = Conjugate q.
Proof.
  intros U. unfold QInverse. replace (re q * re q + Dot (im q) (im q)) with 1 by (unfold unit_q in U; unfold Dot; lra).
  unfold Qdivr, div3. destruct (Conjugate q) as [w [x y z]]. cbn. f_equal; [field|]. apply mk3_eq; field.
Qed.
Lemma conf_mul dl dr l r v : unit_q (quat l) -> unit_q (quat r) ->
  conf_vector (xorb dl dr) (ConfMul l r) v = conf_vector dl l (conf_vector dr r v).
Proof.
  intros L R. rewrite !conf_eq. unfold ConfMul. cbn [scale quat]. change (Qmult (quat l) (quat r)) with (OrthMul (quat l) (quat r)).
  rewrite orth_mul, orth_scal, scal_scal by auto. reflexivity.
Qed.
Lemma conf_inv d c v : unit_q (quat c) -> scale c <> 0 ->
  conf_vector d (ConfInverse c) (conf_vector d c v) = v /\ conf_vector d c (conf_vector d (ConfInverse c) v) = v.
Proof.
  intros U S. rewrite !conf_eq. unfold ConfInverse. cbn [scale quat]. rewrite qinverse_unit by auto.
  rewrite !orth_scal, !scal_scal. fold (OrthInverse (quat c)). rewrite orth_inv, orth_inv' by auto.
  replace (1 / scale c * scale c) with 1 by (field; auto). replace (scale c * (1 / scale c)) with 1 by (field; auto).
  now rewrite scal3_one.
Qed.
Lemma conf_det d c : unit_q (quat c) -> has_determinant (conf_vector d c) (sgn d * scale c ^ 3).
Proof.
  intros U u v w. rewrite !conf_eq. pose proof (orth_det d (quat c) U u v w) as H.
  transitivity (scale c ^ 3 * volume (orth_vector d (quat c) u) (orth_vector d (quat c) v) (orth_vector d (quat c) w)).
  - destruct (orth_vector d (quat c) u), (orth_vector d (quat c) v), (orth_vector d (quat c) w). red_all. ring.
  - rewrite H. ring.
Qed.

(** * Affine maps *)
Lemma aff_mul dl dr l r p : unit_q (linear l) -> unit_q (linear r) ->
  aff (xorb dl dr) (AffMul dl l r) p = aff dl l (aff dr r p).
Proof.
  intros L R. unfold aff, AffMul. cbn [from_origin to_origin linear]. rewrite orth_mul by auto.
  rewrite !orth_sub, orth_add, !orth_sub.
  set (a := orth_vector dl (linear l) (orth_vector dr (linear r) p)).
  set (b := orth_vector dl (linear l) (orth_vector dr (linear r) (from_origin r))).
  set (c := orth_vector dl (linear l) (to_origin r)). set (e := orth_vector dl (linear l) (from_origin l)).
  clearbody a b c e. generalize (to_origin l). intros t. clear. d3. red_all. apply mk3_eq; ring.
Qed.
Lemma add_sub_cancel u v : sub3 (add3 u v) v = u.
Proof. d3. red_all. apply mk3_eq; ring. Qed.
Lemma sub_add_cancel u v : add3 (sub3 u v) v = u.
Proof. d3. red_all. apply mk3_eq; ring. Qed.
Lemma aff_inv d f p : unit_q (linear f) -> aff d (AffInverse f) (aff d f p) = p /\ aff d f (aff d (AffInverse f) p) = p.
Proof.
  intros U. unfold aff, AffInverse. cbn [from_origin to_origin linear]. rewrite !add_sub_cancel.
  rewrite orth_inv, orth_inv' by auto. now rewrite !sub_add_cancel.
Qed.
Lemma sub_add_add a b c : sub3 (add3 a c) (add3 b c) = sub3 a b.
Proof. d3. red_all. apply mk3_eq; ring. Qed.
Lemma sub_sub_sub a b c : sub3 (sub3 a c) (sub3 b c) = sub3 a b.
Proof. d3. red_all. apply mk3_eq; ring. Qed.
Lemma aff_linear d f p q : sub3 (aff d f p) (aff d f q) = orth_vector d (linear f) (sub3 p q).
Proof. unfold aff. now rewrite sub_add_add, <- orth_sub, sub_sub_sub. Qed.
Lemma aff_origin d f : unit_q (linear f) -> aff d f (from_origin f) = to_origin f.
Proof.
  intros _. unfold aff. rewrite orth_sub. generalize (orth_vector d (linear f) (from_origin f)), (to_origin f). clear.
  intros. d3. red_all. apply mk3_eq; ring.
Qed.

Lemma conf_sub d c u v : conf_vector d c (sub3 u v) = sub3 (conf_vector d c u) (conf_vector d c v).
Proof. rewrite !conf_eq, orth_sub, scal_sub. reflexivity. Qed.
Lemma conf_add d c u v : conf_vector d c (add3 u v) = add3 (conf_vector d c u) (conf_vector d c v).
Proof. rewrite !conf_eq, orth_add. generalize (orth_vector d (quat c) u), (orth_vector d (quat c) v). intros. d3. red_all. apply mk3_eq; ring. Qed.
Lemma sim_mul dl dr l r p : unit_q (quat (slinear l)) -> unit_q (quat (slinear r)) ->
  sim (xorb dl dr) (SimMul dl l r) p = sim dl l (sim dr r p).
Proof.
  intros L R. unfold sim, SimMul. cbn [sfrom sto slinear]. rewrite conf_mul by auto.
  rewrite !conf_sub, conf_add, !conf_sub.
  generalize (conf_vector dl (slinear l) (conf_vector dr (slinear r) p)),
    (conf_vector dl (slinear l) (conf_vector dr (slinear r) (sfrom r))), (conf_vector dl (slinear l) (sto r)),
    (conf_vector dl (slinear l) (sfrom l)), (sto l). clear. intros. d3. red_all. apply mk3_eq; ring.
Qed.
Lemma sim_inv d f p : unit_q (quat (slinear f)) -> scale (slinear f) <> 0 ->
  sim d (SimInverse f) (sim d f p) = p /\ sim d f (sim d (SimInverse f) p) = p.
Proof.
  intros U S. unfold sim, SimInverse. cbn [sfrom sto slinear]. rewrite !add_sub_cancel.
  destruct (conf_inv d (slinear f) (sub3 p (sfrom f)) U S) as [-> _].
  destruct (conf_inv d (slinear f) (sub3 p (sto f)) U S) as [_ ->]. now rewrite !sub_add_cancel.
Qed.
Lemma sim_linear d f p q : sub3 (sim d f p) (sim d f q) = conf_vector d (slinear f) (sub3 p q).
Proof. unfold sim. now rewrite sub_add_add, <- conf_sub, sub_sub_sub. Qed.

(** * Rigid motions *)
Lemma orth_cross' d q w u : unit_q q ->
  orth_vector d q (Cross w u) = Cross (orth_bivector d q w) (orth_vector d q u).
Proof.
  intros U. rewrite orth_bivector_eq, !orth_vector_eq, <- rotate_cross by auto.
  destruct (rotate q w), (rotate q u), d; cbn; red_all; try reflexivity; apply mk3_eq; ring.
Qed.
Lemma orth_bi_mul dl dr l r v : unit_q l -> unit_q r ->
  orth_bivector (xorb dl dr) (OrthMul l r) v = orth_bivector dl l (orth_bivector dr r v).
Proof. intros. rewrite !orth_bivector_eq. now apply rotate_mul. Qed.
Lemma orth_bi_inv' d d' q v : unit_q q -> orth_bivector d q (orth_bivector d' (OrthInverse q) v) = v.
Proof. intros. rewrite !orth_bivector_eq. now apply rotate_inv'. Qed.
Lemma orth_bi_inv d d' q v : unit_q q -> orth_bivector d (OrthInverse q) (orth_bivector d' q v) = v.
Proof. intros. rewrite !orth_bivector_eq. now apply rotate_inv. Qed.

Definition rm_valid (m : RigidMotion) := unit_q (linear (rt m)).

(** The velocity part, with the inverse transformation expanded. *)
Lemma rm_apply_eq d m p v : rm_valid m ->
  rm_apply d m (p, v) =
  (aff d (rt m) p,
   sub3 (sub3 (orth_vector d (linear (rt m)) v) (orth_vector d (linear (rt m)) (vel m)))
        (Cross (orth_bivector d (linear (rt m)) (omega m)) (aff d (rt m) p))).
Proof.
  intros U. unfold rm_apply. rewrite orth_sub, orth_sub. rewrite orth_cross' by auto.
  rewrite <- (aff_linear d (rt m) p). destruct (aff_inv d (rt m) zero3 U) as [_ ->].
  replace (sub3 (aff d (rt m) p) zero3) with (aff d (rt m) p); [reflexivity|].
  destruct (aff d (rt m) p). red_all. apply mk3_eq; ring.
Qed.

Lemma orth_opp_bi d q v : orth_bivector d q (opp3 v) = opp3 (orth_bivector d q v).
Proof. rewrite !orth_bivector_eq. apply rotate_opp. Qed.
Lemma orth_zero d q : orth_vector d q zero3 = zero3.
Proof. rewrite orth_vector_eq. dq. destruct d; unfold smul3; red_all; apply mk3_eq; ring. Qed.
Lemma orth_bi_add d q u v : orth_bivector d q (add3 u v) = add3 (orth_bivector d q u) (orth_bivector d q v).
Proof. rewrite !orth_bivector_eq. apply rotate_add. Qed.

Lemma rm_inv d m dof : rm_valid m ->
  rm_apply d (RMInverse d m) (rm_apply d m dof) = dof /\ rm_apply d m (rm_apply d (RMInverse d m) dof) = dof.
Proof.
  intros U. assert (UI : rm_valid (RMInverse d m)) by (unfold rm_valid, RMInverse; cbn; now apply unit_conj).
  destruct dof as [p v].
  split.
  - rewrite rm_apply_eq by auto. rewrite rm_apply_eq by auto. unfold RMInverse. cbn [rt omega vel linear AffInverse].
    destruct (aff_inv d (rt m) p U) as [E _]. unfold AffInverse in E at 1. unfold AffInverse. rewrite E. f_equal.
    rewrite rm_apply_eq by auto. cbn [snd].
    rewrite !orth_sub, !orth_zero. rewrite orth_opp_bi, orth_bi_inv by auto. rewrite !orth_inv by auto.
    rewrite !orth_cross' by now apply unit_conj. rewrite !orth_bi_inv by auto.
    pose proof (aff_linear d (rt m) p zero3) as L. apply (f_equal (orth_vector d (OrthInverse (linear (rt m))))) in L.
    rewrite orth_inv in L by auto. rewrite orth_sub in L.
    set (a := orth_vector d (OrthInverse (linear (rt m))) (aff d (rt m) p)) in *.
    set (b := orth_vector d (OrthInverse (linear (rt m))) (aff d (rt m) zero3)) in *.
    assert (E2 : a = add3 b p) by (clear -L; clearbody a b; d3; red_all; injection L; intros; apply mk3_eq; lra).
    rewrite E2. generalize (omega m), (vel m). clear. clearbody b. intros. d3. red_all. apply mk3_eq; ring.
  - rewrite rm_apply_eq by auto. rewrite rm_apply_eq by auto. unfold RMInverse. cbn [rt omega vel linear AffInverse].
    destruct (aff_inv d (rt m) p U) as [_ E]. unfold AffInverse in E at 1. unfold AffInverse. rewrite E. f_equal.
    rewrite rm_apply_eq by auto. cbn [snd].
    rewrite !orth_sub, !orth_zero. rewrite !orth_inv' by auto. rewrite !orth_opp_bi, orth_bi_inv by auto.
    rewrite !orth_cross' by auto. rewrite orth_opp_bi.
    pose proof (aff_linear d (AffInverse (rt m)) p (aff d (rt m) zero3)) as L.
    apply (f_equal (orth_vector d (linear (rt m)))) in L. unfold AffInverse in L at 3. cbn [linear] in L.
    rewrite orth_inv' in L by auto. destruct (aff_inv d (rt m) zero3 U) as [Z _]. rewrite Z in L. rewrite orth_sub, orth_zero in L.
    unfold AffInverse in L.
    set (a := orth_vector d (linear (rt m)) _) in *.
    assert (E2 : a = sub3 p (aff d (rt m) zero3)) by (clear -L; clearbody a; destruct (aff d (rt m) zero3); d3; red_all; injection L; intros; apply mk3_eq; lra).
    rewrite E2. generalize (orth_bivector d (linear (rt m)) (omega m)), (orth_vector d (linear (rt m)) (vel m)), (aff d (rt m) zero3).
    clear. intros. d3. red_all. apply mk3_eq; ring.
Qed.

Lemma rm_mul dl dr l r dof : rm_valid l -> rm_valid r ->
  rm_apply (xorb dl dr) (RMMul dl dr l r) dof = rm_apply dl l (rm_apply dr r dof).
Proof.
  intros L R. destruct dof as [p v].
  assert (V : rm_valid (RMMul dl dr l r)) by (unfold rm_valid, RMMul; cbn; now apply unit_mul).
  (* The velocity of the origin of the final frame. *)
  assert (O : rm_apply dl l (rm_apply dr r (rm_apply dr (RMInverse dr r) (rm_apply dl (RMInverse dl l) (zero3, zero3)))) = (zero3, zero3)).
  { destruct (rm_inv dr r (rm_apply dl (RMInverse dl l) (zero3, zero3)) R) as [_ ->]. now destruct (rm_inv dl l (zero3, zero3) L) as [_ ->]. }
  set (o := rm_apply dr (RMInverse dr r) (rm_apply dl (RMInverse dl l) (zero3, zero3))) in *.
  rewrite rm_apply_eq by auto. unfold RMMul. cbn [rt omega vel]. fold o.
  destruct o as [po vo]. cbn [snd].
  rewrite (rm_apply_eq dr r p v) by auto. rewrite (rm_apply_eq dl l) by auto.
  rewrite (rm_apply_eq dr r po vo) in O by auto. rewrite (rm_apply_eq dl l) in O by auto.
  cbn [AffMul linear]. change (linear (AffMul dl (rt l) (rt r))) with (OrthMul (linear (rt l)) (linear (rt r))).
  rewrite aff_mul by auto. f_equal. rewrite !orth_mul, orth_bi_mul by auto. rewrite !orth_bi_add, orth_bi_inv' by auto.
  pose proof (f_equal fst O) as O1. pose proof (f_equal snd O) as O2. cbn [fst snd] in O1, O2. clear O.
  rewrite !orth_sub in O2 |- *.
  rewrite !orth_cross' in O2 |- * by auto.
  (* aff l (aff r p) in terms of linear l (aff r p) *)
  assert (A : forall x, aff dl (rt l) x = add3 (orth_vector dl (linear (rt l)) x) (aff dl (rt l) zero3)).
  { intros x. pose proof (aff_linear dl (rt l) x zero3) as H. rewrite orth_sub, orth_zero in H.
    set (u := aff dl (rt l) x) in *. set (w := aff dl (rt l) zero3) in *. set (y := orth_vector dl (linear (rt l)) x) in *.
    clearbody u w y. clear -H. d3. red_all. injection H. intros. apply mk3_eq; lra. }
  rewrite A in O1, O2 |- *.
  generalize dependent (orth_vector dl (linear (rt l)) (orth_vector dr (linear (rt r)) v)).
  generalize dependent (orth_vector dl (linear (rt l)) (orth_vector dr (linear (rt r)) vo)).
  generalize dependent (orth_vector dl (linear (rt l)) (orth_vector dr (linear (rt r)) (vel r))).
  generalize dependent (orth_vector dl (linear (rt l)) (vel l)).
  generalize dependent (orth_bivector dl (linear (rt l)) (omega l)).
  generalize dependent (orth_bivector dl (linear (rt l)) (orth_bivector dr (linear (rt r)) (omega r))).
  generalize dependent (orth_vector dl (linear (rt l)) (aff dr (rt r) p)).
  generalize dependent (orth_vector dl (linear (rt l)) (aff dr (rt r) po)).
  generalize (aff dl (rt l) zero3). clear.
  intros a b H w1 w2 v1 v2 v3 O K O2.
  rewrite H in K. assert (B : b = opp3 a) by (clear -H; d3; red_all; injection H; intros; apply mk3_eq; lra).
  assert (E : O = add3 (add3 v3 (Cross w2 b)) v2).
  { clear -K. revert K. generalize (Cross w2 b). intros x K. d3. red_all. injection K. intros. apply mk3_eq; lra. }
  rewrite E, B. clear. d3. red_all. apply mk3_eq; ring.
Qed.

(** ** Kinematics *)
(** [f] has derivative [f'] at [t0], coordinate by coordinate. *)
Definition has_derivative (f : R -> R3) (t0 : R) (f' : R3) : Prop :=
  derivable_pt_lim (fun t => cx (f t)) t0 (cx f') /\
  derivable_pt_lim (fun t => cy (f t)) t0 (cy f') /\
  derivable_pt_lim (fun t => cz (f t)) t0 (cz f').

(** At [t0] the frame whose axes, seen from the first frame, are the images of the basis vectors under the inverse of
    the linear part of [T t], rotates with angular velocity [w], and its origin has velocity [v]. *)
Definition moving_frame (det : bool) (T : R -> RigidTransformation) (t0 : R) (w v : R3) : Prop :=
  (forall e, In e [e_x; e_y; e_z] ->
     has_derivative (fun t => orth_vector det (OrthInverse (linear (T t))) e) t0
                    (Cross w (orth_vector det (OrthInverse (linear (T t0))) e))) /\
  has_derivative (fun t => aff det (AffInverse (T t)) zero3) t0 v.

Lemma dot_derivative f g t0 f' g' : has_derivative f t0 f' -> has_derivative g t0 g' ->
  derivable_pt_lim (fun t => Dot (f t) (g t)) t0 (Dot f' (g t0) + Dot (f t0) g').
Proof.
  intros (F1 & F2 & F3) (G1 & G2 & G3). unfold Dot.
  pose proof (derivable_pt_lim_plus _ _ _ _ _ (derivable_pt_lim_plus _ _ _ _ _ (derivable_pt_lim_mult _ _ _ _ _ F1 G1)
     (derivable_pt_lim_mult _ _ _ _ _ F2 G2)) (derivable_pt_lim_mult _ _ _ _ _ F3 G3)) as H.
  unfold plus_fct, mult_fct in H.
  replace (cx f' * cx (g t0) + cy f' * cy (g t0) + cz f' * cz (g t0) + (cx (f t0) * cx g' + cy (f t0) * cy g' + cz (f t0) * cz g'))
    with (cx f' * cx (g t0) + cx (f t0) * cx g' + (cy f' * cy (g t0) + cy (f t0) * cy g') + (cz f' * cz (g t0) + cz (f t0) * cz g')) by ring.
  exact H.
Qed.
Lemma sub_derivative f g t0 f' g' : has_derivative f t0 f' -> has_derivative g t0 g' ->
  has_derivative (fun t => sub3 (f t) (g t)) t0 (sub3 f' g').
Proof.
  intros (F1 & F2 & F3) (G1 & G2 & G3).
  repeat split; cbn; apply (derivable_pt_lim_minus _ _ _ _ _); assumption.
Qed.

Lemma derivable_pt_lim_ext f g x l : (forall t, f t = g t) -> derivable_pt_lim f x l -> derivable_pt_lim g x l.
Proof. intros E H eps Heps. destruct (H eps Heps) as [d Hd]. exists d. intros h H1 H2. rewrite <- !E. now apply Hd. Qed.

Lemma dot_comm u v : Dot u v = Dot v u.
Proof. d3. red_all. ring. Qed.

Lemma rm_kinematics det T p t0 w v p' : (forall t, unit_q (linear (T t))) ->
  moving_frame det T t0 w v -> has_derivative p t0 p' ->
  has_derivative (fun t => aff det (T t) (p t)) t0 (snd (rm_apply det (mkRM (T t0) w v) (p t0, p'))).
Proof.
  intros U [A O] P. pose proof (sub_derivative _ _ _ _ _ P O) as D.
  (* A coordinate in the moving frame is the inner product with the axis. *)
  assert (C : forall t x e, Dot (aff det (T t) x) e = Dot (sub3 x (aff det (AffInverse (T t)) zero3)) (orth_vector det (OrthInverse (linear (T t))) e)).
  { intros t x e. rewrite <- (orth_dot det (linear (T t)) (sub3 x _)) by auto. rewrite orth_inv' by auto.
    rewrite <- aff_linear. destruct (aff_inv det (T t) zero3 (U t)) as [_ ->]. f_equal.
    destruct (aff det (T t) x). red_all. apply mk3_eq; ring. }
  assert (K : forall e, In e [e_x; e_y; e_z] ->
    derivable_pt_lim (fun t => Dot (aff det (T t) (p t)) e) t0 (Dot (snd (rm_apply det (mkRM (T t0) w v) (p t0, p'))) e)).
  { intros e He. eapply derivable_pt_lim_ext; [intros t; symmetry; apply C|].
    pose proof (dot_derivative _ _ _ _ _ D (A e He)) as H. cbn beta in H.
    replace (Dot (snd (rm_apply det (mkRM (T t0) w v) (p t0, p'))) e) with
      (Dot (sub3 p' v) (orth_vector det (OrthInverse (linear (T t0))) e) +
       Dot (sub3 (p t0) (aff det (AffInverse (T t0)) zero3)) (Cross w (orth_vector det (OrthInverse (linear (T t0))) e))); [exact H|].
    cbn [rm_apply snd rt omega vel].
    rewrite <- (orth_inv' det (linear (T t0)) e (U t0)) at 3. rewrite orth_dot by auto.
    generalize (orth_vector det (OrthInverse (linear (T t0))) e), (sub3 (p t0) (aff det (AffInverse (T t0)) zero3)). clear.
    intros. d3. red_all. ring. }
  pose proof (K e_x ltac:(cbn; tauto)) as X. pose proof (K e_y ltac:(cbn; tauto)) as Y. pose proof (K e_z ltac:(cbn; tauto)) as Z.
  assert (BX : forall u, Dot u e_x = cx u) by (intros; d3; red_all; ring).
  assert (BY : forall u, Dot u e_y = cy u) by (intros; d3; red_all; ring).
  assert (BZ : forall u, Dot u e_z = cz u) by (intros; d3; red_all; ring).
  repeat split.
  - rewrite <- BX. eapply derivable_pt_lim_ext; [|exact X]. intros t. cbn beta. apply BX.
  - rewrite <- BY. eapply derivable_pt_lim_ext; [|exact Y]. intros t. cbn beta. apply BY.
  - rewrite <- BZ. eapply derivable_pt_lim_ext; [|exact Z]. intros t. cbn beta. apply BZ.
Qed.

(** * Barycentres *)
(** The weighted mean, coordinate by coordinate. *)
Fixpoint Rsum (l : list R) : R := match l with [] => 0 | x :: t => x + Rsum t end.
Definition total_weight (l : list (R3 * R)) : R := Rsum (map snd l).
Definition weighted_mean (l : list (R3 * R)) : R3 :=
  let w := total_weight l in
  mk3 (Rsum (map (fun pw => snd pw * cx (fst pw)) l) / w)
      (Rsum (map (fun pw => snd pw * cy (fst pw)) l) / w)
      (Rsum (map (fun pw => snd pw * cz (fst pw)) l) / w).

Lemma bc_some ref l s t :
  BCAddAll ref l (Some (s, t)) =
  Some (mk3 (cx s + Rsum (map (fun pw => snd pw * (cx (fst pw) - cx ref)) l))
            (cy s + Rsum (map (fun pw => snd pw * (cy (fst pw) - cy ref)) l))
            (cz s + Rsum (map (fun pw => snd pw * (cz (fst pw) - cz ref)) l)), t + total_weight l).
Proof.
  unfold BCAddAll, total_weight. revert s t. induction l as [|[p w] l IH]; intros s t.
  - cbn. destruct s. cbn. f_equal. f_equal; [apply mk3_eq|]; ring.
  - cbn [fold_left fst snd map Rsum]. unfold BCAdd at 2. rewrite IH. destruct s, p, ref. red_all. f_equal. f_equal; [apply mk3_eq|]; ring.
Qed.
Lemma bc_none ref l : l <> [] ->
  BCAddAll ref l None =
  Some (mk3 (Rsum (map (fun pw => snd pw * (cx (fst pw) - cx ref)) l))
            (Rsum (map (fun pw => snd pw * (cy (fst pw) - cy ref)) l))
            (Rsum (map (fun pw => snd pw * (cz (fst pw) - cz ref)) l)), total_weight l).
Proof.
  destruct l as [|[p w] l]; [easy|]. intros _. unfold BCAddAll. cbn [fold_left fst snd]. fold (BCAddAll ref l).
  unfold BCAdd at 2. change (fold_left _ l ?c) with (BCAddAll ref l c). rewrite bc_some. unfold total_weight. cbn [map Rsum fst snd].
  destruct p, ref. red_all. reflexivity.
Qed.
Lemma Rsum_shift l (f : R3 -> R) r :
  Rsum (map (fun pw : R3 * R => snd pw * (f (fst pw) - r)) l) = Rsum (map (fun pw => snd pw * f (fst pw)) l) - r * total_weight l.
Proof. unfold total_weight. induction l as [|a l IH]; cbn; [ring|]. rewrite IH. ring. Qed.

Lemma bc_get ref l : l <> [] -> total_weight l <> 0 -> BCGet ref (BCAddAll ref l None) = Some (weighted_mean l).
Proof.
  intros L W. rewrite bc_none by auto. unfold BCGet, weighted_mean. rewrite !Rsum_shift. destruct ref. red_all.
  f_equal. apply mk3_eq; field; auto.
Qed.
Lemma bc_get_empty ref : BCGet ref (BCAddAll ref [] None) = None.
Proof. reflexivity. Qed.
Lemma Rsum_perm l l' : Permutation l l' -> Rsum l = Rsum l'.
Proof. induction 1; cbn; lra. Qed.
Lemma bc_order ref l l' : Permutation l l' -> total_weight l <> 0 ->
  BCGet ref (BCAddAll ref l None) = BCGet ref (BCAddAll ref l' None).
Proof.
  intros P W. destruct l as [|a l]; [apply Permutation_nil in P; now subst|].
  assert (total_weight l' = total_weight (a :: l)) as E by (unfold total_weight; symmetry; apply Rsum_perm; now apply Permutation_map).
  assert (l' <> []) by (intros ->; apply Permutation_sym, Permutation_nil in P; discriminate).
  rewrite !bc_get; try congruence. unfold weighted_mean. rewrite E.
  rewrite (Rsum_perm _ _ (Permutation_map (fun pw => snd pw * cx (fst pw)) P)),
    (Rsum_perm _ _ (Permutation_map (fun pw => snd pw * cy (fst pw)) P)),
    (Rsum_perm _ _ (Permutation_map (fun pw => snd pw * cz (fst pw)) P)). reflexivity.
Qed.
Lemma Rsum_app a b : Rsum (a ++ b) = Rsum a + Rsum b.
Proof. induction a; cbn; lra. Qed.
Lemma bc_subset ref a b g : total_weight a <> 0 -> total_weight (a ++ b) <> 0 ->
  BCGet ref (BCAddAll ref a None) = Some g ->
  BCGet ref (BCAddAll ref ((g, total_weight a) :: b) None) = BCGet ref (BCAddAll ref (a ++ b) None).
Proof.
  intros A AB G.
  assert (a <> []) by (intros ->; now apply A).
  rewrite bc_get in G by auto. assert (g = weighted_mean a) by congruence. subst g. clear G.
  assert (E : total_weight ((weighted_mean a, total_weight a) :: b) = total_weight (a ++ b)).
  { unfold total_weight. cbn. rewrite map_app, Rsum_app. reflexivity. }
  rewrite !bc_get; try (rewrite E; assumption); try assumption; try discriminate; [|destruct a; [easy|discriminate]].
  f_equal. remember (weighted_mean a) as g eqn:G. unfold weighted_mean. rewrite E. rewrite G. unfold weighted_mean. cbn [map fst snd Rsum cx cy cz]. rewrite !map_app, !Rsum_app.
  apply mk3_eq; f_equal; f_equal; field; auto.
Qed.
Lemma INR_length_sum (l : list R3) : total_weight (map (fun p => (p, 1)) l) = INR (length l).
Proof.
  unfold total_weight. induction l as [|a l IH]; [reflexivity|].
  cbn [map Rsum fst snd length]. rewrite IH, S_INR. ring.
Qed.
Lemma unweighted_mean origin l : l <> [] -> BarycentreUnweighted origin l = weighted_mean (map (fun p => (p, 1)) l).
Proof.
  intros L. unfold BarycentreUnweighted, weighted_mean. rewrite INR_length_sum.
  assert (N : INR (length l) <> 0) by (apply not_0_INR; now destruct l).
  assert (F : forall t, fold_left (fun t p => add3 t (sub3 p origin)) l t =
    mk3 (cx t + (Rsum (map cx l) - INR (length l) * cx origin)) (cy t + (Rsum (map cy l) - INR (length l) * cy origin))
        (cz t + (Rsum (map cz l) - INR (length l) * cz origin))).
  { clear. induction l as [|a l IH]; intros t.
    - cbn. destruct t. cbn. apply mk3_eq; ring.
    - cbn [fold_left]. rewrite IH. cbn [length map Rsum]. rewrite S_INR. destruct t, a, origin. red_all. apply mk3_eq; ring. }
  rewrite F. rewrite !map_map. cbn [fst snd].
  assert (M : forall f : R3 -> R, Rsum (map (fun x => 1 * f x) l) = Rsum (map f l)).
  { intros f. f_equal. apply map_ext. intros. ring. }
  rewrite !M. destruct origin. red_all. apply mk3_eq; field; auto.
Qed.
