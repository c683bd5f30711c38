(** The conic parameters: specification and proof of their completion. *)
From Coq Require Import Reals Lra Lia List Bool.
From Verif Require Import Geometry_Model RotatingBody_Model Kepler_Model.
Import ListNotations.
Open Scope R_scope.

(** * Specification *)
(** What the number [x] says about the conic of eccentricity [e] and semilatus rectum [l] around a gravitational
    parameter [mu], when it is the value of a parameter. *)
Definition measures (mu e l : R) (f : Field) (x : R) : Prop :=
  match f with
  | eccentricity => x = e
  | asymptotic_true_anomaly => 1 < e /\ 0 <= x <= PI /\ 1 + e * cos x = 0
  | turning_angle => 1 < e /\ 0 <= x <= PI /\ e * sin (x / 2) = 1
  | semimajor_axis => x * (1 - e * e) = l
  | specific_energy => 2 * x * l = - mu * (1 - e * e)
  | characteristic_energy => x * l = - mu * (1 - e * e)
  | mean_motion => e < 1 /\ 0 < x /\ x ^ 2 * l ^ 3 = mu * (1 - e * e) ^ 3
  | period => e < 1 /\ 0 < x /\ x ^ 2 * (mu * (1 - e * e) ^ 3) = (2 * PI) ^ 2 * l ^ 3
  | hyperbolic_mean_motion => 1 < e /\ 0 < x /\ x ^ 2 * l ^ 3 = mu * (e * e - 1) ^ 3
  | hyperbolic_excess_velocity => 1 < e /\ 0 < x /\ x ^ 2 * l = mu * (e * e - 1)
  | semiminor_axis => e < 1 /\ 0 < x /\ x ^ 2 * (1 - e * e) = l ^ 2
  | impact_parameter => 1 < e /\ 0 < x /\ x ^ 2 * (e * e - 1) = l ^ 2
  | semilatus_rectum => x = l
  | specific_angular_momentum => 0 < x /\ x ^ 2 = mu * l
  | periapsis_distance => x * (1 + e) = l
  | apoapsis_distance => x * (1 - e) = l
  | _ => False
  end.
(** A value of a parameter: it is not finite exactly if the parameter does not exist for the conic. *)
Definition correct (mu e l : R) (f : Field) (n : Num) : Prop :=
  match n with Fin x => measures mu e l f x | NotFinite => forall x, ~ measures mu e l f x end.
Definition conic_field (f : Field) : Prop :=
  match f with
  | argument_of_periapsis | longitude_of_periapsis | true_anomaly | mean_anomaly | hyperbolic_mean_anomaly => False
  | _ => True
  end.
(** physics/kepler_orbit.hpp:29-57: the numbered categories. *)
Definition category (f : Field) : nat :=
  match f with
  | eccentricity | asymptotic_true_anomaly | turning_angle => 1
  | semimajor_axis | specific_energy | characteristic_energy | mean_motion | period
  | hyperbolic_mean_motion | hyperbolic_excess_velocity => 2
  | semiminor_axis | impact_parameter => 3
  | semilatus_rectum | specific_angular_momentum => 4
  | periapsis_distance => 5
  | apoapsis_distance => 6
  | _ => 7
  end.

(** * The values of the parameters *)
Record Conic := mkConic { c_n : R; c_a : R; c_e : R; c_s : R }.
(** Ellipses: mean motion, semimajor axis, eccentricity, and the ratio of the axes. *)
Definition ell (k : Conic) (f : Field) : Num :=
  let n := c_n k in let a := c_a k in let e := c_e k in let s := c_s k in
  match f with
  | eccentricity => Fin e
  | semimajor_axis => Fin a
  | specific_energy => Fin (- (n * n * a * a / 2))
  | characteristic_energy => Fin (- (n * n * a * a))
  | mean_motion => Fin n
  | period => Fin (2 * PI / n)
  | semiminor_axis => Fin (a * s)
  | semilatus_rectum => Fin (a * (s * s))
  | specific_angular_momentum => Fin (n * a * a * s)
  | periapsis_distance => Fin (a * (1 - e))
  | apoapsis_distance => Fin (a * (1 + e))
  | _ => NotFinite
  end.
Definition is_ell (k : Conic) : Prop := 0 < c_n k /\ 0 < c_a k /\ 0 <= c_e k < 1 /\ 0 < c_s k /\ c_s k * c_s k = 1 - c_e k * c_e k.
(** Hyperbolas: the semimajor axis is the opposite of [c_a]. *)
Definition hyp (k : Conic) (f : Field) : Num :=
  let n := c_n k in let a := c_a k in let e := c_e k in let s := c_s k in
  match f with
  | eccentricity => Fin e
  | asymptotic_true_anomaly => Fin (acos (- 1 / e))
  | turning_angle => Fin (2 * asin (1 / e))
  | semimajor_axis => Fin (- a)
  | specific_energy => Fin (n * n * a * a / 2)
  | characteristic_energy => Fin (n * n * a * a)
  | hyperbolic_mean_motion => Fin n
  | hyperbolic_excess_velocity => Fin (n * a)
  | impact_parameter => Fin (a * s)
  | semilatus_rectum => Fin (a * (s * s))
  | specific_angular_momentum => Fin (n * a * a * s)
  | periapsis_distance => Fin (a * (e - 1))
  | apoapsis_distance => Fin (- (a * (e + 1)))
  | _ => NotFinite
  end.
Definition is_hyp (k : Conic) : Prop := 0 < c_n k /\ 0 < c_a k /\ 1 < c_e k /\ 0 < c_s k /\ c_s k * c_s k = c_e k * c_e k - 1.

(** * Evaluation *)
Lemma ndiv_fin x y : y <> 0 -> ndiv (Fin x) (Fin y) = Fin (x / y).
Proof. intros Y. unfold ndiv, lift2. destruct (Req_EM_T y 0); [contradiction|reflexivity]. Qed.
Lemma ndiv_zero x : ndiv (Fin x) (Fin 0) = NotFinite.
Proof. unfold ndiv, lift2. destruct (Req_EM_T 0 0); [reflexivity|lra]. Qed.
Lemma nsqrt_is x y : 0 <= y -> x = y * y -> nsqrt (Fin x) = Fin y.
Proof.
  intros Y ->. unfold nsqrt, lift1. destruct (Rlt_dec (y * y) 0); [nra|]. f_equal. apply sqrt_square. exact Y.
Qed.
Lemma nsqrt_neg x y : 0 < y -> x = - (y * y) -> nsqrt (Fin x) = NotFinite.
Proof. intros Y ->. unfold nsqrt, lift1. destruct (Rlt_dec (- (y * y)) 0); [reflexivity|nra]. Qed.
Lemma cube_inj x y : x * x * x = y * y * y -> x = y.
Proof.
  intros E. assert (F : (x - y) * (x * x + x * y + y * y) = 0) by (transitivity (x * x * x - y * y * y); [ring|lra]).
  destruct (Rmult_integral _ _ F) as [G|G]; [lra|].
  assert (x + y / 2 = 0) by nra. assert (y = 0) by nra. lra.
Qed.
Lemma cbrt_cube x : cbrt x * cbrt x * cbrt x = x.
Proof.
  assert (P : forall z, 0 < z -> Rpower z (/ 3) * Rpower z (/ 3) * Rpower z (/ 3) = z).
  { intros z Z. rewrite <- !Rpower_plus. replace (/ 3 + / 3 + / 3) with 1 by field. apply Rpower_1. exact Z. }
  unfold cbrt. destruct (Rlt_dec 0 x) as [X|X]; [apply P; exact X|].
  destruct (Rlt_dec x 0) as [X'|X']; [|assert (x = 0) by lra; subst; ring].
  pose proof (P (- x) ltac:(lra)) as Q. set (y := Rpower (- x) (/ 3)) in *. clearbody y.
  replace (- y * - y * - y) with (- (y * y * y)) by ring. lra.
Qed.
Lemma ncbrt_is x y : x = y * y * y -> ncbrt (Fin x) = Fin y.
Proof. intros E. unfold ncbrt, lift1. f_equal. apply cube_inj. rewrite cbrt_cube. exact E. Qed.

Lemma field_eqb_refl f : field_eqb f f = true.
Proof. destruct f; reflexivity. Qed.
Lemma field_eqb_eq f g : field_eqb f g = true -> f = g.
Proof. destruct f, g; cbn; congruence. Qed.

(** * Categories *)
Definition is_none (c : Fields) (l : list Field) : Prop := forall g, In g l -> c g = None.
Definition is_full (k : Field -> Num) (c : Fields) (l : list Field) : Prop := forall g, In g l -> c g = Some (k g).
Definition is_only (k : Field -> Num) (f : Field) (c : Fields) (l : list Field) : Prop :=
  forall g, In g l -> c g = if field_eqb g f then Some (k g) else None.

Ltac inside := cbn [In eccentricity_category semimajor_axis_category semiminor_axis_category semilatus_rectum_category]; tauto.
Ltac fetch H := repeat match goal with |- context [?c ?g] =>
  match type of c with Fields => rewrite (H g) by inside end end; cbn [field_eqb].
Ltac fins := cbn [nadd nsub nmul nopp npow nabs lift1 lift2].
Ltac nz := first [assumption | lra | nra].
Ltac divs := repeat (match goal with |- context [ndiv (Fin ?x) (Fin ?y)] => rewrite (ndiv_fin x y) by nz end; fins).
Ltac each_in G := cbn [In eccentricity_category semimajor_axis_category semiminor_axis_category semilatus_rectum_category] in G;
  repeat (destruct G as [G|G]; [subst|]); [..|contradiction].
Ltac nonzero := repeat match goal with
  | |- _ * _ <> 0 => apply Rmult_integral_contrapositive_currified
  | |- _ ^ _ <> 0 => apply pow_nonzero
  | |- - _ <> 0 => apply Ropp_neq_0_compat
  | |- _ / _ <> 0 => apply Rmult_integral_contrapositive_currified; [|apply Rinv_neq_0_compat]
  end; try first [assumption | lra | nra].
Ltac divs2 := repeat (match goal with |- context [ndiv (Fin ?x) (Fin ?y)] => rewrite (ndiv_fin x y) by (solve [nonzero]) end; fins).
Ltac pos := try apply Rlt_le; unfold Rdiv; repeat first [assumption | lra | apply Rmult_lt_0_compat | apply Rinv_0_lt_compat].
Ltac sq y := match goal with
  | |- context [nsqrt (Fin ?x)] =>
    rewrite (nsqrt_is x y); [fins | solve [pos] | solve [field; repeat split; solve [nonzero]]]
  end.
Ltac sqn y := match goal with
  | |- context [nsqrt (Fin ?x)] =>
    rewrite (nsqrt_neg x y); [fins | solve [pos] | solve [field; repeat split; solve [nonzero]]]
  end.
Ltac cb y := match goal with
  | |- context [ncbrt (Fin ?x)] => rewrite (ncbrt_is x y); [fins | solve [field; repeat split; solve [nonzero]]]
  end.
Ltac finish := try reflexivity; f_equal; f_equal; field; repeat split; solve [nonzero].

Lemma ell_semimajor n a c f mu e s : 0 < n -> 0 < a -> mu = n * n * (a * a * a) ->
  let k := mkConic n a e s in
  In f semimajor_axis_category -> ell k f <> NotFinite -> is_only (ell k) f c semimajor_axis_category ->
  is_full (ell k) (complete_semimajor_axis (Fin mu) c) semimajor_axis_category.
Proof.
  intros N A -> k F NF O. pose proof PI_RGT_0 as P.
  intros g G.
  each_in F; cbn in NF; try congruence; clear NF;
    unfold complete_semimajor_axis, must_complete, specifications, has_value, with_value;
    cbn [fold_left semimajor_axis_category]; fetch O; cbn [Nat.add Nat.eqb ell k c_n c_a c_e c_s];
    each_in G; cbn [sets fold_left fst snd set field_eqb]; try (fetch O; cbn [ell k c_n c_a c_e c_s]);
    fins; divs2.
  all: try solve [finish].
  all: repeat (first [cb a | cb (n * a) | cb (n * n * a * a) | cb (n * n * a * a / 2)
                     | sq n | sq (/ n) | sq (n / 2) | sq (2 / n)
                     | sqn n | sqn (n * a) | sqn (n / 2) | sqn (n / (2 * PI)) | sqn (n * n * n * a * a * a / (2 * PI))]; divs2).
  all: finish.
Qed.

Lemma hyp_semimajor n a c f mu e s : 0 < n -> 0 < a -> mu = n * n * (a * a * a) ->
  let k := mkConic n a e s in
  In f semimajor_axis_category -> hyp k f <> NotFinite -> is_only (hyp k) f c semimajor_axis_category ->
  is_full (hyp k) (complete_semimajor_axis (Fin mu) c) semimajor_axis_category.
Proof.
  intros N A -> k F NF O. pose proof PI_RGT_0 as P.
  intros g G.
  each_in F; cbn in NF; try congruence; clear NF;
    unfold complete_semimajor_axis, must_complete, specifications, has_value, with_value;
    cbn [fold_left semimajor_axis_category]; fetch O; cbn [Nat.add Nat.eqb hyp k c_n c_a c_e c_s];
    each_in G; cbn [sets fold_left fst snd set field_eqb]; try (fetch O; cbn [hyp k c_n c_a c_e c_s]);
    fins; divs2.
  all: try solve [finish].
  all: repeat (first [cb a | cb (n * a) | cb (n * n * a * a) | cb (n * n * a * a / 2)
                     | sq n | sq (n * a) | sq (n / 2)
                     | sqn n | sqn (/ n) | sqn (n / 2) | sqn (2 / n) | sqn (n * a)]; divs2).
  all: finish.
Qed.

Lemma in_unit_yes x : -1 <= x <= 1 -> in_unit x = true.
Proof. intros X. unfold in_unit. destruct (Rle_dec (Rabs x) 1) as [|H]; [reflexivity|]. exfalso. apply H. apply Rabs_le. lra. Qed.
Lemma in_unit_no x : x < -1 \/ 1 < x -> in_unit x = false.
Proof.
  intros X. unfold in_unit. destruct (Rle_dec (Rabs x) 1) as [H|]; [|reflexivity]. exfalso.
  unfold Rabs in H. destruct (Rcase_abs x); lra.
Qed.
Lemma inverse_out e : 0 < e < 1 -> 1 < 1 / e.
Proof. intros E. apply (Rmult_lt_reg_r e); [lra|]. replace (1 / e * e) with 1 by (field; lra). lra. Qed.
Lemma inverse_in e : 1 < e -> 0 < 1 / e < 1.
Proof.
  intros E. assert (K : 1 / e * e = 1) by (field; lra).
  assert (0 < 1 / e) by (apply Rdiv_lt_0_compat; lra). split; [assumption|nra].
Qed.

Lemma ell_eccentricity k c f : is_ell k ->
  In f eccentricity_category -> ell k f <> NotFinite -> is_only (ell k) f c eccentricity_category ->
  is_full (ell k) (complete_eccentricity c) eccentricity_category.
Proof.
  destruct k as [n a e s]. intros (_ & _ & E & _) F NF O. cbn [c_e] in E.
  intros g G.
  each_in F; cbn in NF; try congruence; clear NF.
  unfold complete_eccentricity, must_complete, specifications, has_value, with_value;
    cbn [fold_left eccentricity_category]; fetch O; cbn [Nat.add Nat.eqb ell c_n c_a c_e c_s].
  assert (A : narcsin (Fin 1 / Fin e)%num = NotFinite).
  { destruct (Req_dec e 0) as [Z|Z]; [subst; rewrite ndiv_zero; reflexivity|].
    rewrite ndiv_fin by exact Z. unfold narcsin, lift1. rewrite in_unit_no; [reflexivity|].
    right. apply inverse_out. lra. }
  assert (B : narccos (- Fin 1 / Fin e)%num = NotFinite).
  { fins. destruct (Req_dec e 0) as [Z|Z]; [subst; rewrite ndiv_zero; reflexivity|].
    rewrite ndiv_fin by exact Z. unfold narccos, lift1. rewrite in_unit_no; [reflexivity|].
    left. pose proof (inverse_out e ltac:(lra)). replace (- (1) / e) with (- (1 / e)) by (field; lra). lra. }
  each_in G; cbn [sets fold_left fst snd set field_eqb]; try (fetch O; cbn [ell c_n c_a c_e c_s]); try reflexivity.
  - rewrite B. reflexivity.
  - rewrite A. reflexivity.
Qed.

Lemma hyp_eccentricity k c f : is_hyp k ->
  In f eccentricity_category -> hyp k f <> NotFinite -> is_only (hyp k) f c eccentricity_category ->
  is_full (hyp k) (complete_eccentricity c) eccentricity_category.
Proof.
  destruct k as [n a e s]. intros (_ & _ & E & _) F NF O. cbn [c_e] in E. clear NF.
  pose proof (inverse_in e E) as I.
  assert (AC : acos (- (1) / e) = PI / 2 + asin (1 / e)).
  { replace (- (1) / e) with (- (1 / e)) by (field; lra).
    rewrite acos_asin by lra. rewrite asin_opp. ring. }
  replace (-1 / e) with (- (1) / e) in * by (field; lra).
  assert (S : sin (asin (1 / e)) = 1 / e) by (apply sin_asin; lra).
  assert (C : cos (PI / 2 + asin (1 / e)) = - (1 / e)).
  { rewrite cos_plus, cos_PI2, sin_PI2, S. ring. }
  set (t := asin (1 / e)) in *.
  intros g G.
  each_in F;
    unfold complete_eccentricity, must_complete, specifications, has_value, with_value;
    cbn [fold_left eccentricity_category]; fetch O; cbn [Nat.add Nat.eqb hyp c_n c_a c_e c_s];
    each_in G; cbn [sets fold_left fst snd set field_eqb]; try (fetch O; cbn [hyp c_n c_a c_e c_s]); try reflexivity;
    replace (-1 / e) with (- (1) / e) by (field; lra); try fold t.
  - fins. rewrite ndiv_fin by lra. unfold narccos, lift1. rewrite in_unit_yes; [reflexivity|].
    replace (- (1) / e) with (- (1 / e)) by (field; lra). lra.
  - rewrite ndiv_fin by lra. unfold narcsin, lift1. rewrite in_unit_yes by lra. fold t. reflexivity.
  - unfold ncos, lift1. rewrite AC, C. fins. rewrite ndiv_fin by lra. f_equal. f_equal. field. lra.
  - rewrite AC. fins. f_equal. f_equal. field.
  - fins. rewrite ndiv_fin by lra. unfold nsin, lift1. replace (2 * t / 2) with t by field. rewrite S.
    rewrite ndiv_fin by lra. f_equal. f_equal. field. lra.
  - fins. rewrite ndiv_fin by lra. rewrite AC. f_equal. f_equal. field.
Qed.

Lemma ell_semiminor k c f : is_ell k ->
  In f semiminor_axis_category -> ell k f <> NotFinite -> is_only (ell k) f c semiminor_axis_category ->
  is_full (ell k) (complete_semiminor_axis c) semiminor_axis_category.
Proof.
  destruct k as [n a e s]. intros (_ & A & _ & S & _) F NF O. cbn [c_a c_s] in A, S.
  intros g G.
  each_in F; cbn in NF; try congruence; clear NF.
  unfold complete_semiminor_axis, must_complete, specifications, has_value, with_value;
    cbn [fold_left semiminor_axis_category]; fetch O; cbn [Nat.add Nat.eqb ell c_n c_a c_e c_s].
  each_in G; cbn [sets fold_left fst snd set field_eqb]; try (fetch O; cbn [ell c_n c_a c_e c_s]); try reflexivity.
  fins. sqn (a * s). reflexivity.
Qed.
Lemma hyp_semiminor k c f : is_hyp k ->
  In f semiminor_axis_category -> hyp k f <> NotFinite -> is_only (hyp k) f c semiminor_axis_category ->
  is_full (hyp k) (complete_semiminor_axis c) semiminor_axis_category.
Proof.
  destruct k as [n a e s]. intros (_ & A & _ & S & _) F NF O. cbn [c_a c_s] in A, S.
  intros g G.
  each_in F; cbn in NF; try congruence; clear NF.
  unfold complete_semiminor_axis, must_complete, specifications, has_value, with_value;
    cbn [fold_left semiminor_axis_category]; fetch O; cbn [Nat.add Nat.eqb hyp c_n c_a c_e c_s].
  each_in G; cbn [sets fold_left fst snd set field_eqb]; try (fetch O; cbn [hyp c_n c_a c_e c_s]); try reflexivity.
  fins. sqn (a * s). reflexivity.
Qed.
Lemma ell_semilatus k c f mu : is_ell k -> mu = c_n k * c_n k * (c_a k * c_a k * c_a k) ->
  In f semilatus_rectum_category -> is_only (ell k) f c semilatus_rectum_category ->
  is_full (ell k) (complete_semilatus_rectum (Fin mu) c) semilatus_rectum_category.
Proof.
  destruct k as [n a e s]. intros (N & A & _ & S & _) -> F O. cbn [c_n c_a c_s] in *.
  intros g G.
  each_in F;
  unfold complete_semilatus_rectum, must_complete, specifications, has_value, with_value;
    cbn [fold_left semilatus_rectum_category]; fetch O; cbn [Nat.add Nat.eqb ell c_n c_a c_e c_s];
  each_in G; cbn [sets fold_left fst snd set field_eqb]; try (fetch O; cbn [ell c_n c_a c_e c_s]); try reflexivity.
  - fins. sq (n * a * a * s). reflexivity.
  - fins. divs2. finish.
Qed.
Lemma hyp_semilatus k c f mu : is_hyp k -> mu = c_n k * c_n k * (c_a k * c_a k * c_a k) ->
  In f semilatus_rectum_category -> is_only (hyp k) f c semilatus_rectum_category ->
  is_full (hyp k) (complete_semilatus_rectum (Fin mu) c) semilatus_rectum_category.
Proof.
  destruct k as [n a e s]. intros (N & A & _ & S & _) -> F O. cbn [c_n c_a c_s] in *.
  intros g G.
  each_in F;
  unfold complete_semilatus_rectum, must_complete, specifications, has_value, with_value;
    cbn [fold_left semilatus_rectum_category]; fetch O; cbn [Nat.add Nat.eqb hyp c_n c_a c_e c_s];
  each_in G; cbn [sets fold_left fst snd set field_eqb]; try (fetch O; cbn [hyp c_n c_a c_e c_s]); try reflexivity.
  - fins. sq (n * a * a * s). reflexivity.
  - fins. divs2. finish.
Qed.
