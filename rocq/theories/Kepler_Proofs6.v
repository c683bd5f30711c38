(** The motion along an orbit constructed from elements. *)
From Coq Require Import Reals Lra Lia List Bool.
From Verif Require Import Geometry_Model Geometry_Proofs Geometry_Proofs2 VectorCalculus_Proofs RotatingBody_Model RotatingBody_Proofs
  Kepler_Model Kepler_Proofs Kepler_Proofs3 Kepler_Proofs4 Kepler_Proofs5.
Import ListNotations.
Open Scope R_scope.

(** * Specification *)
(** The elements that are given are exactly those in the list. *)
Fixpoint value_of (l : list (Field * R)) (g : Field) : option Num :=
  match l with [] => None | (f, x) :: l => if field_eqb g f then Some (Fin x) else value_of l g end.
Definition gives (el : KeplerianElements) (l : list (Field * R)) : Prop := forall g, fields el g = value_of l g.
(** The argument of the periapsis is [w] and the longitude of the ascending node [Omega]. *)
Definition orients (Omega w : R) (f : Field) (x : R) : Prop :=
  match f with
  | argument_of_periapsis => x = w
  | longitude_of_periapsis => x = Omega + w
  | _ => False
  end.
(** The anomalies that make sense for a conic of eccentricity [e]. *)
Definition is_anomaly (e : R) (f : Field) (x : R) : Prop :=
  match f with
  | true_anomaly => 0 < 1 + e * cos x
  | mean_anomaly => e < 1
  | hyperbolic_mean_anomaly => 1 < e
  | _ => False
  end.
(** What an anomaly [x] given at [t0] says about the motion [s], where [position nu] is the state at the true anomaly
    [nu]: its true anomaly at [t0] is [x], or it goes through the periapsis at the proper time before [t0]. *)
Definition anomaly_at_epoch (mu e l : R) (position : R -> R3 * R3) (t0 : R) (f : Field) (x : R) (s : R -> R3 * R3) : Prop :=
  match f with
  | true_anomaly => s t0 = position x
  | mean_anomaly => forall n, measures mu e l mean_motion n -> s (t0 - x / n) = position 0
  | hyperbolic_mean_anomaly => forall n, measures mu e l hyperbolic_mean_motion n -> s (t0 - x / n) = position 0
  | _ => False
  end.

(** * StateVectors *)
Lemma nsqrt_fin x : 0 <= x -> nsqrt (Fin x) = Fin (sqrt x).
Proof. intros X. unfold nsqrt, lift1. destruct (Rlt_dec x 0); [lra|reflexivity]. Qed.

Lemma true_from_mean_spec Brent e m : 0 <= e < 1 ->
  exists nu, true_from_mean Brent (Fin e) (Fin m) = Fin nu /\
    cos nu = ell_C e (eccentric_anomaly Brent e m) /\ sin nu = ell_S e (eccentric_anomaly Brent e m).
Proof.
  intros E. unfold true_from_mean. fold (eccentric_anomaly Brent e m). set (x := eccentric_anomaly Brent e m). clearbody x.
  rewrite ndiv_fin by lra. cbn [nsin ncos nadd nsub lift1 lift2]. rewrite !nsqrt_fin by lra.
  cbn [nmul narctan lift2]. eexists. split; [reflexivity|]. apply ell_true, E.
Qed.
Lemma true_from_hyperbolic_spec Brent e m : 1 < e ->
  exists nu, true_from_hyperbolic_mean Brent (Fin e) (Fin m) = Fin nu /\
    cos nu = hyp_C e (hyperbolic_anomaly Brent e m) /\ sin nu = hyp_S e (hyperbolic_anomaly Brent e m).
Proof.
  intros E. unfold true_from_hyperbolic_mean. cbn [nsub nadd lift2]. rewrite ndiv_fin by lra.
  fold (hyperbolic_anomaly Brent e m). set (x := hyperbolic_anomaly Brent e m). clearbody x.
  rewrite ndiv_fin by lra. cbn [nsinh lift1]. rewrite !nsqrt_fin by lra.
  cbn [nmul narctan lift2]. eexists. split; [reflexivity|]. apply hyp_true, E.
Qed.

Lemma state_ell Brent o t e w l eps n m : let c := fields (elements_at_epoch o) in let mu := gravitational_parameter o in
  0 < mu -> 0 <= e < 1 -> 0 < l -> measures mu e l specific_energy eps ->
  c eccentricity = Some (Fin e) -> c argument_of_periapsis = Some (Fin w) -> c semilatus_rectum = Some (Fin l) ->
  c specific_energy = Some (Fin eps) -> c mean_anomaly = Some (Fin m) -> c mean_motion = Some (Fin n) ->
  let x := eccentric_anomaly Brent e (m + n * (t - epoch o)) in
  StateVectors Brent o t =
    Some (kepler_cs mu e l (inclination (elements_at_epoch o)) (longitude_of_ascending_node (elements_at_epoch o)) w (ell_C e x) (ell_S e x)).
Proof.
  intros c mu M E L EPS CE CW CL CEPS CM CN x. unfold StateVectors. fold c. rewrite CE, CW, CL, CEPS.
  unfold anomaly_at. fold c. destruct (Rlt_dec e 1) as [_|]; [|lra]. rewrite CM, CN. cbn [nmul nadd lift2].
  unfold CompleteAnomalies. unfold set at 1, reset at 1 2 3. cbn [field_eqb]. rewrite CE.
  unfold specifications, has_value. cbn [fold_left]. unfold set at 1 2 3, reset at 1 2 3 4 5 6 7 8. cbn [field_eqb Nat.add Nat.eqb].
  unfold with_value at 1. unfold set at 1, reset at 1 2 3. cbn [field_eqb].
  unfold with_value at 1. unfold set at 1, reset at 1 2 3. cbn [field_eqb].
  unfold sets. cbn [fold_left fst snd]. unfold set at 1 2. cbn [field_eqb].
  destruct (true_from_mean_spec Brent e (m + n * (t - epoch o)) E) as (nu & -> & HC & HS).
  fold x in HC, HS. rewrite (state_vectors_spec mu e _ _ w l eps nu M ltac:(lra) L).
  - now rewrite kepler_state_cs, HC, HS.
  - rewrite HC. destruct (ell_cs e x E) as [_ ->]. pose proof (kepler_slope e x (proj1 E)). apply Rdiv_lt_0_compat; nra.
  - exact EPS.
Qed.
Lemma state_hyp Brent o t e w l eps n m : let c := fields (elements_at_epoch o) in let mu := gravitational_parameter o in
  0 < mu -> 1 < e -> 0 < l -> measures mu e l specific_energy eps ->
  c eccentricity = Some (Fin e) -> c argument_of_periapsis = Some (Fin w) -> c semilatus_rectum = Some (Fin l) ->
  c specific_energy = Some (Fin eps) -> c hyperbolic_mean_anomaly = Some (Fin m) -> c hyperbolic_mean_motion = Some (Fin n) ->
  let x := hyperbolic_anomaly Brent e (m + n * (t - epoch o)) in
  StateVectors Brent o t =
    Some (kepler_cs mu e l (inclination (elements_at_epoch o)) (longitude_of_ascending_node (elements_at_epoch o)) w (hyp_C e x) (hyp_S e x)).
Proof.
  intros c mu M E L EPS CE CW CL CEPS CM CN x. unfold StateVectors. fold c. rewrite CE, CW, CL, CEPS.
  unfold anomaly_at. fold c. destruct (Rlt_dec e 1) as [|_]; [lra|]. destruct (Req_EM_T e 1) as [|_]; [lra|].
  rewrite CM, CN. cbn [nmul nadd lift2].
  unfold CompleteAnomalies. unfold set at 1, reset at 1 2 3. cbn [field_eqb]. rewrite CE.
  unfold specifications, has_value. cbn [fold_left]. unfold set at 1 2 3, reset at 1 2 3 4 5 6 7 8. cbn [field_eqb Nat.add Nat.eqb].
  unfold with_value at 1. unfold set at 1, reset at 1 2 3. cbn [field_eqb].
  unfold with_value at 1. unfold set at 1, reset at 1 2 3. cbn [field_eqb].
  unfold with_value at 1. unfold set at 1, reset at 1 2 3. cbn [field_eqb].
  unfold sets. cbn [fold_left fst snd]. unfold set at 1 2. cbn [field_eqb].
  destruct (true_from_hyperbolic_spec Brent e (m + n * (t - epoch o)) E) as (nu & -> & HC & HS).
  fold x in HC, HS. rewrite (state_vectors_spec mu e _ _ w l eps nu M ltac:(lra) L).
  - now rewrite kepler_state_cs, HC, HS.
  - rewrite HC. destruct (hyp_cs e x E) as [_ ->]. pose proof (hyp_slope e x E). apply Rdiv_lt_0_compat; nra.
  - exact EPS.
Qed.

(** * The anomalies of the elements at the epoch *)
Lemma mean_of_true e nu : 0 <= e < 1 -> exists m h, anomalies_from_true (Fin e) (Fin nu) = (Fin m, h) /\
  forall Brent, root_finder Brent ->
    ell_C e (eccentric_anomaly Brent e m) = cos nu /\ ell_S e (eccentric_anomaly Brent e m) = sin nu.
Proof.
  intros E. unfold anomalies_from_true. cbn [ncos nsin npow lift1 nsub nadd nmul lift2].
  rewrite nsqrt_fin by nra. cbn [narctan nmul lift2].
  replace (1 - e ^ 2) with (1 - e * e) by ring.
  set (x := ArcTan2 (sqrt (1 - e * e) * sin nu) (e + cos nu)).
  destruct (ell_from_true e nu E) as [HC HS]. fold x in HC, HS. cbn [nsin lift1 nmul nsub lift2].
  fold (kepler_map e x). unfold positive_angle, ngt. destruct (Rlt_dec 0 (kepler_map e x)) as [P|P].
  - eexists. eexists. split; [reflexivity|]. intros Brent RF.
    rewrite (kepler_inj e (eccentric_anomaly Brent e (kepler_map e x)) x E).
    + split; [exact HC|exact HS].
    + now apply eccentric_anomaly_spec.
  - cbn [nmul nadd lift2]. eexists. eexists. split; [reflexivity|]. intros Brent RF.
    destruct (ell_period e x) as (PM & PC & PS). rewrite <- PM.
    rewrite (kepler_inj e (eccentric_anomaly Brent e (kepler_map e (x + 2 * PI))) (x + 2 * PI) E).
    + rewrite PC, PS. split; [exact HC|exact HS].
    + now apply eccentric_anomaly_spec.
Qed.
Lemma hyperbolic_of_true e nu : 1 < e -> 0 < 1 + e * cos nu -> exists m h, anomalies_from_true (Fin e) (Fin nu) = (h, Fin m) /\
  forall Brent, root_finder Brent ->
    hyp_C e (hyperbolic_anomaly Brent e m) = cos nu /\ hyp_S e (hyperbolic_anomaly Brent e m) = Rabs (sin nu).
Proof.
  intros E P. unfold anomalies_from_true. cbn [ncos nsin npow lift1 nsub nadd nmul lift2].
  rewrite ndiv_fin by lra. destruct (hyp_from_true e nu E P) as (X & HC & HS).
  set (y := (e + cos nu) / (1 + e * cos nu)) in *. cbn [narccosh lift1]. destruct (Rlt_dec y 1) as [|_]; [lra|].
  cbn [nsinh lift1 nmul nsub lift2]. fold (hyp_map e (arccosh y)).
  eexists. eexists. split; [reflexivity|]. intros Brent RF.
  rewrite (hyp_inj e (hyperbolic_anomaly Brent e (hyp_map e (arccosh y))) (arccosh y) E).
  - split; [exact HC|exact HS].
  - now apply hyperbolic_anomaly_spec.
Qed.

(** The anomaly from which the motion is computed; [nu'] is the true anomaly at the epoch if it was given. *)
Definition epoch_anomaly (e : R) (f : Field) (x : R) (c : Fields) : Prop :=
  (e < 1 /\ exists m, c mean_anomaly = Some (Fin m) /\ (f = mean_anomaly -> m = x) /\
     (f = true_anomaly -> forall Brent, root_finder Brent ->
        ell_C e (eccentric_anomaly Brent e m) = cos x /\ ell_S e (eccentric_anomaly Brent e m) = sin x)) \/
  (1 < e /\ exists m, c hyperbolic_mean_anomaly = Some (Fin m) /\ (f = hyperbolic_mean_anomaly -> m = x) /\
     (f = true_anomaly -> forall Brent, root_finder Brent ->
        hyp_C e (hyperbolic_anomaly Brent e m) = cos x /\ hyp_S e (hyperbolic_anomaly Brent e m) = Rabs (sin x))).

Lemma complete_anomalies Brent e f x c : 0 <= e -> e <> 1 -> is_anomaly e f x -> c eccentricity = Some (Fin e) ->
  (forall g, category g = 7%nat -> g <> argument_of_periapsis -> g <> longitude_of_periapsis ->
     c g = if field_eqb g f then Some (Fin x) else None) ->
  exists c', CompleteAnomalies Brent c = Some c' /\ epoch_anomaly e f x c' /\
    forall g, category g <> 7%nat \/ g = argument_of_periapsis -> c' g = c g.
Proof.
  intros E NE A CE C. unfold CompleteAnomalies. rewrite CE.
  assert (T : c true_anomaly = if field_eqb true_anomaly f then Some (Fin x) else None) by (apply C; [reflexivity|discriminate|discriminate]).
  assert (MM : c mean_anomaly = if field_eqb mean_anomaly f then Some (Fin x) else None) by (apply C; [reflexivity|discriminate|discriminate]).
  assert (H : c hyperbolic_mean_anomaly = if field_eqb hyperbolic_mean_anomaly f then Some (Fin x) else None)
    by (apply C; [reflexivity|discriminate|discriminate]).
  assert (K : forall a b u v, category a = 7%nat -> category b = 7%nat -> a <> argument_of_periapsis -> b <> argument_of_periapsis ->
    forall g, category g <> 7%nat \/ g = argument_of_periapsis -> sets [(a, u); (b, v)] c g = c g).
  { intros a b u v CA CB NA NB g G. unfold sets. cbn [fold_left fst snd]. unfold set.
    destruct (field_eqb g b) eqn:GB; [|destruct (field_eqb g a) eqn:GA; [|reflexivity]].
    - assert (g = b) by (destruct g, b; try discriminate GB; reflexivity). subst. destruct G; contradiction.
    - assert (g = a) by (destruct g, a; try discriminate GA; reflexivity). subst. destruct G; contradiction. }
  unfold specifications, has_value. cbn [fold_left].
  destruct f; try contradiction A; cbn [field_eqb] in T, MM, H; rewrite T, MM, H; cbn [Nat.add Nat.eqb];
    unfold with_value; rewrite ?T, ?MM, ?H.
  - destruct (Rlt_dec e 1) as [L|L].
    + destruct (mean_of_true e x ltac:(lra)) as (m & h & -> & HM). eexists. split; [reflexivity|]. split.
      * left. split; [exact L|]. exists m. unfold sets. cbn [fold_left fst snd]. unfold set. cbn [field_eqb].
        split; [reflexivity|]. split; [discriminate|]. intros _. exact HM.
      * apply K; cbn; congruence.
    + destruct (hyperbolic_of_true e x ltac:(lra) A) as (m & h & -> & HM). eexists. split; [reflexivity|]. split.
      * right. split; [lra|]. exists m. unfold sets. cbn [fold_left fst snd]. unfold set. cbn [field_eqb].
        split; [reflexivity|]. split; [discriminate|]. intros _. exact HM.
      * apply K; cbn; congruence.
  - eexists. split; [reflexivity|]. split; [|apply K; cbn; congruence].
    left. split; [exact A|]. exists x. unfold sets. cbn [fold_left fst snd]. unfold set. cbn [field_eqb].
    split; [exact MM|]. split; [reflexivity|]. discriminate.
  - eexists. split; [reflexivity|]. split; [|apply K; cbn; congruence].
    right. split; [exact A|]. exists x. unfold sets. cbn [fold_left fst snd]. unfold set. cbn [field_eqb].
    split; [exact H|]. split; [reflexivity|]. discriminate.
Qed.

Lemma complete_orientation el f x w : orients (longitude_of_ascending_node el) w f x ->
  (forall g, g = argument_of_periapsis \/ g = longitude_of_periapsis -> fields el g = if field_eqb g f then Some (Fin x) else None) ->
  exists c', CompleteOrientationParameters el = Some (mkElements c' (inclination el) (longitude_of_ascending_node el)) /\
    c' argument_of_periapsis = Some (Fin w) /\
    forall g, g <> argument_of_periapsis -> g <> longitude_of_periapsis -> c' g = fields el g.
Proof.
  intros O C. pose proof (C argument_of_periapsis (or_introl eq_refl)) as A. pose proof (C longitude_of_periapsis (or_intror eq_refl)) as B.
  unfold CompleteOrientationParameters. unfold specifications, has_value. cbn [fold_left].
  destruct f; try contradiction O; cbn [field_eqb] in A, B; rewrite A, B; cbn [Nat.add Nat.eqb]; unfold with_value; rewrite ?A, ?B;
    cbn in O; subst x; eexists; (split; [reflexivity|]); unfold set; cbn [field_eqb].
  - split; [exact A|]. intros g G1 G2. destruct g; try reflexivity; contradiction.
  - cbn [nsub lift2]. split; [f_equal; f_equal; ring|]. intros g G1 G2. destruct g; try reflexivity; contradiction.
Qed.

(** * The orbit *)
Definition ready (mu e l w : R) (f : Field) (x : R) (o : KeplerOrbit) (el : KeplerianElements) (t0 : R) : Prop :=
  gravitational_parameter o = mu /\ epoch o = t0 /\
  inclination (elements_at_epoch o) = inclination el /\
  longitude_of_ascending_node (elements_at_epoch o) = longitude_of_ascending_node el /\
  fields (elements_at_epoch o) argument_of_periapsis = Some (Fin w) /\
  epoch_anomaly e f x (fields (elements_at_epoch o)) /\
  forall g, conic_field g -> exists n, fields (elements_at_epoch o) g = Some n /\ correct mu e l g n.

Lemma value_of_skip f x l g : field_eqb g f = false -> value_of ((f, x) :: l) g = value_of l g.
Proof. intros E. cbn. now rewrite E. Qed.
Lemma field_eqb_true f g : field_eqb f g = true -> f = g.
Proof. destruct f, g; cbn; congruence. Qed.
Lemma field_eqb_false f g : f <> g -> field_eqb f g = false.
Proof. intros N. destruct (field_eqb f g) eqn:E; [apply field_eqb_true in E; contradiction|reflexivity]. Qed.
Lemma conic_category f : conic_field f <-> category f <> 7%nat.
Proof. destruct f; cbn; split; intros; try lia; auto. Qed.

Lemma orbit_ready Brent primary secondary el t0 e l w f1 x1 f2 x2 f3 x3 f4 x4 :
  let mu := primary + match secondary with Some m => m | None => 0 end in
  0 < mu -> 0 <= e -> e <> 1 -> 0 < l ->
  conic_field f1 -> conic_field f2 -> category f1 <> category f2 ->
  measures mu e l f1 x1 -> measures mu e l f2 x2 ->
  orients (longitude_of_ascending_node el) w f3 x3 -> is_anomaly e f4 x4 ->
  gives el [(f1, x1); (f2, x2); (f3, x3); (f4, x4)] ->
  exists o, OrbitFromElements Brent primary secondary el t0 = Some o /\ ready mu e l w f4 x4 o el t0.
Proof.
  intros mu M E NE L C1 C2 D X1 X2 O A G. unfold OrbitFromElements. fold mu. unfold CompleteElements.
  assert (N3 : f3 = argument_of_periapsis \/ f3 = longitude_of_periapsis) by (destruct f3; try contradiction O; auto).
  assert (N4 : f4 = true_anomaly \/ f4 = mean_anomaly \/ f4 = hyperbolic_mean_anomaly) by (destruct f4; try contradiction A; auto).
  pose proof (proj1 (conic_category f1) C1) as K1. pose proof (proj1 (conic_category f2) C2) as K2.
  assert (K3 : category f3 = 7%nat) by (destruct N3; subst; reflexivity).
  assert (K4 : category f4 = 7%nat) by (destruct N4 as [?|[?|?]]; subst; reflexivity).
  destruct (conic_parameters mu e l f1 f2 x1 x2 (fields el) M E NE L C1 C2 D X1 X2) as (c1 & -> & CC & CU).
  { intros g Hg. apply conic_category in Hg. rewrite G. cbn [value_of].
    rewrite (field_eqb_false g f3), (field_eqb_false g f4) by congruence. reflexivity. }
  destruct (complete_orientation (mkElements c1 (inclination el) (longitude_of_ascending_node el)) f3 x3 w O) as (c2 & -> & C2W & C2U).
  { intros g Hg. cbn [fields]. rewrite CU by (destruct Hg; subst; cbn; tauto).
    assert (Kg : category g = 7%nat) by (destruct Hg; subst; reflexivity).
    rewrite G. cbn [value_of]. rewrite (field_eqb_false g f1), (field_eqb_false g f2) by congruence.
    rewrite (field_eqb_false g f4); [reflexivity|]. destruct Hg; subst; destruct N4 as [?|[?|?]]; subst; discriminate. }
  cbn [fields inclination longitude_of_ascending_node] in *.
  assert (EC : c1 eccentricity = Some (Fin e)).
  { destruct (CC eccentricity I) as (n & -> & CN). destruct n as [y|]; cbn in CN; [now rewrite CN|]. now destruct (CN e). }
  destruct (complete_anomalies Brent e f4 x4 c2 E NE A) as (c3 & -> & C3A & C3U).
  { rewrite C2U by discriminate. exact EC. }
  { intros g Kg G1 G2. rewrite C2U by assumption. rewrite CU by (rewrite conic_category; lia).
    rewrite G. cbn [value_of]. rewrite (field_eqb_false g f1), (field_eqb_false g f2) by congruence.
    rewrite (field_eqb_false g f3) by (destruct N3; subst; assumption). reflexivity. }
  eexists. split; [reflexivity|]. unfold ready. cbn [gravitational_parameter epoch elements_at_epoch inclination longitude_of_ascending_node fields].
  repeat (split; [reflexivity|]). split; [|split; [exact C3A|]].
  - rewrite C3U by (right; reflexivity). exact C2W.
  - intros g Hg. pose proof (proj1 (conic_category g) Hg) as Kg. rewrite C3U by (left; exact Kg).
    rewrite C2U by (intros ->; now apply Kg). now apply CC.
Qed.

Lemma ell_0 e : 0 <= e < 1 -> ell_C e 0 = 1 /\ ell_S e 0 = 0.
Proof. intros E. unfold ell_C, ell_S. rewrite cos_0, sin_0. split; field; lra. Qed.
Lemma hyp_0 e : 1 < e -> hyp_C e 0 = 1 /\ hyp_S e 0 = 0.
Proof. intros E. unfold hyp_C, hyp_S. rewrite cosh_0, sinh_0. split; field; lra. Qed.

Lemma ready_motion Brent mu e l w f x o el t0 : root_finder Brent -> 0 < mu -> 0 <= e -> e <> 1 -> 0 < l -> is_anomaly e f x ->
  ready mu e l w f x o el t0 ->
  exists r v, (forall t, StateVectors Brent o t = Some (r t, v t)) /\ two_body_motion mu r v /\
    anomaly_at_epoch mu e l (kepler_state mu e l (inclination el) (longitude_of_ascending_node el) w) t0 f
      (match f with true_anomaly => if Rlt_dec 1 e then if Rlt_dec (sin x) 0 then - x else x else x | _ => x end)
      (fun t => (r t, v t)) /\
    forall T t, measures mu e l period T -> r (t + T) = r t /\ v (t + T) = v t.
Proof.
  intros RF M E NE L A (OM & OE & OI & OO & OW & OA & OC).
  assert (F : forall g y, conic_field g -> measures mu e l g y -> fields (elements_at_epoch o) g = Some (Fin y)).
  { intros g y Hg Hy. destruct (OC g Hg) as (n & -> & CN). destruct n as [z|]; cbn in CN; [|now destruct (CN y)].
    repeat f_equal. exact (measures_unique mu e l g z y M E NE L CN Hy). }
  assert (EPS : measures mu e l specific_energy (- mu * (1 - e * e) / (2 * l))) by (cbn; field; lra).
  destruct OA as [(LE & m & CM & XM & XT)|(GE & m & CM & XM & XT)].
  - assert (E' : 0 <= e < 1) by lra.
    destruct (OC mean_motion I) as (nn & CN & NN). destruct nn as [n|].
    2: { exfalso. destruct (ell_correct mu e l M E' L) as (k & _ & _ & _ & KC). pose proof (KC mean_motion I) as Q. cbn in Q.
         now apply (NN (c_n k)). }
    cbn [correct] in NN.
    set (st := fun t => kepler_cs mu e l (inclination el) (longitude_of_ascending_node el) w
       (ell_C e (eccentric_anomaly Brent e (m + n * (t - t0)))) (ell_S e (eccentric_anomaly Brent e (m + n * (t - t0))))).
    exists (fun t => fst (st t)), (fun t => snd (st t)). split; [|split; [|split]].
    + intros t. rewrite <- surjective_pairing.
      rewrite (state_ell Brent o t e w l (- mu * (1 - e * e) / (2 * l)) n m); try (rewrite ?OM; assumption); try (now apply F).
      * now rewrite OM, OI, OO, OE.
    + now apply ell_motion.
    + assert (Z : forall y, eccentric_anomaly Brent e 0 = y -> ell_C e y = 1 /\ ell_S e y = 0).
      { intros y <-. rewrite (kepler_inj e (eccentric_anomaly Brent e 0) 0 E'); [now apply ell_0|].
        rewrite eccentric_anomaly_spec by assumption. unfold kepler_map. rewrite sin_0. ring. }
      destruct f; try contradiction A; unfold anomaly_at_epoch.
      * destruct (Rlt_dec 1 e); [lra|]. rewrite <- surjective_pairing. unfold st. destruct (XT eq_refl Brent RF) as [HC HS].
        replace (m + n * (t0 - t0)) with m by ring. now rewrite HC, HS, kepler_state_cs.
      * intros n' N'. rewrite <- surjective_pairing. unfold st.
        assert (n' = n) by exact (measures_unique mu e l mean_motion n' n M E NE L N' NN). subst n'.
        rewrite (XM eq_refl) in *. destruct NN as (_ & NP & _). replace (x + n * (t0 - x / n - t0)) with 0 by (field; lra).
        destruct (Z _ eq_refl) as [-> ->]. now rewrite kepler_state_cs, cos_0, sin_0.
      * cbn in A. lra.
    + intros T t TT. unfold st. cbn [measures] in NN, TT. destruct NN as (_ & NP & N2). destruct TT as (_ & TP & T2).
      assert (NT : n * T = 2 * PI).
      { pose proof PI_RGT_0. apply Rsqr_inj; [nra|lra|]. unfold Rsqr.
        apply (Rmult_eq_reg_r (l ^ 3)); [|apply pow_nonzero; lra].
        transitivity (T ^ 2 * (n ^ 2 * l ^ 3)); [ring|]. rewrite N2, T2. ring. }
      replace (m + n * (t + T - t0)) with (m + n * (t - t0) + n * T) by ring. rewrite NT.
      set (y := m + n * (t - t0)). destruct (ell_period e (eccentric_anomaly Brent e y)) as (PM & PC & PS).
      assert (Q : eccentric_anomaly Brent e (y + 2 * PI) = eccentric_anomaly Brent e y + 2 * PI).
      { apply (kepler_inj e); [exact E'|]. now rewrite PM, !eccentric_anomaly_spec. }
      rewrite Q, PC, PS. split; reflexivity.
  - destruct (OC hyperbolic_mean_motion I) as (nn & CN & NN). destruct nn as [n|].
    2: { exfalso. destruct (hyp_correct mu e l M GE L) as (k & _ & _ & _ & KC). pose proof (KC hyperbolic_mean_motion I) as Q. cbn in Q.
         now apply (NN (c_n k)). }
    cbn [correct] in NN.
    set (st := fun t => kepler_cs mu e l (inclination el) (longitude_of_ascending_node el) w
       (hyp_C e (hyperbolic_anomaly Brent e (m + n * (t - t0)))) (hyp_S e (hyperbolic_anomaly Brent e (m + n * (t - t0))))).
    exists (fun t => fst (st t)), (fun t => snd (st t)). split; [|split; [|split]].
    + intros t. rewrite <- surjective_pairing.
      rewrite (state_hyp Brent o t e w l (- mu * (1 - e * e) / (2 * l)) n m); try (rewrite ?OM; assumption); try (now apply F).
      * now rewrite OM, OI, OO, OE.
    + now apply hyp_motion.
    + assert (Z : forall y, hyperbolic_anomaly Brent e 0 = y -> hyp_C e y = 1 /\ hyp_S e y = 0).
      { intros y <-. rewrite (hyp_inj e (hyperbolic_anomaly Brent e 0) 0 GE); [now apply hyp_0|].
        rewrite hyperbolic_anomaly_spec by assumption. unfold hyp_map. rewrite sinh_0. ring. }
      destruct f; try contradiction A; unfold anomaly_at_epoch.
      * destruct (Rlt_dec 1 e); [|lra]. rewrite <- surjective_pairing. unfold st. destruct (XT eq_refl Brent RF) as [HC HS].
        replace (m + n * (t0 - t0)) with m by ring. rewrite HC, HS, kepler_state_cs.
        destruct (Rlt_dec (sin x) 0) as [S|S].
        -- rewrite Rabs_left, cos_neg, sin_neg by exact S. reflexivity.
        -- rewrite Rabs_right by lra. reflexivity.
      * cbn in A. lra.
      * intros n' N'. rewrite <- surjective_pairing. unfold st.
        assert (n' = n) by exact (measures_unique mu e l hyperbolic_mean_motion n' n M E NE L N' NN). subst n'.
        rewrite (XM eq_refl) in *. destruct NN as (_ & NP & _). replace (x + n * (t0 - x / n - t0)) with 0 by (field; lra).
        destruct (Z _ eq_refl) as [-> ->]. now rewrite kepler_state_cs, cos_0, sin_0.
    + intros T t TT. cbn [measures] in TT. lra.
Qed.

(** An anomaly whose sign is not lost. *)
Definition outgoing (e : R) (f : Field) (x : R) : Prop := f = true_anomaly -> e < 1 \/ 0 <= sin x.

Lemma motion_from_elements Brent primary secondary el t0 e l w f1 x1 f2 x2 f3 x3 f4 x4 :
  let mu := primary + match secondary with Some m => m | None => 0 end in
  root_finder Brent -> 0 < mu -> 0 <= e -> e <> 1 -> 0 < l ->
  conic_field f1 -> conic_field f2 -> category f1 <> category f2 ->
  measures mu e l f1 x1 -> measures mu e l f2 x2 ->
  orients (longitude_of_ascending_node el) w f3 x3 -> is_anomaly e f4 x4 -> outgoing e f4 x4 ->
  gives el [(f1, x1); (f2, x2); (f3, x3); (f4, x4)] ->
  exists o r v, OrbitFromElements Brent primary secondary el t0 = Some o /\
    (forall t, StateVectors Brent o t = Some (r t, v t)) /\
    two_body_motion mu r v /\
    anomaly_at_epoch mu e l (kepler_state mu e l (inclination el) (longitude_of_ascending_node el) w) t0 f4 x4 (fun t => (r t, v t)) /\
    forall T t, measures mu e l period T -> r (t + T) = r t /\ v (t + T) = v t.
Proof.
  intros mu RF M E NE L C1 C2 D X1 X2 O A OG G.
  destruct (orbit_ready Brent primary secondary el t0 e l w f1 x1 f2 x2 f3 x3 f4 x4) as (o & EO & RO); try assumption.
  fold mu in RO.
  destruct (ready_motion Brent mu e l w f4 x4 o el t0 RF M E NE L A RO) as (r & v & S & MO & AE & P).
  exists o, r, v. split; [exact EO|]. split; [exact S|]. split; [exact MO|]. split; [|exact P].
  destruct f4; try contradiction A; try exact AE.
  destruct (Rlt_dec 1 e); [|exact AE]. destruct (Rlt_dec (sin x4) 0); [|exact AE].
  destruct (OG eq_refl); lra.
Qed.

Lemma oriented_inj Omega i w u v : oriented Omega i w u = oriented Omega i w v -> u = v.
Proof.
  rewrite <- !oriented_rotate. unfold from_orbit_plane.
  destruct (angles_from 2 0 2 Omega i w) as [U _]; try lia. intros H.
  rewrite <- (rotate_inv _ u U), <- (rotate_inv _ v U). now rewrite H.
Qed.
Lemma opposite_states mu e l i Omega w nu : 0 < l -> 0 < 1 + e * cos nu -> sin nu <> 0 ->
  kepler_state mu e l i Omega w (- nu) <> kepler_state mu e l i Omega w nu.
Proof.
  intros L P S H. apply (f_equal fst) in H. unfold kepler_state in H. cbn [fst perifocal] in H. apply oriented_inj in H.
  injection H as _ Y. rewrite cos_neg, sin_neg in Y.
  assert (Q : l * sin nu / (1 + e * cos nu) = 0).
  { replace (l * - sin nu / (1 + e * cos nu)) with (- (l * sin nu / (1 + e * cos nu))) in Y by (field; lra). lra. }
  apply (f_equal (fun z => z * (1 + e * cos nu))) in Q. field_simplify in Q; [|lra].
  assert (l * sin nu <> 0) by (apply Rmult_integral_contrapositive; split; lra). lra.
Qed.

Lemma incoming_hyperbola Brent primary secondary el t0 e l w f1 x1 f2 x2 f3 x3 nu :
  let mu := primary + match secondary with Some m => m | None => 0 end in
  let position := kepler_state mu e l (inclination el) (longitude_of_ascending_node el) w in
  root_finder Brent -> 0 < mu -> 1 < e -> 0 < l ->
  conic_field f1 -> conic_field f2 -> category f1 <> category f2 ->
  measures mu e l f1 x1 -> measures mu e l f2 x2 ->
  orients (longitude_of_ascending_node el) w f3 x3 -> 0 < 1 + e * cos nu -> sin nu < 0 ->
  gives el [(f1, x1); (f2, x2); (f3, x3); (true_anomaly, nu)] ->
  exists o, OrbitFromElements Brent primary secondary el t0 = Some o /\
    StateVectors Brent o t0 = Some (position (- nu)) /\ position (- nu) <> position nu.
Proof.
  intros mu position RF M E L C1 C2 D X1 X2 O A S G.
  destruct (orbit_ready Brent primary secondary el t0 e l w f1 x1 f2 x2 f3 x3 true_anomaly nu) as (o & EO & RO); try assumption; try lra.
  fold mu in RO.
  destruct (ready_motion Brent mu e l w true_anomaly nu o el t0 RF M ltac:(lra) ltac:(lra) L A RO) as (r & v & SV & _ & AE & _).
  exists o. split; [exact EO|]. cbn [anomaly_at_epoch] in AE. destruct (Rlt_dec 1 e); [|lra]. destruct (Rlt_dec (sin nu) 0); [|lra].
  split; [rewrite SV; now rewrite AE|]. apply opposite_states; lra.
Qed.
