(** The potential, the derivatives of the accelerations, the errors of the integration. *)
From Coq Require Import Reals List ZArith Bool Lra Lia Ranalysis5.
From Verif Require Import Geometry_Model Geometry_Proofs Geometry_Proofs2 VectorCalculus_Proofs RotatingBody_Proofs SimilarMotion_Proofs
  Ephemeris_Model Ephemeris_Proofs Ephemeris_Proofs2 ReferenceFrame_Proofs2.
Import ListNotations.
Open Scope R_scope.

(** * The potential *)
Definition rsum {A} (f : A -> R) (l : list A) : R := fold_right (fun a s => f a + s) 0 l.
Lemma rsum_app {A} (f : A -> R) l m : rsum f (l ++ m) = rsum f l + rsum f m.
Proof.
  induction l as [|a l IH]; cbn [app].
  - change (rsum f m = 0 + rsum f m). ring.
  - change (f a + rsum f (l ++ m) = f a + rsum f l + rsum f m). rewrite IH. ring.
Qed.

Definition harmonics_potential_of (b : MassiveBody) (t : R) (r : R3) : R :=
  match geo b with None => 0 | Some g => harmonics_potential g t r (Norm r) (Norm2 r) (1 / Norm r * (1 / Norm r) * (1 / Norm r)) end.
Definition body_potential (e : Ephemeris) (t : R) (p : R3) (b : nat) : R :=
  match nth_error (bodies_ e) b with
  | Some body => let r := sub3 p (position_at e t b) in gravitational_parameter body * (- (1 / Norm r) + harmonics_potential_of body t r)
  | None => 0 end.
Definition total_potential (e : Ephemeris) (t : R) (p : R3) : R := rsum (body_potential e t p) (seq 0 (length (bodies_ e))).

Lemma norm_flip a b : Norm (sub3 a b) = Norm (sub3 b a).
Proof. unfold Norm, Norm2. f_equal. unfold sub3. cbn. ring. Qed.
Lemma norm2_flip a b : Norm2 (sub3 a b) = Norm2 (sub3 b a).
Proof. unfold Norm2. unfold sub3. cbn. ring. Qed.

Lemma potential_one e t b body p (pot : nat -> R) : consistent e -> nth_error (bodies_ e) b = Some body ->
  exists pot', PotentialsOfMassiveBody (is_oblate body) e t b 1 (fun _ => p) (Some pot) = Some pot' /\ pot' 0%nat = pot 0%nat + body_potential e t p b.
Proof.
  intros C E. destruct (consistent_geo e C) as [G _]. specialize (G _ _ E).
  assert (OB : if is_oblate body then nth_error (geopotentials_ e) b = geo body else geo body = None).
  { unfold is_oblate. destruct (Nat.ltb b (number_of_oblate_bodies_ e)); [destruct G as [G K]; destruct (geo body); congruence|now rewrite G]. }
  unfold PotentialsOfMassiveBody, range. cbn [seq Nat.sub fold_left]. unfold potential_step. cbn [bind]. unfold body_potential, mu_at. rewrite E. fold (position_at e t b).
  assert (R : opp3 (sub3 (position_at e t b) p) = sub3 p (position_at e t b)) by ve. rewrite R, (norm2_flip (position_at e t b) p).
  change (sqrt (Norm2 (sub3 p (position_at e t b)))) with (Norm (sub3 p (position_at e t b))). cbv zeta. set (r := sub3 p (position_at e t b)).
  destruct (is_oblate body) eqn:IO.
  - rewrite OB. unfold is_oblate in IO. unfold harmonics_potential_of. destruct (geo body) as [g|]; [|discriminate]. cbn [bind]. eexists. split; [reflexivity|]. unfold update. cbn [Nat.eqb]. ring.
  - unfold harmonics_potential_of. rewrite OB. eexists. split; [reflexivity|]. unfold update. cbn [Nat.eqb]. ring.
Qed.
Lemma potential_loop e t p o l : consistent e -> (forall b, In b l -> (b < length (bodies_ e))%nat /\ Nat.ltb b (number_of_oblate_bodies_ e) = o) -> forall pot,
  exists pot', fold_left (fun s b1 => PotentialsOfMassiveBody o e t b1 1 (fun _ => p) s) l (Some pot) = Some pot' /\
    pot' 0%nat = pot 0%nat + rsum (body_potential e t p) l.
Proof.
  intros C. destruct (consistent_geo e C) as [G _]. induction l as [|b l IH]; intros H pot; cbn [fold_left rsum fold_right].
  - exists pot. split; [reflexivity|]. ring.
  - destruct (H b (or_introl eq_refl)) as [L O]. destruct (nth_error (bodies_ e) b) as [body|] eqn:E; [|apply nth_error_None in E; lia].
    assert (IO : is_oblate body = o).
    { specialize (G _ _ E). rewrite O in G. unfold is_oblate. destruct o; [destruct G as [_ K]; now destruct (geo body)|now rewrite G]. }
    assert (X : exists pot', PotentialsOfMassiveBody o e t b 1 (fun _ => p) (Some pot) = Some pot' /\ pot' 0%nat = pot 0%nat + body_potential e t p b).
    { rewrite <- IO. exact (potential_one e t b body p pot C E). }
    destruct X as (p1 & E1 & S1). rewrite E1. destruct (IH (fun c I => H c (or_intror I)) p1) as (p2 & E2 & S2). exists p2. split; [exact E2|].
    rewrite S2, S1. unfold rsum. ring.
Qed.
Lemma potential_total e t p : consistent e -> GravitationalPotential e p t = Some (total_potential e t p).
Proof.
  intros C. destruct (consistent_geo e C) as [_ N]. unfold GravitationalPotential, PotentialsOfAllMassiveBodies. set (no := number_of_oblate_bodies_ e) in *. set (n := (no + number_of_spherical_bodies_ e)%nat) in *. cbv zeta.
  destruct (potential_loop e t p true (range 0 no) C) with (pot := fun _ : nat => 0) as (a1 & E1 & S1);
    [intros b I; apply in_range in I; fold no; rewrite Nat.ltb_lt; lia|]. rewrite E1.
  destruct (potential_loop e t p false (range no n) C) with (pot := a1) as (a2 & E2 & S2);
    [intros b I; apply in_range in I; fold no; rewrite Nat.ltb_ge; lia|]. rewrite E2. cbn [bind]. f_equal. rewrite S2, S1.
  unfold total_potential. rewrite <- N. replace (seq 0 n) with (range 0 n) by (unfold range; f_equal; lia).
  rewrite <- (range_app 0 no n), rsum_app by lia. ring.
Qed.

Lemma massless_field e t p : consistent e -> (forall b, (b < length (bodies_ e))%nat -> p <> position_at e t b) -> AccelerationOnMasslessBody e p t = Some (total_field e t p).
Proof.
  intros C H. unfold AccelerationOnMasslessBody. destruct (on_massless e t 1 (fun _ => p) C) as (er & acc & E & _ & _ & K). rewrite E. cbn [bind]. f_equal. apply K; [lia|exact H].
Qed.

(** * Gradients *)
Lemma og_sum {A} (U : A -> R3 -> R) (g : A -> R3) p l : (forall a, In a l -> opposite_gradient (U a) p (g a)) -> opposite_gradient (fun x => rsum (fun a => U a x) l) p (vsum g l).
Proof.
  induction l as [|a l IH]; intros H d; vs.
  - cbn [rsum fold_right]. eapply d_eq; [apply d_const|]. unfold Dot, zero3. cbn. ring.
  - cbn [rsum fold_right]. eapply d_eq; [apply d_plus; [apply (H a (or_introl eq_refl) d)|apply (IH (fun b I => H b (or_intror I)) d)]|].
    unfold Dot, add3. cbn [cx cy cz]. ring.
Qed.
Lemma og_translate U p c a : opposite_gradient U (sub3 p c) a -> opposite_gradient (fun x => U (sub3 x c)) p a.
Proof. intros H d. eapply derivable_pt_lim_ext; [|exact (H d)]. intros h. cbn beta. f_equal. ve. Qed.
Lemma og_scal U k p a : opposite_gradient U p a -> opposite_gradient (fun x => k * U x) p (scal3 k a).
Proof. intros H d. eapply d_eq; [apply d_mult; [apply d_const|apply (H d)]|]. unfold Dot, scal3. cbn [cx cy cz]. ring. Qed.
Lemma og_add U V p a b : opposite_gradient U p a -> opposite_gradient V p b -> opposite_gradient (fun x => U x + V x) p (add3 a b).
Proof. intros H K d. eapply d_eq; [apply d_plus; [apply (H d)|apply (K d)]|]. unfold Dot, add3. cbn [cx cy cz]. ring. Qed.
Lemma line_derivative p d : has_derivative (fun h => add3 p (scal3 h d)) 0 d.
Proof. eapply v_eq; [apply v_add; [apply v_const|apply v_scal; [apply d_id|apply v_const]]|]. ve. Qed.
Lemma line_zero p d : add3 p (scal3 0 d) = p.
Proof. ve. Qed.
Lemma og_newton r : r <> zero3 -> opposite_gradient (fun x => - (1 / Norm x)) r (newton r).
Proof.
  intros N d. pose proof (norm_pos r N) as P.
  assert (D : derivable_pt_lim (fun h => Norm (add3 r (scal3 h d))) 0 (Dot r d / Norm r)).
  { eapply d_eq; [eapply v_norm; [apply line_derivative|cbv beta; rewrite line_zero; exact N]|]. cbv beta. now rewrite line_zero. }
  eapply derivable_pt_lim_ext; [|eapply d_eq; [apply d_opp, d_inv; [exact D|cbv beta; rewrite line_zero; lra]|]].
  - intros h. cbn beta. unfold Rdiv. now rewrite Rmult_1_l.
  - cbn beta. rewrite line_zero. unfold newton. replace (Dot (scal3 (- (1 / Norm r ^ 3)) r) d) with (- (1 / Norm r ^ 3) * Dot r d) by (unfold Dot, scal3; cbn; ring). field. lra.
Qed.

(** The geopotentials derive from their potentials. *)
Definition conservative (b : MassiveBody) (t : R) : Prop := forall r, r <> zero3 -> opposite_gradient (harmonics_potential_of b t) r (harmonics b t r).
Lemma sub_nonzero p q : p <> q -> sub3 p q <> zero3.
Proof. intros H K. apply H. destruct p, q. unfold sub3, zero3 in K. cbn in K. injection K as ? ? ?. f_equal; lra. Qed.
Lemma field_gradient e t p : (forall b, In b (bodies_ e) -> conservative b t) -> (forall b, (b < length (bodies_ e))%nat -> p <> position_at e t b) ->
  opposite_gradient (total_potential e t) p (total_field e t p).
Proof.
  intros C N. unfold total_potential, total_field.
  assert (X : opposite_gradient (fun x => rsum (fun b => body_potential e t x b) (seq 0 (length (bodies_ e)))) p (vsum (body_field e t p) (seq 0 (length (bodies_ e))))); [|exact X].
  apply (og_sum (fun b x => body_potential e t x b) (body_field e t p)). intros b I. apply in_seq in I. unfold body_potential, body_field.
  destruct (nth_error (bodies_ e) b) as [body|] eqn:E; [|apply nth_error_None in E; lia].
  assert (NZ : sub3 p (position_at e t b) <> zero3) by (apply sub_nonzero, N; lia).
  apply og_scal, (og_translate (fun r => - (1 / Norm r) + harmonics_potential_of body t r)). unfold field_of.
  apply og_add; [now apply og_newton|]. apply C; [eapply nth_error_In; exact E|exact NZ].
Qed.
Lemma spherical_conservative b t : geo b = None -> conservative b t.
Proof. intros G r _ d. unfold harmonics_potential_of, harmonics. rewrite G. eapply d_eq; [apply d_const|]. unfold Dot, zero3. cbn. ring. Qed.

(** * Jerks and Jacobians *)
Lemma form_value r v : r <> zero3 -> form_times r v = add3 (scal3 (- (1 / Norm r ^ 3)) v) (scal3 (3 * Dot r v / Norm r ^ 5) r).
Proof.
  intros N. pose proof (norm_pos r N) as P. unfold form_times. change (sqrt (Norm2 r)) with (Norm r). rewrite <- (norm_sq r). set (n := Norm r) in *. set (w := Dot r v).
  apply ext3; unfold add3, div3, opp3, scal3; cbn [cx cy cz]; field; lra.
Qed.
Lemma newton_derivative r t v : has_derivative r t v -> r t <> zero3 -> has_derivative (fun s => newton (r s)) t (form_times (r t) v).
Proof.
  intros D N. pose proof (norm_pos _ N) as P. rewrite form_value by exact N. unfold newton.
  assert (DN : derivable_pt_lim (fun s => Norm (r s)) t (Dot (r t) v / Norm (r t))) by (eapply v_norm; eassumption).
  assert (DI : derivable_pt_lim (fun s => - (1 / Norm (r s) ^ 3)) t (3 * (Dot (r t) v / Norm (r t)) / Norm (r t) ^ 4)).
  { eapply derivable_pt_lim_ext; [|eapply d_eq; [apply d_opp, (d_inv (fun s => Norm (r s) * (Norm (r s) * Norm (r s)))); [apply d_mult; [exact DN|apply d_mult; exact DN]|]|]].
    - intros s. cbn beta. unfold Rdiv. rewrite Rmult_1_l. do 2 f_equal. ring.
    - cbn beta. apply Rmult_integral_contrapositive_currified; [lra|nra].
    - cbn beta. field. lra. }
  eapply v_eq; [apply v_scal; [exact DI|exact D]|]. cbn beta. set (n := Norm (r t)) in *. set (w := Dot (r t) v).
  apply ext3; unfold add3, scal3; cbn [cx cy cz]; field; lra.
Qed.

(** The attraction of the bodies if they were points. *)
Definition point_attraction (bodies : list MassiveBody) (q : nat -> R3) (i j : nat) : R3 := scal3 (mu_at bodies j) (newton (sub3 (q i) (q j))).
Definition total_point_attraction (bodies : list MassiveBody) (q : nat -> R3) (i : nat) : R3 :=
  vsum (point_attraction bodies q i) (filter (fun j => negb (Nat.eqb i j)) (seq 0 (length bodies))).
Lemma spherical_point t bodies q i : (forall b, In b bodies -> geo b = None) -> (i < length bodies)%nat -> total_attraction t bodies q i = total_point_attraction bodies q i.
Proof.
  intros S L. unfold total_attraction, total_point_attraction. apply vsum_ext. intros j I. apply filter_In in I. destruct I as [I _]. apply in_seq in I.
  unfold attraction_at, point_attraction, mu_at. destruct (nth_error bodies i) as [bi|] eqn:EI; [|apply nth_error_None in EI; lia].
  destruct (nth_error bodies j) as [bj|] eqn:EJ; [|apply nth_error_None in EJ; lia]. apply nth_error_In, S in EI. apply nth_error_In, S in EJ.
  unfold attraction, field_of, harmonics. rewrite EI, EJ. ve.
Qed.
Lemma vsum_derivative {A} (f : A -> R -> R3) (g : A -> R3) t l : (forall a, In a l -> has_derivative (f a) t (g a)) -> has_derivative (fun s => vsum (fun a => f a s) l) t (vsum g l).
Proof.
  induction l as [|a l IH]; intros H; vs.
  - eapply v_ext; [intros s; symmetry; apply vs_nil|apply v_const].
  - eapply v_ext; [intros s; symmetry; apply vs_cons|]. apply v_add; [apply H; now left|apply IH; intros; apply H; now right].
Qed.

Lemma others_split i n : (i < n)%nat -> filter (fun j => negb (Nat.eqb i j)) (seq 0 n) = range 0 i ++ range (i + 1) n.
Proof.
  intros L. replace (seq 0 n) with (range 0 i ++ [i] ++ range (i + 1) n).
  - rewrite !filter_app. cbn [filter]. rewrite Nat.eqb_refl. cbn [negb app].
    assert (K : forall l, (forall j, In j l -> j <> i) -> filter (fun j => negb (Nat.eqb i j)) l = l).
    { induction l as [|a l IH]; intros H; [reflexivity|]. cbn [filter]. rewrite (proj2 (Nat.eqb_neq i a)); [cbn [negb]; f_equal; apply IH; intros; apply H; now right|]. specialize (H a (or_introl eq_refl)). auto. }
    rewrite !K; [reflexivity|..]; intros j I; apply in_range in I; lia.
  - replace [i] with (range i (i + 1)) by (unfold range; now replace (i + 1 - i)%nat with 1%nat by lia). rewrite app_assoc, !range_app by lia. unfold range. f_equal. lia.
Qed.

Lemma jerk_loop mu1 b1 bodies dofs l : ~ In b1 l -> forall J,
  fold_left (jerk_step mu1 b1 bodies dofs) l J b1 =
  add3 (J b1) (vsum (fun j => scal3 (mu_at bodies j) (form_times (sub3 (fst (dofs b1)) (fst (dofs j))) (sub3 (snd (dofs b1)) (snd (dofs j))))) l).
Proof.
  induction l as [|a l IH]; intros N J; cbn [fold_left]; vs; [ve|].
  rewrite IH by (intros K; apply N; now right). unfold jerk_step at 1. unfold update. rewrite Nat.eqb_refl.
  rewrite (proj2 (Nat.eqb_neq b1 a)) by (intros ->; apply N; now left). cbv zeta. ve.
Qed.
Lemma jacobian_loop mu1 b1 bodies q u l : ~ In b1 l -> forall J,
  fold_left (jacobian_step mu1 b1 bodies q u) l J b1 = add3 (J b1) (vsum (fun j => scal3 (mu_at bodies j) (form_times (sub3 (q b1) (q j)) u)) l).
Proof.
  induction l as [|a l IH]; intros N J; cbn [fold_left]; vs; [ve|].
  rewrite IH by (intros K; apply N; now right). unfold jacobian_step at 1. unfold update. rewrite Nat.eqb_refl.
  rewrite (proj2 (Nat.eqb_neq b1 a)) by (intros ->; apply N; now left). cbv zeta. ve.
Qed.

Lemma jerk_value e b i dofs : consistent e -> nth_error (bodies_ e) i = Some b ->
  JerkOnMassiveBody e b dofs = Some (vsum (fun j => scal3 (mu_at (bodies_ e) j) (form_times (sub3 (fst (dofs i)) (fst (dofs j))) (sub3 (snd (dofs i)) (snd (dofs j)))))
    (filter (fun j => negb (Nat.eqb i j)) (seq 0 (length (bodies_ e))))).
Proof.
  intros C E. destruct (consistent_geo e C) as [_ N]. assert (L : (i < length (bodies_ e))%nat) by (apply nth_error_Some; congruence).
  unfold JerkOnMassiveBody. rewrite (body_index_spec e i b C E). cbn [bind]. f_equal. rewrite N. rewrite !jerk_loop by (rewrite in_range; lia).
  rewrite others_split, vsum_app by exact L. ve.
Qed.
Lemma jacobian_value e b i q u : consistent e -> nth_error (bodies_ e) i = Some b ->
  JacobianOnMassiveBody e b q u = Some (vsum (fun j => scal3 (mu_at (bodies_ e) j) (form_times (sub3 (q i) (q j)) u)) (filter (fun j => negb (Nat.eqb i j)) (seq 0 (length (bodies_ e))))).
Proof.
  intros C E. destruct (consistent_geo e C) as [_ N]. assert (L : (i < length (bodies_ e))%nat) by (apply nth_error_Some; congruence).
  unfold JacobianOnMassiveBody. rewrite (body_index_spec e i b C E). cbn [bind]. f_equal. rewrite N. rewrite !jacobian_loop by (rewrite in_range; lia).
  rewrite others_split, vsum_app by exact L. ve.
Qed.

Lemma scal_const_derivative k f t f' : has_derivative f t f' -> has_derivative (fun s => scal3 k (f s)) t (scal3 k f').
Proof. intros D. eapply v_eq; [apply v_scal; [apply d_const|exact D]|]. ve. Qed.

Lemma jerk_massive e b i q v t : consistent e -> nth_error (bodies_ e) i = Some b ->
  (forall j, (j < length (bodies_ e))%nat -> has_derivative (fun s => q s j) t (v j)) -> distinct (bodies_ e) (q t) ->
  exists J, JerkOnMassiveBody e b (fun j => (q t j, v j)) = Some J /\ has_derivative (fun s => total_point_attraction (bodies_ e) (q s) i) t J.
Proof.
  intros C E D DI. assert (L : (i < length (bodies_ e))%nat) by (apply nth_error_Some; congruence). eexists. split; [apply (jerk_value e b i _ C E)|].
  cbn [fst snd]. unfold total_point_attraction.
  apply (vsum_derivative (fun j s => point_attraction (bodies_ e) (q s) i j)). intros j I. apply filter_In in I. destruct I as [I X]. apply in_seq in I. apply negb_true_iff, Nat.eqb_neq in X.
  unfold point_attraction. apply scal_const_derivative, (newton_derivative (fun s => sub3 (q s i) (q s j))).
  - apply v_sub; apply D; lia.
  - apply sub_nonzero, DI; lia.
Qed.
Lemma jacobian_massive e b i q u : consistent e -> nth_error (bodies_ e) i = Some b -> distinct (bodies_ e) q ->
  exists J, JacobianOnMassiveBody e b q u = Some J /\ has_derivative (fun h => total_point_attraction (bodies_ e) (fun j => if Nat.eqb j i then add3 (q i) (scal3 h u) else q j) i) 0 J.
Proof.
  intros C E DI. assert (L : (i < length (bodies_ e))%nat) by (apply nth_error_Some; congruence). eexists. split; [apply (jacobian_value e b i q u C E)|].
  unfold total_point_attraction.
  apply (vsum_derivative (fun j h => point_attraction (bodies_ e) (fun k => if Nat.eqb k i then add3 (q i) (scal3 h u) else q k) i j)). intros j I. apply filter_In in I. destruct I as [I X]. apply in_seq in I. apply negb_true_iff in X.
  unfold point_attraction. apply scal_const_derivative. rewrite Nat.eqb_refl, (Nat.eqb_sym j i), X. apply Nat.eqb_neq in X.
  assert (NZ : sub3 (q i) (q j) <> zero3) by (apply sub_nonzero, DI; lia).
  eapply v_eq; [apply (newton_derivative (fun h => sub3 (add3 (q i) (scal3 h u)) (q j)) 0 u)|].
  - eapply v_eq; [apply v_sub; [apply line_derivative|apply v_const]|]. ve.
  - cbv beta. now rewrite line_zero.
  - cbv beta. now rewrite line_zero.
Qed.

Definition point_field (e : Ephemeris) (t : R) (p : R3) : R3 :=
  vsum (fun b => scal3 (mu_at (bodies_ e) b) (newton (sub3 p (position_at e t b)))) (seq 0 (length (bodies_ e))).
Lemma spherical_field e t p : (forall b, In b (bodies_ e) -> geo b = None) -> total_field e t p = point_field e t p.
Proof.
  intros S. unfold total_field, point_field. apply vsum_ext. intros j I. apply in_seq in I. unfold body_field, mu_at. destruct (nth_error (bodies_ e) j) as [b|] eqn:E; [|apply nth_error_None in E; lia].
  apply nth_error_In, S in E. unfold field_of, harmonics. rewrite E. ve.
Qed.
Lemma fold_sum {A} (f : A -> R3) l : forall z, fold_left (fun j b => add3 j (f b)) l z = add3 z (vsum f l).
Proof. induction l as [|a l IH]; intros z; cbn [fold_left]; vs; [ve|]. rewrite IH. ve. Qed.
Lemma jerk_massless e p v t : consistent e -> has_derivative p t v ->
  (forall b, (b < length (bodies_ e))%nat -> has_derivative (fun s => position_at e s b) t (snd (trajectory_at e b t)) /\ p t <> position_at e t b) ->
  has_derivative (fun s => point_field e s (p s)) t (JerkOnMasslessBody e (p t, v) t).
Proof.
  intros C D H. destruct (consistent_geo e C) as [_ N]. unfold JerkOnMasslessBody. rewrite N.
  rewrite (fold_sum (fun b2 => scal3 (mu_at (bodies_ e) b2) (form_times (sub3 (p t) (fst (trajectory_at e b2 t))) (sub3 v (snd (trajectory_at e b2 t)))))).
  eapply v_eq; [|symmetry; apply ext3; unfold add3, zero3; cbn [cx cy cz]; apply Rplus_0_l].
  replace (range 0 (length (bodies_ e))) with (seq 0 (length (bodies_ e))) by (unfold range; f_equal; lia). unfold point_field.
  apply (vsum_derivative (fun b s => scal3 (mu_at (bodies_ e) b) (newton (sub3 (p s) (position_at e s b))))). intros b I. apply in_seq in I. destruct (H b) as [DB NE]; [lia|].
  apply scal_const_derivative. apply (newton_derivative (fun s => sub3 (p s) (position_at e s b))).
  - apply v_sub; [exact D|exact DB].
  - now apply sub_nonzero.
Qed.

(** * The errors *)
Lemma max_error_spec errors : forall m, 0 <= m -> let M := fold_left (fun m e => Rmax m (Norm e)) errors m in m <= M /\ (forall x, M <= x <-> m <= x /\ forall e, In e errors -> Norm e <= x).
Proof.
  induction errors as [|a l IH]; intros m P; cbn [fold_left].
  - split; [lra|]. intros x. split; [intros H; split; [exact H|intros e []]|tauto].
  - destruct (IH (Rmax m (Norm a))) as [B S]; [apply Rle_trans with m; [exact P|apply Rmax_l]|]. split; [eapply Rle_trans; [apply Rmax_l|exact B]|].
    intros x. rewrite S. split.
    + intros [X Y]. split; [eapply Rle_trans; [apply Rmax_l|exact X]|]. intros e [->|I]; [eapply Rle_trans; [apply Rmax_r|exact X]|now apply Y].
    + intros [X Y]. split; [apply Rmax_lub; [exact X|apply Y; now left]|]. intros e I. apply Y. now right.
Qed.
Definition at_least_one (r : option R) : Prop := match r with None => True | Some x => 1 <= x end.
Lemma quotient_spec tol l : 0 < tol -> at_least_one (quotient tol (max_error l)) <-> forall e, In e l -> Norm e <= tol.
Proof.
  intros P. unfold max_error. destruct (max_error_spec l 0 (Rle_refl 0)) as [B S]. set (M := fold_left _ l 0) in *. transitivity (M <= tol).
  - unfold quotient. destruct (Req_EM_T M 0) as [Z|Z]; cbn; [split; intros; [lra|exact I]|]. assert (0 < M) by lra. split; intros H0.
    + apply Rmult_le_compat_r with (r := M) in H0; [|lra]. replace (tol / M * M) with tol in H0 by (field; lra). lra.
    + apply Rmult_le_reg_r with M; [lra|]. replace (tol / M * M) with tol by (field; lra). lra.
  - rewrite S. split; [tauto|]. intros H. split; [lra|exact H].
Qed.
Lemma tolerance_ratio lt st ps vs : 0 < lt -> 0 < st ->
  at_least_one (ToleranceToErrorRatio lt st ps vs) <-> (forall e, In e ps -> Norm e <= lt) /\ (forall e, In e vs -> Norm e <= st).
Proof.
  intros P Q. rewrite <- (quotient_spec lt ps P), <- (quotient_spec st vs Q). unfold ToleranceToErrorRatio.
  destruct (quotient lt _) as [a|], (quotient st _) as [b|]; cbn; try tauto. split.
  - intros H. split; [eapply Rle_trans; [exact H|apply Rmin_l]|eapply Rle_trans; [exact H|apply Rmin_r]].
  - intros [A B]. now apply Rmin_glb.
Qed.
