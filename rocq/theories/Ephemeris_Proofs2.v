(** Conservation laws, massless bodies, potential, jerk. *)
From Coq Require Import Reals List ZArith Bool Lra Lia Permutation.
From Verif Require Import Geometry_Model Geometry_Proofs VectorCalculus_Proofs RotatingBody_Proofs SimilarMotion_Proofs
  Ephemeris_Model Ephemeris_Proofs ReferenceFrame_Proofs2.
Import ListNotations.
Open Scope R_scope.

Lemma vs_cons {A} (f : A -> R3) a l : vsum f (a :: l) = add3 (f a) (vsum f l).
Proof. reflexivity. Qed.
Lemma vs_nil {A} (f : A -> R3) : vsum f [] = zero3.
Proof. reflexivity. Qed.
#[global] Opaque vsum.
Ltac vs := rewrite ?vs_cons, ?vs_nil.

(** * Conservation *)
Lemma vsum_add {A} (f g : A -> R3) l : vsum (fun a => add3 (f a) (g a)) l = add3 (vsum f l) (vsum g l).
Proof. induction l as [|a l IH]; vs; [ve|]. rewrite IH. ve. Qed.
Lemma vsum_opp {A} (f : A -> R3) l : vsum (fun a => opp3 (f a)) l = opp3 (vsum f l).
Proof. induction l as [|a l IH]; vs; [ve|]. rewrite IH. ve. Qed.
Lemma vsum_scal {A} (f : A -> R3) k l : vsum (fun a => scal3 k (f a)) l = scal3 k (vsum f l).
Proof. induction l as [|a l IH]; vs; [ve|]. rewrite IH. ve. Qed.
Lemma vsum_cross {A} (f : A -> R3) k l : vsum (fun a => Cross k (f a)) l = Cross k (vsum f l).
Proof. induction l as [|a l IH]; vs; [ve|]. rewrite IH. ve. Qed.
Lemma vsum_swap {A B} (f : A -> B -> R3) l m : vsum (fun a => vsum (f a) m) l = vsum (fun b => vsum (fun a => f a b) l) m.
Proof.
  induction l as [|a l IH]; vs.
  - symmetry. apply vsum_zero. intros b _. apply vs_nil.
  - rewrite IH, <- vsum_add. apply vsum_ext. intros b _. now vs.
Qed.
Lemma vsum_filter {A} (f : A -> R3) p l : vsum f (filter p l) = vsum (fun a => if p a then f a else zero3) l.
Proof. induction l as [|a l IH]; [reflexivity|]. cbn [filter]. vs. rewrite <- IH. destruct (p a); vs; [reflexivity|]. ve. Qed.
Lemma antisymmetric_sum (G : nat -> nat -> R3) l : (forall i j, G i j = opp3 (G j i)) -> vsum (fun i => vsum (G i) l) l = zero3.
Proof.
  intros H. assert (E : vsum (fun i => vsum (G i) l) l = opp3 (vsum (fun i => vsum (G i) l) l)).
  { rewrite vsum_swap at 1. rewrite <- vsum_opp. apply vsum_ext. intros i _. rewrite <- vsum_opp. apply vsum_ext. intros j _. apply H. }
  revert E. generalize (vsum (fun i => vsum (G i) l) l). intros [x y z] E. unfold opp3 in E. cbn in E. injection E as ? ? ?. unfold zero3. f_equal; lra.
Qed.
Lemma newton_opp q p : newton (sub3 q p) = opp3 (newton (sub3 p q)).
Proof. unfold newton. replace (Norm (sub3 q p)) with (Norm (sub3 p q)); [ve|]. unfold Norm, Norm2. f_equal. unfold sub3. cbn. ring. Qed.

(** The product by the mass of the acceleration, made antisymmetric in the pair. *)
Definition mutual (t : R) (bodies : list MassiveBody) (q : nat -> R3) (i j : nat) : R3 :=
  if Nat.eqb i j then zero3 else scal3 (mu_at bodies i) (attraction_at t bodies q i j).
Lemma mutual_opp t bodies q i j : mutual t bodies q i j = opp3 (mutual t bodies q j i).
Proof.
  unfold mutual. rewrite (Nat.eqb_sym j i). destruct (Nat.eqb i j); [ve|]. unfold attraction_at, mu_at.
  destruct (nth_error bodies i) as [bi|]; [|destruct (nth_error bodies j); ve]. destruct (nth_error bodies j) as [bj|]; [|ve].
  unfold attraction, field_of. rewrite (newton_opp (q j) (q i)). ve.
Qed.
Lemma total_mutual t bodies q i : scal3 (mu_at bodies i) (total_attraction t bodies q i) = vsum (mutual t bodies q i) (seq 0 (length bodies)).
Proof. unfold total_attraction. rewrite vsum_filter, <- vsum_scal. apply vsum_ext. intros j _. unfold mutual. destruct (Nat.eqb i j); cbn [negb]; [ve|reflexivity]. Qed.
Lemma momentum t bodies q : vsum (fun i => scal3 (mu_at bodies i) (total_attraction t bodies q i)) (seq 0 (length bodies)) = zero3.
Proof. rewrite (vsum_ext _ (fun i => vsum (mutual t bodies q i) (seq 0 (length bodies)))) by (intros; apply total_mutual). apply antisymmetric_sum, mutual_opp. Qed.
Lemma angular_momentum t bodies q : (forall b, In b bodies -> geo b = None) ->
  vsum (fun i => Cross (q i) (scal3 (mu_at bodies i) (total_attraction t bodies q i))) (seq 0 (length bodies)) = zero3.
Proof.
  intros S. rewrite (vsum_ext _ (fun i => vsum (fun j => Cross (q i) (mutual t bodies q i j)) (seq 0 (length bodies)))) by (intros; rewrite total_mutual, vsum_cross; reflexivity).
  apply antisymmetric_sum. intros i j. unfold mutual. rewrite (Nat.eqb_sym j i). destruct (Nat.eqb i j); [ve|]. unfold attraction_at, mu_at.
  destruct (nth_error bodies i) as [bi|] eqn:EI; [|destruct (nth_error bodies j); ve]. destruct (nth_error bodies j) as [bj|] eqn:EJ; [|ve].
  apply nth_error_In, S in EI. apply nth_error_In, S in EJ.
  unfold attraction, field_of, harmonics. rewrite EI, EJ, (newton_opp (q j) (q i)). unfold newton. ve.
Qed.

(** * Massless bodies *)
(** The field of all the bodies at the point [p]; [position_at] are the positions of the bodies. *)
Definition position_at (e : Ephemeris) (t : R) (b : nat) : R3 := fst (trajectory_at e b t).
Definition body_field (e : Ephemeris) (t : R) (p : R3) (b : nat) : R3 :=
  match nth_error (bodies_ e) b with Some body => scal3 (gravitational_parameter body) (field_of body t (sub3 p (position_at e t b))) | None => zero3 end.
Definition total_field (e : Ephemeris) (t : R) (p : R3) : R3 := vsum (body_field e t p) (seq 0 (length (bodies_ e))).
Definition collides (e : Ephemeris) (t : R) (p : R3) (b : nat) : Prop :=
  exists body, nth_error (bodies_ e) b = Some body /\ Norm (sub3 (position_at e t b) p) <= 99 / 100 * min_radius body.

Definition code (c : bool) : Z := if c then kOutOfRange else kOk.
Lemma code_or a b : Z.lor (code a) (code b) = code (a || b).
Proof. now destruct a, b. Qed.
Definition hit (e : Ephemeris) (t : R) (p : R3) (b : nat) : bool :=
  match nth_error (bodies_ e) b with
  | Some body => if Rlt_dec (min_radius_tolerance * min_radius body) (Norm (sub3 (position_at e t b) p)) then false else true
  | None => false end.
Lemma hit_spec e t p b : hit e t p b = true <-> collides e t p b.
Proof.
  unfold hit, collides, min_radius_tolerance. destruct (nth_error (bodies_ e) b) as [body|].
  - destruct (Rlt_dec _ _) as [L|L]; split; try discriminate; try reflexivity.
    + intros (x & E & K). injection E as <-. lra.
    + intros _. exists body. split; [reflexivity|]. lra.
  - split; [discriminate|]. now intros (x & E & _).
Qed.

Lemma massless_loop e t b1 body ps l : consistent e -> nth_error (bodies_ e) b1 = Some body -> NoDup l -> forall f acc,
  exists acc', fold_left (massless_step (is_oblate body) t (gravitational_parameter body) b1 (position_at e t b1)
                   (min_radius_tolerance * min_radius body) ps (geopotentials_ e)) l (Some (code f, acc)) =
    Some (code (f || existsb (fun i => hit e t (ps i) b1) l), acc') /\
    forall i, ps i <> position_at e t b1 -> acc' i = add3 (acc i) (if existsb (Nat.eqb i) l then body_field e t (ps i) b1 else zero3).
Proof.
  intros C E. destruct (consistent_geo e C) as [G _]. specialize (G _ _ E).
  assert (OB : if is_oblate body then nth_error (geopotentials_ e) b1 = geo body else geo body = None).
  { unfold is_oblate. destruct (Nat.ltb b1 (number_of_oblate_bodies_ e)); [destruct G as [G K]; destruct (geo body); congruence|now rewrite G]. }
  clear G. induction l as [|j l IH]; intros ND f acc; cbn [fold_left existsb].
  - exists acc. rewrite orb_false_r. split; [reflexivity|]. intros i _. ve.
  - inversion ND as [|? ? NJ ND']; subst.
    assert (STEP : exists acc1, massless_step (is_oblate body) t (gravitational_parameter body) b1 (position_at e t b1)
       (min_radius_tolerance * min_radius body) ps (geopotentials_ e) (Some (code f, acc)) j = Some (code (f || hit e t (ps j) b1), acc1) /\
       (forall i, i <> j -> acc1 i = acc i) /\ (ps j <> position_at e t b1 -> acc1 j = add3 (acc j) (body_field e t (ps j) b1))).
    { unfold massless_step. cbn [bind]. set (dq := sub3 (position_at e t b1) (ps j)). fold (Norm dq).
      assert (EC : Z.lor (code f) (if Rlt_dec (min_radius_tolerance * min_radius body) (Norm dq) then kOk else kOutOfRange) = code (f || hit e t (ps j) b1)).
      { unfold hit. rewrite E. fold dq. rewrite <- code_or. now destruct (Rlt_dec _ _). }
      rewrite EC. assert (R : sub3 (ps j) (position_at e t b1) = opp3 dq) by (unfold dq; ve).
      assert (NO : Norm (opp3 dq) = Norm dq) by (unfold Norm, Norm2; f_equal; unfold opp3; cbn; ring).
      assert (N2O : Norm2 (opp3 dq) = Norm2 dq) by (unfold Norm2; unfold opp3; cbn; ring).
      assert (NZ : ps j <> position_at e t b1 -> dq <> zero3).
      { intros H K. apply H. unfold dq in K. destruct (position_at e t b1), (ps j). unfold sub3, zero3 in K. cbn in K. injection K as ? ? ?. f_equal; lra. }
      destruct (is_oblate body) eqn:IO.
      - rewrite OB. unfold is_oblate in IO. destruct (geo body) as [g|] eqn:EG; [|discriminate]. cbn [bind]. eexists. split; [reflexivity|]. split.
        + intros i NE. unfold update. now rewrite (proj2 (Nat.eqb_neq i j) NE).
        + intros H. unfold update. rewrite !Nat.eqb_refl. unfold body_field, field_of, newton, harmonics. rewrite E, EG, R, NO, N2O.
          pose proof (step_scalar dq (NZ H)) as SS. change (sqrt (Norm2 dq)) with (Norm dq) in *. rewrite !SS. set (k := 1 / _). set (h := harmonics_acceleration g _ _ _ _ _). ve.
      - eexists. split; [reflexivity|]. split.
        + intros i NE. unfold update. now rewrite (proj2 (Nat.eqb_neq i j) NE).
        + intros H. unfold update. rewrite !Nat.eqb_refl. unfold body_field, field_of, newton, harmonics. rewrite E, OB, R, NO.
          pose proof (step_scalar dq (NZ H)) as SS. change (sqrt (Norm2 dq)) with (Norm dq) in *. rewrite !SS. set (k := 1 / _). ve. }
    destruct STEP as (acc1 & S1 & OTHER & SAME). rewrite S1. destruct (IH ND' (f || hit e t (ps j) b1)%bool acc1) as (acc2 & E2 & S2). exists acc2.
    rewrite E2, orb_assoc. split; [reflexivity|]. intros i NI. rewrite S2 by exact NI. destruct (Nat.eqb_spec i j) as [->|NE]; cbn [orb].
    + rewrite SAME by exact NI. replace (existsb (Nat.eqb j) l) with false; [ve|]. symmetry. apply not_true_is_false. intros K. apply existsb_exists in K.
      destruct K as (c & I & EC). apply Nat.eqb_eq in EC. now subst c.
    + now rewrite OTHER.
Qed.

Lemma existsb_app' {A} (f : A -> bool) l m : existsb f (l ++ m) = (existsb f l || existsb f m)%bool.
Proof. apply existsb_app. Qed.

Lemma massless_bodies e t count ps o l : consistent e -> (forall b, In b l -> (b < length (bodies_ e))%nat /\ Nat.ltb b (number_of_oblate_bodies_ e) = o) -> forall f acc,
  exists acc', fold_left (fun s b1 => ByMassiveBodyOnMasslessBodies o e t b1 count ps s) l (Some (code f, acc)) =
      Some (code (f || existsb (fun b => existsb (fun i => hit e t (ps i) b) (range 0 count)) l), acc') /\
    forall i, (i < count)%nat -> (forall b, In b l -> ps i <> position_at e t b) -> acc' i = add3 (acc i) (vsum (body_field e t (ps i)) l).
Proof.
  intros C. destruct (consistent_geo e C) as [G _]. induction l as [|b l IH]; intros H f acc; cbn [fold_left existsb].
  - exists acc. rewrite orb_false_r. split; [reflexivity|]. intros i _ _. vs. ve.
  - destruct (H b (or_introl eq_refl)) as [L O]. unfold ByMassiveBodyOnMasslessBodies at 2.
    destruct (nth_error (bodies_ e) b) as [body|] eqn:E; [|apply nth_error_None in E; lia].
    assert (IO : is_oblate body = o).
    { specialize (G _ _ E). rewrite O in G. unfold is_oblate. destruct o; [destruct G as [_ K]; now destruct (geo body)|now rewrite G]. }
    destruct (massless_loop e t b body ps (range 0 count) C E (seq_NoDup _ _) f acc) as (a1 & E1 & S1). rewrite IO in E1. unfold position_at in E1 at 1. rewrite E1.
    destruct (IH (fun c I => H c (or_intror I)) (f || existsb (fun i => hit e t (ps i) b) (range 0 count))%bool a1) as (a2 & E2 & S2).
    exists a2. rewrite E2, orb_assoc. split; [reflexivity|]. intros i LI NI. rewrite S2 by (auto; intros; apply NI; now right).
    rewrite S1 by (apply NI; now left). vs. replace (existsb (Nat.eqb i) (range 0 count)) with true; [ve|].
    symmetry. apply existsb_exists. exists i. rewrite in_range, Nat.eqb_eq. lia.
Qed.

(** The error tells if one of the points is too close to one of the bodies. *)
Lemma on_massless e t count ps : consistent e ->
  exists error acc, OnMasslessBodies e t count ps = Some (error, acc) /\
    (error = kOutOfRange \/ error = kOk) /\
    (error = kOutOfRange <-> exists i b, (i < count)%nat /\ collides e t (ps i) b) /\
    forall i, (i < count)%nat -> (forall b, (b < length (bodies_ e))%nat -> ps i <> position_at e t b) -> acc i = total_field e t (ps i).
Proof.
  intros C. destruct (consistent_geo e C) as [G N]. unfold OnMasslessBodies. set (no := number_of_oblate_bodies_ e) in *. set (n := (no + number_of_spherical_bodies_ e)%nat) in *. cbv zeta.
  change kOk with (code false) at 1.
  destruct (massless_bodies e t count ps true (range 0 no) C) with (f := false) (acc := fun _ : nat => zero3) as (a1 & E1 & S1);
    [intros b I; apply in_range in I; fold no; rewrite Nat.ltb_lt; lia|]. rewrite E1.
  destruct (massless_bodies e t count ps false (range no n) C) with (f := (false || existsb (fun b => existsb (fun i => hit e t (ps i) b) (range 0 count)) (range 0 no))%bool) (acc := a1) as (a2 & E2 & S2);
    [intros b I; apply in_range in I; fold no; rewrite Nat.ltb_ge; lia|]. rewrite E2.
  set (c := (_ || existsb (fun b => _) (range no n))%bool). exists (code c), a2. split; [reflexivity|]. split; [destruct c; auto|]. split.
  - transitivity (c = true); [destruct c; cbn; split; auto; discriminate|]. unfold c. rewrite orb_false_l, <- existsb_app', range_app by lia. rewrite existsb_exists. split.
    + intros (b & I & X). apply existsb_exists in X. destruct X as (i & J & X). apply in_range in J. exists i, b. split; [lia|]. now apply hit_spec.
    + intros (i & b & L & X). exists b. split.
      * apply in_range. destruct X as (body & E & _). assert ((b < length (bodies_ e))%nat) by (apply nth_error_Some; congruence). lia.
      * apply existsb_exists. exists i. split; [apply in_range; lia|now apply hit_spec].
  - intros i L H. rewrite S2, S1 by (auto; intros b I; apply H; apply in_range in I; lia).
    unfold total_field. rewrite <- N. replace (seq 0 n) with (range 0 n) by (unfold range; f_equal; lia).
    rewrite <- (range_app 0 no n), vsum_app by lia. ve.
Qed.
