(** The motion along an orbit. *)
From Coq Require Import Reals Lra Lia List Bool.
From Verif Require Import Geometry_Model Geometry_Proofs Geometry_Proofs2 VectorCalculus_Proofs RotatingBody_Model RotatingBody_Proofs
  Kepler_Model Kepler_Proofs.
Import ListNotations.
Open Scope R_scope.

(** * Specification *)
(** The motion of two bodies under their mutual gravitation: [x] is the displacement of the second body from the
    first one and [v] its velocity. *)
Definition two_body_motion (mu : R) (x v : R -> R3) : Prop :=
  forall t, 0 < Norm (x t) /\ has_derivative x t (v t) /\ has_derivative v t (scal3 (- (mu / Norm (x t) ^ 3)) (x t)).
(** The displacement and velocity at the true anomaly [nu] on a conic in the plane of the x and y axes, with the
    periapsis on the x axis. *)
Definition perifocal (mu e l nu : R) : R3 * R3 :=
  (mk3 (l * cos nu / (1 + e * cos nu)) (l * sin nu / (1 + e * cos nu)) 0,
   mk3 (- sqrt (mu / l) * sin nu) (sqrt (mu / l) * (e + cos nu)) 0).
(** A rotation around the z axis, followed by one around the x axis, and by another one around the z axis. *)
Definition oriented (Omega i w : R) (u : R3) : R3 := rot_z Omega (rot_x i (rot_z w u)).
Definition kepler_state (mu e l i Omega w nu : R) : R3 * R3 :=
  (oriented Omega i w (fst (perifocal mu e l nu)), oriented Omega i w (snd (perifocal mu e l nu))).
(** The contract of the root finder, in exact arithmetic. *)
Definition root_finder (Brent : (R -> R) -> R -> R -> R) : Prop :=
  forall f a b, continuity f -> f a * f b <= 0 ->
    Rmin a b <= Brent f a b <= Rmax a b /\ f (Brent f a b) = 0.

(** * Root finders exist *)
Lemma lub_root f a b : a <= b -> continuity f -> f a <= 0 <= f b ->
  forall m, is_lub (fun x => x = a \/ a <= x <= b /\ f x <= 0) m -> a <= m <= b /\ f m = 0.
Proof.
  intros AB C [FA FB] m [U L].
  assert (MA : a <= m) by (apply U; left; reflexivity).
  assert (MB : m <= b) by (apply L; intros x [->|[[_ X] _]]; lra).
  split; [lra|]. destruct (Rtotal_order (f m) 0) as [N|[Z|P]]; [exfalso|exact Z|exfalso].
  - destruct (C m (- f m)) as (d & D & H); [lra|]. cbn in H. unfold R_dist in H.
    assert (MB' : m < b) by (destruct (Req_dec m b); [subst; lra|lra]).
    set (x := m + Rmin (d / 2) ((b - m) / 2)).
    assert (X : m < x <= b /\ x - m < d).
    { unfold x. pose proof (Rmin_l (d / 2) ((b - m) / 2)). pose proof (Rmin_r (d / 2) ((b - m) / 2)).
      assert (0 < Rmin (d / 2) ((b - m) / 2)) by (apply Rmin_glb_lt; lra). lra. }
    assert (Q : Rabs (f x - f m) < - f m).
    { apply H. split; [split; [exact I|lra]|]. rewrite Rabs_right; lra. }
    apply Rabs_def2 in Q. assert (x <= m); [|lra]. apply U. right. split; lra.
  - destruct (C m (f m)) as (d & D & H); [lra|]. cbn in H. unfold R_dist in H.
    assert (Q : m <= m - Rmin (d / 2) ((m - a) / 2)).
    { assert (MA' : a < m) by (destruct (Req_dec m a); [subst; lra|lra]).
      pose proof (Rmin_l (d / 2) ((m - a) / 2)). pose proof (Rmin_r (d / 2) ((m - a) / 2)).
      assert (0 < Rmin (d / 2) ((m - a) / 2)) by (apply Rmin_glb_lt; lra).
      apply L. intros x [->|[X FX]]; [lra|].
      destruct (Rle_or_lt x (m - Rmin (d / 2) ((m - a) / 2))) as [Y|Y]; [exact Y|exfalso].
      assert (XM : x <= m) by (apply U; right; split; lra).
      destruct (Req_dec x m); [subst; lra|].
      assert (QQ : Rabs (f x - f m) < f m).
      { apply H. split; [split; [exact I|lra]|]. rewrite Rabs_left; lra. }
      apply Rabs_def2 in QQ. lra. }
    assert (MA' : a < m) by (destruct (Req_dec m a); [subst; lra|lra]).
    assert (0 < Rmin (d / 2) ((m - a) / 2)) by (apply Rmin_glb_lt; lra). lra.
Qed.

Lemma finder_bound f a b : bound (fun x => x = a \/ a <= x <= b /\ f x <= 0).
Proof. exists (Rmax a b). intros x [->|[X _]]; [apply Rmax_l|]. pose proof (Rmax_r a b). lra. Qed.
Lemma finder_inhabited (f : R -> R) a b : exists x, (fun x => x = a \/ a <= x <= b /\ f x <= 0) x.
Proof. exists a. left. reflexivity. Qed.
Definition some_root (f : R -> R) (a b : R) : R :=
  proj1_sig (completeness _ (finder_bound f a b) (finder_inhabited f a b)).
Lemma some_root_spec f a b : a <= b -> continuity f -> f a <= 0 <= f b -> a <= some_root f a b <= b /\ f (some_root f a b) = 0.
Proof.
  intros AB C S. unfold some_root. destruct (completeness _ _ _) as [m M]. cbn [proj1_sig].
  eapply lub_root; eassumption.
Qed.
Definition some_finder (f : R -> R) (a b : R) : R :=
  let l := Rmin a b in let u := Rmax a b in
  if Rle_dec (f l) 0 then (if Rle_dec 0 (f u) then some_root f l u else l) else some_root (fun x => - f x) l u.
Lemma root_finder_exists : root_finder some_finder.
Proof.
  intros f a b C S. unfold some_finder.
  assert (LU : Rmin a b <= Rmax a b) by (pose proof (Rmin_l a b); pose proof (Rmax_l a b); lra).
  assert (S' : f (Rmin a b) * f (Rmax a b) <= 0).
  { unfold Rmin, Rmax. destruct (Rle_dec a b); lra. }
  set (l := Rmin a b) in *. set (u := Rmax a b) in *. clearbody l u.
  destruct (Rle_dec (f l) 0) as [P|P].
  - destruct (Rle_dec 0 (f u)) as [Q|Q]; [apply some_root_spec; auto|].
    split; [lra|]. nra.
  - assert (C' : continuity (fun x => - f x)) by (apply (continuity_opp f), C).
    destruct (some_root_spec (fun x => - f x) l u LU C') as [R1 R2]; [split; nra|]. split; [exact R1|lra].
Qed.

(** * Inverse functions *)
Lemma increments g g' c : (forall x, derivable_pt_lim g x (g' x)) -> (forall x, c <= g' x) ->
  forall x y, x <= y -> c * (y - x) <= g y - g x.
Proof.
  intros D B x y [L|E]; [|subst; lra].
  destruct (MVT_cor2 g g' x y L) as (z & E & _); [auto|]. rewrite E. pose proof (B z). nra.
Qed.
Lemma inverse_derivative g g' c G : 0 < c -> (forall x, derivable_pt_lim g x (g' x)) -> (forall x, c <= g' x) ->
  (forall m, g (G m) = m) -> forall m, derivable_pt_lim G m (/ g' (G m)).
Proof.
  intros C D B I m eps Heps. pose proof (increments g g' c D B) as INC.
  set (d := g' (G m)). assert (DC : c <= d) by apply B.
  assert (P : 0 < eps * (c * c)) by (repeat apply Rmult_lt_0_compat; lra).
  destruct (D (G m) (eps * (c * c)) P) as [del H]. fold d in H.
  assert (Q : 0 < c * del) by (apply Rmult_lt_0_compat; [lra|apply cond_pos]).
  exists (mkposreal _ Q). intros h NZ S. cbn [pos] in S.
  set (k := G (m + h) - G m).
  assert (HK : h = g (G m + k) - g (G m)) by (unfold k; replace (G m + (G (m + h) - G m)) with (G (m + h)) by ring; rewrite !I; ring).
  assert (KZ : k <> 0) by (intros Z; rewrite Z, Rplus_0_r in HK; lra).
  set (q := (g (G m + k) - g (G m)) / k). assert (HQ : h = q * k) by (unfold q; rewrite HK at 1; field; exact KZ).
  assert (QC : c <= q).
  { destruct (Rle_or_lt 0 k) as [K|K].
    - pose proof (INC (G m) (G m + k) ltac:(lra)) as J. rewrite <- HK in J. nra.
    - pose proof (INC (G m + k) (G m) ltac:(lra)) as J. nra. }
  assert (KD : Rabs k < del).
  { assert (R : Rabs h = q * Rabs k) by (rewrite HQ, Rabs_mult, (Rabs_right q) by lra; reflexivity).
    pose proof (Rabs_pos k). rewrite R in S. apply (Rmult_lt_reg_l c); [exact C|]. nra. }
  pose proof (H k KZ KD) as J. fold q in J.
  replace (G (m + h) - G m) with k by reflexivity.
  replace (k / h - / d) with ((d - q) * / (q * d)) by (rewrite HQ; field; repeat split; lra).
  rewrite Rabs_mult. rewrite (Rabs_right (/ (q * d))) by (apply Rle_ge, Rlt_le, Rinv_0_lt_compat; nra).
  rewrite Rabs_minus_sym. apply (Rmult_lt_reg_r (q * d)); [nra|].
  rewrite Rmult_assoc, Rinv_l by nra. assert (c * c <= q * d) by nra.
  pose proof (Rabs_pos (q - d)). nra.
Qed.

(** * From the eccentric anomaly to the state *)
Lemma double_arctan y x : x <> 0 \/ y <> 0 ->
  cos (2 * ArcTan2 y x) = (x * x - y * y) / (x * x + y * y) /\ sin (2 * ArcTan2 y x) = 2 * x * y / (x * x + y * y).
Proof.
  intros NZ. destruct (arctan2_polar y x NZ) as (_ & X & Y). set (t := ArcTan2 y x) in *. clearbody t.
  assert (P : 0 < x * x + y * y) by (destruct NZ; nra).
  set (r := sqrt (x * x + y * y)) in *. assert (R : r * r = x * x + y * y) by (apply sqrt_sqrt; lra).
  assert (0 < r) by (apply sqrt_lt_R0; exact P). clearbody r. rewrite <- R. rewrite X, Y.
  rewrite cos_2a, sin_2a. split; field; lra.
Qed.

Lemma oriented_rotate Omega i w u : rotate (from_orbit_plane Omega i w) u = oriented Omega i w u.
Proof.
  unfold from_orbit_plane.
  destruct (angles_from 2 0 2 Omega i w) as [_ H]; try lia. rewrite H. reflexivity.
Qed.

Lemma state_vectors_spec mu e i Omega w l eps nu : 0 < mu -> 0 <= e -> 0 < l -> 0 < 1 + e * cos nu ->
  2 * eps * l = - mu * (1 - e * e) ->
  state_vectors mu e i Omega w l eps nu = Some (kepler_state mu e l i Omega w nu).
Proof.
  intros M E L P EPS. unfold state_vectors. cbv zeta. cbn [ncos nsin lift1 nmul nadd lift2].
  rewrite ndiv_fin by lra. cbn [narctan lift2].
  set (r := l / (1 + e * cos nu)). assert (RP : 0 < r) by (apply Rdiv_lt_0_compat; lra).
  rewrite ndiv_fin by lra. cbn [nadd nmul lift2].
  assert (NZ : 1 + e * cos nu <> 0 \/ e * sin nu <> 0) by (left; lra).
  destruct (arctan2_polar (e * sin nu) (1 + e * cos nu) NZ) as (_ & X & Y).
  set (phi := ArcTan2 (e * sin nu) (1 + e * cos nu)) in *. clearbody phi.
  set (D := sqrt ((1 + e * cos nu) * (1 + e * cos nu) + e * sin nu * (e * sin nu))) in *.
  assert (D2 : D * D = (1 + e * cos nu) * (1 + e * cos nu) + e * sin nu * (e * sin nu)) by (apply sqrt_sqrt; nra).
  assert (DP : 0 < D) by (apply sqrt_lt_R0; nra). clearbody D.
  assert (SC : sin nu * sin nu = 1 - cos nu * cos nu) by (pose proof (sin2_cos2 nu) as Q; unfold Rsqr in Q; lra).
  assert (Q : nsqrt (Fin (2 * (eps + mu / r))) = Fin (sqrt (mu / l) * D)).
  { apply nsqrt_is.
    - apply Rmult_le_pos; [apply sqrt_pos|lra].
    - transitivity (sqrt (mu / l) * sqrt (mu / l) * (D * D)); [|ring].
      rewrite sqrt_sqrt by (apply Rlt_le, Rdiv_lt_0_compat; lra). rewrite D2.
      assert (EE : eps = - mu * (1 - e * e) / (2 * l)) by (apply (Rmult_eq_reg_r (2 * l)); [field_simplify; lra|lra]).
      rewrite EE. unfold r. field [SC]. lra. }
  rewrite Q. f_equal. unfold kepler_state, perifocal. cbn [fst snd]. rewrite !oriented_rotate. f_equal.
  - rewrite <- !oriented_rotate, <- rotate_scal. f_equal. unfold scal3. cbn. unfold r. apply mk3_eq; field; lra.
  - rewrite <- !oriented_rotate, <- rotate_scal. f_equal. unfold scal3. cbn [cx cy cz].
    assert (C1 : D * cos phi = 1 + e * cos nu) by lra. assert (S1 : D * sin phi = e * sin nu) by lra.
    apply mk3_eq.
    + rewrite sin_minus.
      transitivity (sqrt (mu / l) * (cos nu * (D * sin phi) - sin nu * (D * cos phi))); [ring|]. rewrite C1, S1. ring.
    + rewrite cos_minus.
      transitivity (sqrt (mu / l) * (cos nu * (D * cos phi) + sin nu * (D * sin phi))); [ring|]. rewrite C1, S1. ring [SC].
    + ring.
Qed.
