(** Specifications and proofs for the linear maps of geometry/. *)
From Coq Require Import Reals List ZArith Bool Lra Lia Permutation.
From Verif Require Import Geometry_Model.
Import ListNotations.
Open Scope R_scope.

(** * Specifications, independent of the model's algorithms *)
Definition e_x := mk3 1 0 0.
Definition e_y := mk3 0 1 0.
Definition e_z := mk3 0 0 1.
Definition unit_q (q : Quaternion) : Prop := re q * re q + cx (im q) * cx (im q) + cy (im q) * cy (im q) + cz (im q) * cz (im q) = 1.

(** The signed volume spanned by three vectors. *)
Definition volume (u v w : R3) : R :=
  cx u * (cy v * cz w - cz v * cy w) - cy u * (cx v * cz w - cz v * cx w) + cz u * (cx v * cy w - cy v * cx w).

(** The determinant of a linear map is [d]. *)
Definition has_determinant (f : R3 -> R3) (d : R) : Prop :=
  forall u v w, volume (f u) (f v) (f w) = d * volume u v w.

(** Rodrigues' formula: the image of [v] under the rotation of [angle] around the unit vector [n]. *)
Definition rodrigues (angle : R) (n v : R3) : R3 :=
  mk3 (cos angle * cx v + sin angle * (cy n * cz v - cz n * cy v) + (1 - cos angle) * (cx n * cx v + cy n * cy v + cz n * cz v) * cx n)
      (cos angle * cy v + sin angle * (cz n * cx v - cx n * cz v) + (1 - cos angle) * (cx n * cx v + cy n * cy v + cz n * cz v) * cy n)
      (cos angle * cz v + sin angle * (cx n * cy v - cy n * cx v) + (1 - cos angle) * (cx n * cx v + cy n * cy v + cz n * cz v) * cz n).

(** The elementary rotations around the coordinate axes. *)
Definition rot_x (a : R) (v : R3) : R3 := mk3 (cx v) (cos a * cy v - sin a * cz v) (sin a * cy v + cos a * cz v).
Definition rot_y (a : R) (v : R3) : R3 := mk3 (cos a * cx v + sin a * cz v) (cy v) (cos a * cz v - sin a * cx v).
Definition rot_z (a : R) (v : R3) : R3 := mk3 (cos a * cx v - sin a * cy v) (sin a * cx v + cos a * cy v) (cz v).
Definition rot_axis (i : Z) : R -> R3 -> R3 := if (i =? 0)%Z then rot_x else if (i =? 1)%Z then rot_y else rot_z.

(** Textbook matrix of a unit quaternion. *)
Definition quaternion_matrix (q : Quaternion) (v : R3) : R3 :=
  let w := re q in let x := cx (im q) in let y := cy (im q) in let z := cz (im q) in
  mk3 ((1 - 2*(y*y + z*z)) * cx v + 2*(x*y - z*w) * cy v + 2*(x*z + y*w) * cz v)
      (2*(x*y + z*w) * cx v + (1 - 2*(x*x + z*z)) * cy v + 2*(y*z - x*w) * cz v)
      (2*(x*z - y*w) * cx v + 2*(y*z + x*w) * cy v + (1 - 2*(x*x + y*y)) * cz v).

(** A right-handed orthonormal basis. *)
Definition right_handed (x y z : R3) : Prop :=
  Dot x x = 1 /\ Dot y y = 1 /\ Dot z z = 1 /\ Dot x y = 0 /\ Dot y z = 0 /\ Dot z x = 0 /\ volume x y z = 1.

(** The value of a bilinear form. *)
Definition form (f : M3) (u v : R3) : R :=
  cx u * (cx (rx f) * cx v + cy (rx f) * cy v + cz (rx f) * cz v) +
  cy u * (cx (ry f) * cx v + cy (ry f) * cy v + cz (ry f) * cz v) +
  cz u * (cx (rz f) * cx v + cy (rz f) * cy v + cz (rz f) * cz v).
Definition symmetric (f : M3) : Prop :=
  cy (rx f) = cx (ry f) /\ cz (rx f) = cx (rz f) /\ cz (ry f) = cy (rz f).

Definition sgn (negative : bool) : R := if negative then -1 else 1.

(** The documented action of each permutation: the coordinates of the result, by name. *)
Definition named_action (p : Z) (v : R3) : option R3 :=
  if (p =? XYZ)%Z then Some (mk3 (cx v) (cy v) (cz v)) else
  if (p =? YZX)%Z then Some (mk3 (cy v) (cz v) (cx v)) else
  if (p =? ZXY)%Z then Some (mk3 (cz v) (cx v) (cy v)) else
  if (p =? XZY)%Z then Some (mk3 (cx v) (cz v) (cy v)) else
  if (p =? ZYX)%Z then Some (mk3 (cz v) (cy v) (cx v)) else
  if (p =? YXZ)%Z then Some (mk3 (cy v) (cx v) (cz v)) else None.

(** * Tactics *)
Ltac d3 := repeat match goal with v : R3 |- _ => destruct v end.
Ltac dq := repeat match goal with q : Quaternion |- _ => destruct q end; d3.
Ltac red_all := cbv [volume unit_q Dot Cross Norm2 QNorm2 add3 sub3 opp3 scal3 div3 Qmult RotMul OrthMul Conjugate RotInverse
  OrthInverse rotate quaternion_matrix rodrigues rot_x rot_y rot_z Mapp Mmul Madd Mscal Transpose Trace form symmetric
  qreal RotIdentity zero3 e_x e_y e_z cx cy cz re im rx ry rz] in *.
Ltac ext3 := red_all; f_equal; try ring.

Lemma mk3_eq a b c a' b' c' : a = a' -> b = b' -> c = c' -> mk3 a b c = mk3 a' b' c'.
Proof. intros -> -> ->. reflexivity. Qed.

(** * Rotations *)

(** The homogeneous form of the action. *)
Definition homog (q : Quaternion) (v : R3) : R3 :=
  let w := re q in let x := cx (im q) in let y := cy (im q) in let z := cz (im q) in
  mk3 ((w*w + x*x - y*y - z*z) * cx v + 2*(x*y - z*w) * cy v + 2*(x*z + y*w) * cz v)
      (2*(x*y + z*w) * cx v + (w*w - x*x + y*y - z*z) * cy v + 2*(y*z - x*w) * cz v)
      (2*(x*z - y*w) * cx v + 2*(y*z + x*w) * cy v + (w*w - x*x - y*y + z*z) * cz v).

Lemma rotate_matrix q v : rotate q v = quaternion_matrix q v.
Proof. dq. red_all. apply mk3_eq; ring. Qed.

Lemma rotate_homog q v : unit_q q -> rotate q v = homog q v.
Proof.
  intros U. rewrite rotate_matrix. dq. unfold homog. red_all.
  apply mk3_eq; rewrite <- U; ring.
Qed.

Lemma unit_mul p q : unit_q p -> unit_q q -> unit_q (Qmult p q).
Proof.
  unfold unit_q. intros P Q.
  transitivity ((re p * re p + cx (im p) * cx (im p) + cy (im p) * cy (im p) + cz (im p) * cz (im p)) *
                (re q * re q + cx (im q) * cx (im q) + cy (im q) * cy (im q) + cz (im q) * cz (im q))).
  - clear. dq. red_all. ring.
  - rewrite P, Q. ring.
Qed.
Lemma unit_conj q : unit_q q -> unit_q (Conjugate q).
Proof. intros U. dq. red_all. rewrite <- U. ring. Qed.
Lemma unit_one : unit_q RotIdentity.
Proof. red_all. ring. Qed.

Lemma rotate_mul p q v : unit_q p -> unit_q q -> rotate (Qmult p q) v = rotate p (rotate q v).
Proof.
  intros P Q. rewrite (rotate_homog q), (rotate_homog p), (rotate_homog _ v) by auto using unit_mul.
  clear. dq. unfold homog. red_all. apply mk3_eq; ring.
Qed.

Lemma rotate_id v : rotate RotIdentity v = v.
Proof. d3. red_all. apply mk3_eq; ring. Qed.

Lemma rotate_inv q v : unit_q q -> rotate (Conjugate q) (rotate q v) = v.
Proof.
  intros U. rewrite <- rotate_mul by auto using unit_conj.
  replace (Qmult (Conjugate q) q) with RotIdentity; [apply rotate_id|].
  dq. red_all. f_equal; [rewrite <- U; ring | apply mk3_eq; ring].
Qed.
Lemma conj_conj q : Conjugate (Conjugate q) = q.
Proof. dq. red_all. f_equal. apply mk3_eq; ring. Qed.
Lemma rotate_inv' q v : unit_q q -> rotate q (rotate (Conjugate q) v) = v.
Proof. intros U. rewrite <- (conj_conj q) at 1. apply rotate_inv, unit_conj, U. Qed.

Lemma rotate_dot q u v : unit_q q -> Dot (rotate q u) (rotate q v) = Dot u v.
Proof.
  intros U. rewrite !rotate_homog by auto.
  transitivity ((re q * re q + cx (im q) * cx (im q) + cy (im q) * cy (im q) + cz (im q) * cz (im q)) *
                (re q * re q + cx (im q) * cx (im q) + cy (im q) * cy (im q) + cz (im q) * cz (im q)) * Dot u v).
  - clear. dq. unfold homog. red_all. ring.
  - unfold unit_q in U. rewrite U. ring.
Qed.
Lemma rotate_cross q u v : unit_q q -> Cross (rotate q u) (rotate q v) = rotate q (Cross u v).
Proof.
  intros U. rewrite !rotate_homog by auto.
  transitivity (scal3 (re q * re q + cx (im q) * cx (im q) + cy (im q) * cy (im q) + cz (im q) * cz (im q)) (homog q (Cross u v))).
  - clear. dq. unfold homog. red_all. apply mk3_eq; ring.
  - unfold unit_q in U. rewrite U. unfold scal3. destruct (homog q (Cross u v)). cbn. apply mk3_eq; ring.
Qed.
Lemma volume_cross u v w : volume u v w = Dot u (Cross v w).
Proof. d3. red_all. ring. Qed.
Lemma rotate_det q : unit_q q -> has_determinant (rotate q) 1.
Proof. intros U u v w. rewrite !volume_cross, rotate_cross, rotate_dot by auto. ring. Qed.

(** Linearity. *)
Lemma rotate_add q u v : rotate q (add3 u v) = add3 (rotate q u) (rotate q v).
Proof. dq. red_all. apply mk3_eq; ring. Qed.
Lemma rotate_sub q u v : rotate q (sub3 u v) = sub3 (rotate q u) (rotate q v).
Proof. dq. red_all. apply mk3_eq; ring. Qed.
Lemma rotate_scal q a v : rotate q (scal3 a v) = scal3 a (rotate q v).
Proof. dq. red_all. apply mk3_eq; ring. Qed.
Lemma rotate_opp q v : rotate q (opp3 v) = opp3 (rotate q v).
Proof. dq. red_all. apply mk3_eq; ring. Qed.

(** Axis and angle. *)
Lemma half_angle a : cos a = cos (/2 * a) * cos (/2 * a) - sin (/2 * a) * sin (/2 * a)
                  /\ sin a = 2 * sin (/2 * a) * cos (/2 * a).
Proof.
  replace a with (2 * (/2 * a)) at 1 by lra. replace (sin a) with (sin (2 * (/2 * a))) by (f_equal; lra).
  split; [apply cos_2a | apply sin_2a].
Qed.

Lemma angle_axis_unit a n : Norm2 n = 1 -> unit_q (AngleAxis a n).
Proof.
  intros N. unfold AngleAxis. pose proof (sin2_cos2 (/2 * a)) as H. unfold Rsqr in H.
  transitivity (cos (/2*a) * cos (/2*a) + sin (/2*a) * sin (/2*a) * Norm2 n).
  - destruct n. red_all. ring.
  - rewrite N. lra.
Qed.

Lemma angle_axis_rodrigues a n v : Norm2 n = 1 -> rotate (AngleAxis a n) v = rodrigues a n v.
Proof.
  intros N. rewrite rotate_homog by now apply angle_axis_unit.
  destruct (half_angle a) as [C S]. pose proof (sin2_cos2 (/2 * a)) as H. unfold Rsqr in H.
  unfold rodrigues, AngleAxis, homog.
  set (c := cos (/2*a)) in *. set (s := sin (/2*a)) in *. clearbody c s.
  replace (1 - cos a) with (2 * (s * s)) by lra.
  replace (cos a) with (c * c - s * s * Norm2 n) by (rewrite N; lra).
  rewrite S. clear. destruct n, v. red_all. apply mk3_eq; ring.
Qed.

Lemma norm2_pos v : v <> zero3 -> 0 < Norm2 v.
Proof.
  intros Hv. destruct v as [x y z]. red_all.
  pose proof (Rle_0_sqr x). pose proof (Rle_0_sqr y). pose proof (Rle_0_sqr z). unfold Rsqr in *.
  destruct (Req_dec x 0) as [->|X].
  - destruct (Req_dec y 0) as [->|Y].
    + destruct (Req_dec z 0) as [->|Z]; [now destruct Hv|]. pose proof (Rsqr_pos_lt z Z). unfold Rsqr in *. lra.
    + pose proof (Rsqr_pos_lt y Y). unfold Rsqr in *. lra.
  - pose proof (Rsqr_pos_lt x X). unfold Rsqr in *. lra.
Qed.
Lemma norm2_nonneg v : 0 <= Norm2 v.
Proof. destruct v as [x y z]. red_all. pose proof (Rle_0_sqr x). pose proof (Rle_0_sqr y). pose proof (Rle_0_sqr z). unfold Rsqr in *. lra. Qed.
Lemma norm_sq v : Norm v * Norm v = Norm2 v.
Proof. apply sqrt_sqrt, norm2_nonneg. Qed.
Lemma norm_pos v : v <> zero3 -> 0 < Norm v.
Proof. intros H. apply sqrt_lt_R0, norm2_pos, H. Qed.
Lemma normalize_unit v : v <> zero3 -> Norm2 (Normalize v) = 1.
Proof.
  intros H. pose proof (norm_pos v H) as P. pose proof (norm_sq v) as Q. unfold Normalize.
  transitivity (Norm2 v / (Norm v * Norm v)).
  - destruct v. set (n := Norm _) in *. clearbody n. red_all. field. lra.
  - rewrite Q. field. pose proof (norm2_pos v H). lra.
Qed.
Lemma normalize_scal v : v <> zero3 -> scal3 (Norm v) (Normalize v) = v.
Proof.
  intros H. pose proof (norm_pos v H). unfold Normalize, scal3, div3. destruct v as [x y z]. cbn [cx cy cz].
  apply mk3_eq; field; lra.
Qed.

Lemma rot_axis_rodrigues a n v : n <> zero3 -> rotate (RotAxis a n) v = rodrigues a (Normalize n) v.
Proof. intros H. apply angle_axis_rodrigues, normalize_unit, H. Qed.

(** Rodrigues rotations around the same axis add up. *)
Lemma angle_axis_opp a n : AngleAxis (- a) n = Conjugate (AngleAxis a n).
Proof.
  unfold AngleAxis, Conjugate, scal3, opp3. cbn [re im cx cy cz].
  replace (/2 * - a) with (- (/2 * a)) by lra. rewrite cos_neg, sin_neg. f_equal. apply mk3_eq; ring.
Qed.

(** Axes: a matrix with right-handed orthonormal rows. *)
Lemma right_handed_cross x y z : right_handed x y z -> z = Cross x y /\ x = Cross y z /\ y = Cross z x.
Proof.
  intros (XX & YY & ZZ & XY & YZ & ZX & V).
  assert (K : forall a b c, Dot a a = 1 -> Dot b b = 1 -> Dot a b = 0 -> Dot c c = 1 -> volume a b c = 1 -> c = Cross a b).
  { clear. intros a b c A B AB C V.
    (* |c - a x b|^2 = |c|^2 - 2 V + |a|^2 |b|^2 - (a.b)^2 = 0. *)
    assert (E : Norm2 (sub3 c (Cross a b)) = 0).
    { transitivity (Dot c c - 2 * volume a b c + (Dot a a * Dot b b - Dot a b * Dot a b)).
      - clear. d3. red_all. ring.
      - rewrite A, B, AB, C, V. ring. }
    destruct (Req_dec (cx (sub3 c (Cross a b))) 0) as [X|X];
    [destruct (Req_dec (cy (sub3 c (Cross a b))) 0) as [Y|Y];
     [destruct (Req_dec (cz (sub3 c (Cross a b))) 0) as [Z|Z]|]|].
    - clear - X Y Z. d3. red_all. apply mk3_eq; lra.
    - exfalso. assert (H : sub3 c (Cross a b) <> zero3) by (intros H; apply Z; rewrite H; reflexivity).
      apply norm2_pos in H. lra.
    - exfalso. assert (H : sub3 c (Cross a b) <> zero3) by (intros H; apply Y; rewrite H; reflexivity).
      apply norm2_pos in H. lra.
    - exfalso. assert (H : sub3 c (Cross a b) <> zero3) by (intros H; apply X; rewrite H; reflexivity).
      apply norm2_pos in H. lra. }
  repeat split; apply K; auto.
  - rewrite <- V. clear. d3. red_all. ring.
  - rewrite <- V. clear. d3. red_all. ring.
Qed.

(** The quadratic relations between the coordinates of a quaternion and its matrix. *)
Lemma quaternion_of_relations w x y z a b c d e f g h i :
  4*(w*w) = 1+a+e+i -> 4*(x*x) = 1+a-e-i -> 4*(y*y) = 1-a+e-i -> 4*(z*z) = 1-a-e+i ->
  4*(w*x) = h-f -> 4*(w*y) = c-g -> 4*(w*z) = d-b -> 4*(x*y) = b+d -> 4*(x*z) = c+g -> 4*(y*z) = f+h ->
  unit_q (mkQ w (mk3 x y z)) /\
  forall v, rotate (mkQ w (mk3 x y z)) v = Mapp (mkM (mk3 a b c) (mk3 d e f) (mk3 g h i)) v.
Proof.
  intros. split; [red_all; lra|]. intros [p q r]. rewrite rotate_matrix. red_all. apply mk3_eq.
  - replace (1 - 2 * (y*y + z*z)) with a by lra. replace (2 * (x*y - z*w)) with b by lra.
    replace (2 * (x*z + y*w)) with c by lra. ring.
  - replace (1 - 2 * (x*x + z*z)) with e by lra. replace (2 * (x*y + z*w)) with d by lra.
    replace (2 * (y*z - x*w)) with f by lra. ring.
  - replace (1 - 2 * (x*x + y*y)) with i by lra. replace (2 * (x*z - y*w)) with g by lra.
    replace (2 * (y*z + x*w)) with h by lra. ring.
Qed.

Lemma scale_facts k : 0 < k ->
  4 * ((/2 * sqrt k) * (/2 * sqrt k)) = k /\
  (forall m, 4 * ((/2 * sqrt k) * (m * (/2 / sqrt k))) = m) /\
  (forall m, 4 * ((m * (/2 / sqrt k)) * (/2 * sqrt k)) = m) /\
  (forall m n l, m * n = l * k -> 4 * ((m * (/2 / sqrt k)) * (n * (/2 / sqrt k))) = l).
Proof.
  intros P. pose proof (sqrt_lt_R0 _ P) as Q. pose proof (sqrt_sqrt _ (Rlt_le _ _ P)) as S.
  set (r := sqrt k) in *. clearbody r. repeat split; intros.
  - lra.
  - field. lra.
  - field. lra.
  - transitivity ((m * n) / (r * r)); [field; lra|]. rewrite H, S. field. lra.
Qed.

Lemma to_quaternion_correct m :
  right_handed (rx m) (ry m) (rz m) -> unit_q (ToQuaternion m) /\ forall v, rotate (ToQuaternion m) v = Mapp m v.
Proof.
  intros H. pose proof (right_handed_cross _ _ _ H) as (CZ & CX & CY).
  destruct H as (XX & YY & ZZ & XY & YZ & ZX & V).
  destruct m as [[a b c] [d e f] [g h i]].
  unfold ToQuaternion, Trace.
  red_all. injection CZ as Cg Ch Ci. injection CX as Ca Cb Cc. injection CY as Cd Ce Cf.
  (* columns *)
  assert (K1 : a*a + d*d + g*g = 1) by (rewrite Ca at 1; rewrite Cd at 1; rewrite Cg at 1; lra).
  assert (K2 : b*b + e*e + h*h = 1) by (rewrite Cb at 1; rewrite Ce at 1; rewrite Ch at 1; lra).
  assert (K3 : c*c + f*f + i*i = 1) by (rewrite Cc at 1; rewrite Cf at 1; rewrite Ci at 1; lra).
  assert (K4 : a*b + d*e + g*h = 0) by (rewrite Ca at 1; rewrite Cd at 1; rewrite Cg at 1; ring).
  assert (K5 : b*c + e*f + h*i = 0) by (rewrite Cb at 1; rewrite Ce at 1; rewrite Ch at 1; ring).
  assert (K6 : a*c + d*f + g*i = 0) by (rewrite Ca at 1; rewrite Cd at 1; rewrite Cg at 1; ring).
  pose proof quaternion_of_relations as QR. red_all.
  destruct (Rlt_dec 0 (a + e + i)) as [T|T]; [|destruct (Rlt_dec (Rmax e i) a) as [A|A]; [|destruct (Rlt_dec i e) as [B|B]]].
  - destruct (scale_facts (1 + (a + e + i))) as (S1 & S2 & S3 & S4); [lra|].
    apply QR; rewrite ?S1, ?S2, ?S3; try (apply S4); lra.
  - pose proof (Rmax_l e i). pose proof (Rmax_r e i).
    destruct (scale_facts (1 + a - e - i)) as (S1 & S2 & S3 & S4); [lra|].
    apply QR; rewrite ?S1, ?S2, ?S3; try (apply S4); lra.
  - assert (a <= e) by (destruct (Rle_or_lt a e); [assumption|]; exfalso; apply A; apply Rmax_lub_lt; lra).
    destruct (scale_facts (1 - a + e - i)) as (S1 & S2 & S3 & S4); [lra|].
    apply QR; rewrite ?S1, ?S2, ?S3; try (apply S4); lra.
  - assert (a <= i) by (destruct (Rle_or_lt a i); [assumption|]; exfalso; apply A; apply Rmax_lub_lt; lra).
    destruct (scale_facts (1 - a - e + i)) as (S1 & S2 & S3 & S4); [lra|].
    apply QR; rewrite ?S1, ?S2, ?S3; try (apply S4); lra.
Qed.

Lemma to_axes x y z : right_handed x y z ->
  unit_q (RotToAxes x y z) /\
  rotate (RotToAxes x y z) x = e_x /\ rotate (RotToAxes x y z) y = e_y /\ rotate (RotToAxes x y z) z = e_z.
Proof.
  intros H. destruct (to_quaternion_correct (mkM x y z) H) as [U A]. unfold RotToAxes.
  split; [exact U|]. rewrite !A. destruct H as (XX & YY & ZZ & XY & YZ & ZX & V). unfold Mapp. cbn [rx ry rz].
  assert (C : forall a b, Dot a b = Dot b a) by (intros; d3; red_all; ring).
  rewrite XX, YY, ZZ, XY, YZ, ZX, (C y x), (C z y), (C x z), XY, YZ, ZX. repeat split.
Qed.

Lemma transpose_right_handed x y z : right_handed x y z ->
  let m := Transpose (mkM x y z) in right_handed (rx m) (ry m) (rz m).
Proof.
  intros H. pose proof (right_handed_cross _ _ _ H) as (CZ & CX & CY).
  destruct H as (XX & YY & ZZ & XY & YZ & ZX & V). intros m. subst m.
  destruct x as [a b c], y as [d e f], z as [g h i].
  red_all. injection CZ as Cg Ch Ci. injection CX as Ca Cb Cc. injection CY as Cd Ce Cf. unfold right_handed. red_all.
  repeat split.
  - rewrite Ca at 1; rewrite Cd at 1; rewrite Cg at 1; lra.
  - rewrite Cb at 1; rewrite Ce at 1; rewrite Ch at 1; lra.
  - rewrite Cc at 1; rewrite Cf at 1; rewrite Ci at 1; lra.
  - rewrite Ca at 1; rewrite Cd at 1; rewrite Cg at 1; ring.
  - rewrite Cb at 1; rewrite Ce at 1; rewrite Ch at 1; ring.
  - rewrite Cc at 1; rewrite Cf at 1; rewrite Ci at 1; ring.
  - lra.
Qed.

Lemma from_axes x y z : right_handed x y z ->
  unit_q (RotFromAxes x y z) /\
  rotate (RotFromAxes x y z) e_x = x /\ rotate (RotFromAxes x y z) e_y = y /\ rotate (RotFromAxes x y z) e_z = z.
Proof.
  intros H. destruct (to_quaternion_correct (Transpose (mkM x y z)) (transpose_right_handed x y z H)) as [U A].
  unfold RotFromAxes. split; [exact U|]. rewrite !A. clear. d3. red_all. repeat split; apply mk3_eq; ring.
Qed.

(** Passive rotations: a vector of the defined frame obtained by actively rotating a basis vector of the other. *)
Lemma defines_to a n v : n <> zero3 -> rotate (RotAxisDefinesTo a n) (rodrigues a (Normalize n) v) = v.
Proof.
  intros H. unfold RotAxisDefinesTo. rewrite angle_axis_opp.
  rewrite <- angle_axis_rodrigues by now apply normalize_unit.
  apply rotate_inv, angle_axis_unit, normalize_unit, H.
Qed.

Lemma basis_unit i : (0 <= i <= 2)%Z -> Norm2 (BasisVector i) = 1.
Proof. intros H. assert (i = 0 \/ i = 1 \/ i = 2)%Z as [->|[->| ->]] by lia; unfold BasisVector; cbn; red_all; ring. Qed.
Lemma basis_rotation i a v : (0 <= i <= 2)%Z -> rotate (AngleAxis a (BasisVector i)) v = rot_axis i a v.
Proof.
  intros H. rewrite angle_axis_rodrigues by now apply basis_unit.
  assert (i = 0 \/ i = 1 \/ i = 2)%Z as [->|[->| ->]] by lia; unfold BasisVector, rot_axis; cbn [Z.eqb Pos.eqb];
  destruct v; red_all; apply mk3_eq; ring.
Qed.

Lemma digits a b c : (0 <= a <= 2)%Z -> (0 <= b <= 2)%Z -> (0 <= c <= 2)%Z ->
  BinaryCodedTernaryDigit 2 (AxisConvention a b c) = a /\
  BinaryCodedTernaryDigit 1 (AxisConvention a b c) = b /\
  BinaryCodedTernaryDigit 0 (AxisConvention a b c) = c.
Proof.
  intros A B C.
  assert (a = 0 \/ a = 1 \/ a = 2)%Z as [->|[->| ->]] by lia;
  assert (b = 0 \/ b = 1 \/ b = 2)%Z as [->|[->| ->]] by lia;
  assert (c = 0 \/ c = 1 \/ c = 2)%Z as [->|[->| ->]] by lia; now repeat split.
Qed.

Lemma angles_from i j k a b c : (0 <= i <= 2)%Z -> (0 <= j <= 2)%Z -> (0 <= k <= 2)%Z ->
  unit_q (RotAnglesDefinesFrom a b c (AxisConvention i j k)) /\
  forall v, rotate (RotAnglesDefinesFrom a b c (AxisConvention i j k)) v = rot_axis i a (rot_axis j b (rot_axis k c v)).
Proof.
  intros I J K. unfold RotAnglesDefinesFrom. destruct (digits i j k I J K) as (-> & -> & ->).
  pose proof (fun a i H => angle_axis_unit a _ (basis_unit i H)) as U. unfold RotMul. split.
  - auto using unit_mul.
  - intros v. rewrite !rotate_mul by auto using unit_mul. now rewrite !basis_rotation.
Qed.

Lemma angles_to i j k a b c : (0 <= i <= 2)%Z -> (0 <= j <= 2)%Z -> (0 <= k <= 2)%Z ->
  unit_q (RotAnglesDefinesTo a b c (AxisConvention i j k)) /\
  forall v, rotate (RotAnglesDefinesTo a b c (AxisConvention i j k)) (rot_axis i a (rot_axis j b (rot_axis k c v))) = v.
Proof.
  intros I J K. destruct (angles_from i j k a b c I J K) as [U A]. split.
  - now apply unit_conj.
  - intros v. rewrite <- A. now apply rotate_inv.
Qed.

(** Recovering the axis and the angle. *)
Lemma cos_atan_pos x : 0 < cos (atan x).
Proof. pose proof (atan_bound x). apply cos_gt_0; lra. Qed.

Lemma axis_angle_roundtrip q v : unit_q q -> im q <> zero3 ->
  rotate (RotAxis (RotationAngle q) (RotationAxis q)) v = rotate q v /\ - PI < RotationAngle q <= PI.
Proof.
  intros U I.
  assert (NU := normalize_unit (im q) I). pose proof (norm_pos _ I) as NP. pose proof (norm_sq (im q)) as NS.
  assert (Z : RotationAxis q <> zero3).
  { intros E. unfold RotationAxis in E. rewrite E in NU. unfold zero3, Norm2 in NU. cbn in NU. lra. }
  assert (NN : Normalize (RotationAxis q) = RotationAxis q).
  { unfold Normalize at 1, Norm. unfold RotationAxis. rewrite NU, sqrt_1. unfold div3.
    destruct (Normalize (im q)). cbn. apply mk3_eq; field. }
  split; [|unfold RotationAngle; pose proof (atan_bound (Norm (im q) / re q)); pose proof PI_RGT_0; destruct (Req_EM_T (re q) 0); lra].
  unfold RotAxis. rewrite NN. unfold AngleAxis, RotationAngle. destruct (Req_EM_T (re q) 0) as [W|W].
  { replace (/2 * (2 * (PI / 2))) with (PI / 2) by field. rewrite cos_PI2, sin_PI2. f_equal.
    destruct q as [w i]. cbn [re im] in *. subst w. f_equal. unfold RotationAxis, Normalize, Norm. cbn [im].
    replace (Norm2 i) with 1 by (unfold unit_q in U; cbn [re im] in U; unfold Norm2; lra).
    rewrite sqrt_1. destruct i. unfold scal3, div3. cbn. apply mk3_eq; field. }
  replace (/2 * (2 * atan (Norm (im q) / re q))) with (atan (Norm (im q) / re q)) by lra.
  set (t := Norm (im q) / re q). pose proof (cos_atan_pos t) as CP.
  set (C := cos (atan t)) in *. assert (S : sin (atan t) = t * C).
  { unfold C. rewrite <- (tan_atan t) at 2. unfold tan. field. fold C. lra. }
  assert (CC : C * C = re q * re q).
  { pose proof (sin2_cos2 (atan t)) as H. unfold Rsqr in H. fold C in H. rewrite S in H.
    assert (C * C * (1 + t * t) = 1) by lra.
    assert (T : re q * re q * (1 + t * t) = 1).
    { unfold t. transitivity (re q * re q + Norm (im q) * Norm (im q)); [field; auto|].
      rewrite NS. unfold Norm2. unfold unit_q in U. lra. }
    assert (0 < 1 + t * t) by (pose proof (Rle_0_sqr t); unfold Rsqr in *; lra).
    apply Rmult_eq_reg_r with (1 + t * t); lra. }
  (* The quaternion is q or its opposite. *)
  assert (Q : mkQ C (scal3 (sin (atan t)) (RotationAxis q)) = q \/
              mkQ C (scal3 (sin (atan t)) (RotationAxis q)) = mkQ (- re q) (opp3 (im q))).
  { rewrite S. pose proof (normalize_scal (im q) I) as IM. fold (RotationAxis q) in IM.
    assert (C = re q \/ C = - re q) as [E|E].
    { assert ((C - re q) * (C + re q) = 0) by lra. apply Rmult_integral in H. lra. }
    - left. rewrite E. destruct q as [w i]. cbn [re im] in *. f_equal.
      transitivity (scal3 (Norm i) (RotationAxis (mkQ w i))); [|exact IM].
      unfold t. cbn [re im]. set (m := Norm i). set (n := RotationAxis _). destruct n. unfold scal3. cbn. apply mk3_eq; field; auto.
    - right. rewrite E. destruct q as [w i]. cbn [re im] in *. f_equal.
      transitivity (opp3 (scal3 (Norm i) (RotationAxis (mkQ w i)))); [|now rewrite IM].
      unfold t. cbn [re im]. set (m := Norm i). set (n := RotationAxis _). destruct n. unfold scal3, opp3. cbn. apply mk3_eq; field; auto. }
  destruct Q as [-> | ->]; [reflexivity|].
  rewrite !rotate_matrix. clear. dq. red_all. apply mk3_eq; ring.
Qed.

(** The exponential. *)
Lemma exp_correct w v : w <> zero3 -> rotate (Exp w) v = rodrigues (Norm w) (Normalize w) v.
Proof.
  intros H. unfold Exp. pose proof (norm_pos w H). destruct (Req_EM_T (Norm w) 0); [lra|]. now apply rot_axis_rodrigues.
Qed.
Lemma exp_zero v : rotate (Exp zero3) v = v.
Proof.
  unfold Exp. destruct (Req_EM_T (Norm zero3) 0) as [e|n]; [apply rotate_id|].
  destruct n. unfold Norm, Norm2, zero3. cbn. replace (0*0+0*0+0*0) with 0 by ring. apply sqrt_0.
Qed.

(** Symmetric bilinear forms. *)
Lemma form_dot f u v : form f u v = Dot u (Mapp f v).
Proof. destruct f. d3. red_all. ring. Qed.

Lemma rot_form_matrix q f u v : symmetric f ->
  form (RotForm q f) (rotate q u) (rotate q v) = form f (rotate (Conjugate q) (rotate q u)) (rotate (Conjugate q) (rotate q v)).
Proof.
  intros S. generalize (rotate q u), (rotate q v). clear u v. intros u v.
  unfold RotForm. destruct f as [[a b c] [d e f] [g h i]]. unfold symmetric in S. cbn in S. destruct S as (-> & -> & ->).
  repeat rewrite rotate_matrix. dq. red_all. field.
Qed.

Lemma half_sum_symmetric m : symmetric (Mscal (/ 2) (Madd m (Transpose m))).
Proof. destruct m as [[a b c] [d e f] [g h i]]. red_all. repeat split; ring. Qed.
Lemma rot_form q f u v : unit_q q -> symmetric f ->
  form (RotForm q f) (rotate q u) (rotate q v) = form f u v /\ symmetric (RotForm q f).
Proof.
  intros U S. split.
  - rewrite rot_form_matrix by auto. now rewrite !rotate_inv.
  - unfold RotForm. cbv zeta. apply half_sum_symmetric.
Qed.

(** * Signs and signatures *)
Lemma sign_mul_sgn a b : sgn (sign_mul a b) = sgn a * sgn b.
Proof. destruct a, b; cbn; ring. Qed.
Lemma smul_sgn a x : smul a x = sgn a * x.
Proof. destruct a; cbn; ring. Qed.

(** The invariant of the class: the product of the signs is the determinant. *)
Definition sig_valid (det : bool) (s : Signature) : Prop := xorb (xorb (sx s) (sy s)) (sz s) = det.

Lemma sig_ctors det a b :
  sig_valid det (SigXY det a b) /\ sig_valid det (SigXZ det a b) /\ sig_valid det (SigYZ det a b).
Proof. destruct det, a, b; repeat split. Qed.
Lemma sig_make det : sig_valid det (MakeSignature det).
Proof. destruct det; reflexivity. Qed.
Lemma sig_det det s : sig_valid det s -> has_determinant (sig_vector s) (sgn det).
Proof. intros <- u v w. destruct s as [[] [] []]; d3; cbv [sig_vector smul sgn xorb sx sy sz]; red_all; ring. Qed.
Lemma sig_mul dl dr l r v : sig_valid dl l -> sig_valid dr r ->
  sig_valid (xorb dl dr) (SigMul l r) /\ sig_vector (SigMul l r) v = sig_vector l (sig_vector r v).
Proof.
  intros <- <-. destruct l as [[] [] []], r as [[] [] []]; (split; [reflexivity|]); d3; cbv [sig_vector smul SigMul sign_mul negb Bool.eqb sx sy sz];
  red_all; apply mk3_eq; ring.
Qed.
Lemma sig_inv s v : sig_vector (SigInverse s) (sig_vector s v) = v.
Proof. destruct s as [[] [] []]; d3; cbv [sig_vector smul SigInverse sx sy sz]; red_all; apply mk3_eq; ring. Qed.
Lemma sig_cross det s u v : sig_valid det s ->
  sig_bivector det s (Cross u v) = Cross (sig_vector s u) (sig_vector s v).
Proof.
  intros <-. destruct s as [[] [] []]; d3; cbv [sig_vector sig_bivector smul sign_mul negb Bool.eqb xorb sx sy sz]; red_all; apply mk3_eq; ring.
Qed.
Lemma sig_form_invariant s f u v : form (sig_form s f) (sig_vector s u) (sig_vector s v) = form f u v.
Proof.
  destruct f as [[a b c] [d e f] [g h i]], s as [[] [] []]; d3; cbv [sig_vector sig_form smul Bool.eqb sx sy sz]; red_all; ring.
Qed.
Lemma sig_form_symmetric s f : symmetric f -> symmetric (sig_form s f).
Proof.
  destruct f as [[a b c] [d e f] [g h i]], s as [[] [] []]; intros (A & B & C); cbn in A, B, C; subst;
  cbv [sig_form Bool.eqb sx sy sz]; red_all; repeat split; ring.
Qed.

(** * Orthogonal maps *)
Lemma orth_vector_eq det q v : orth_vector det q v = smul3 det (rotate q v).
Proof. unfold orth_vector. dq. destruct det; cbv [MakeSignature SigCentralInversion SigIdentity SigXY sign_mul negb Bool.eqb sig_vector smul smul3 sx sy sz];
 red_all; try reflexivity; apply mk3_eq; ring. Qed.
Lemma orth_bivector_eq det q v : orth_bivector det q v = rotate q v.
Proof. unfold orth_bivector. dq. destruct det; cbv [MakeSignature SigCentralInversion SigIdentity SigXY sign_mul negb Bool.eqb sig_bivector smul sx sy sz];
 red_all; try reflexivity; apply mk3_eq; ring. Qed.
Lemma smul3_smul3 a b v : smul3 a (smul3 b v) = smul3 (xorb a b) v.
Proof. d3. destruct a, b; cbn; red_all; try reflexivity; apply mk3_eq; ring. Qed.
Lemma rotate_smul3 q a v : rotate q (smul3 a v) = smul3 a (rotate q v).
Proof. destruct a; cbn; [apply rotate_opp | reflexivity]. Qed.
Lemma orth_mul dl dr l r v : unit_q l -> unit_q r ->
  orth_vector (xorb dl dr) (OrthMul l r) v = orth_vector dl l (orth_vector dr r v).
Proof. intros L R. rewrite !orth_vector_eq. unfold OrthMul. now rewrite rotate_mul, rotate_smul3, smul3_smul3. Qed.
Lemma smul3_invol a v : smul3 a (smul3 a v) = v.
Proof. rewrite smul3_smul3, xorb_nilpotent. reflexivity. Qed.
Lemma orth_inv d q v : unit_q q -> orth_vector d (OrthInverse q) (orth_vector d q v) = v.
Proof. intros U. rewrite !orth_vector_eq, rotate_smul3. unfold OrthInverse. now rewrite rotate_inv, smul3_invol. Qed.
Lemma orth_inv' d q v : unit_q q -> orth_vector d q (orth_vector d (OrthInverse q) v) = v.
Proof. intros U. rewrite !orth_vector_eq, rotate_smul3. unfold OrthInverse. now rewrite rotate_inv', smul3_invol. Qed.
Lemma orth_dot d q u v : unit_q q -> Dot (orth_vector d q u) (orth_vector d q v) = Dot u v.
Proof.
  intros U. rewrite !orth_vector_eq, <- (rotate_dot q u v U). destruct d; cbn; [|reflexivity].
  destruct (rotate q u), (rotate q v). red_all. ring.
Qed.
Lemma orth_det d q : unit_q q -> has_determinant (orth_vector d q) (sgn d).
Proof.
  intros U u v w. rewrite !orth_vector_eq. transitivity (sgn d * volume (rotate q u) (rotate q v) (rotate q w)).
  - destruct (rotate q u), (rotate q v), (rotate q w). destruct d; cbn; red_all; ring.
  - rewrite (rotate_det q U u v w). ring.
Qed.
Lemma orth_cross d q u v : unit_q q -> orth_bivector d q (Cross u v) = Cross (orth_vector d q u) (orth_vector d q v).
Proof.
  intros U. rewrite orth_bivector_eq, !orth_vector_eq, <- rotate_cross by auto.
  destruct (rotate q u), (rotate q v), d; cbn; red_all; try reflexivity; apply mk3_eq; ring.
Qed.
Lemma orth_form_invariant d q f u v : unit_q q -> symmetric f ->
  form (orth_form d q f) (orth_vector d q u) (orth_vector d q v) = form f u v /\ symmetric (orth_form d q f).
Proof.
  intros U S. unfold orth_form, orth_vector.
  destruct (rot_form q (sig_form (MakeSignature d) f) (sig_vector (MakeSignature d) u) (sig_vector (MakeSignature d) v) U
            (sig_form_symmetric _ _ S)) as [-> Y].
  split; [apply sig_form_invariant | exact Y].
Qed.

Lemma sig_forget det s v : sig_valid det s -> unit_q (SigForget det s) /\ orth_vector det (SigForget det s) v = sig_vector s v.
Proof.
  intros <-. rewrite orth_vector_eq.
  destruct s as [[] [] []]; split; d3; cbv [SigForget sig_vector smul smul3 xorb sign_mul negb Bool.eqb andb sx sy sz]; red_all;
  try apply mk3_eq; ring.
Qed.

(** * Permutations *)
Ltac perm_cases H := cbn [permutations even_permutations odd_permutations In] in H;
  repeat (destruct H as [<-|H]); [.. | destruct H].

Lemma perm_action p v : In p permutations -> perm_r3 p v = named_action p v /\ named_action p v <> None.
Proof. intros H. perm_cases H; split; (reflexivity || discriminate). Qed.

Definition act (p : Z) (v : R3) : R3 := match perm_r3 p v with Some w => w | None => v end.
Lemma act_spec p v : In p permutations -> perm_r3 p v = Some (act p v).
Proof. intros H. perm_cases H; reflexivity. Qed.

Lemma perm_mul p q : In p permutations -> In q permutations ->
  exists r, PermMul p q = Some r /\ In r permutations /\ (r <? 0)%Z = xorb (p <? 0)%Z (q <? 0)%Z /\
            forall v, act r v = act p (act q v).
Proof.
  intros P Q. perm_cases P; perm_cases Q; vm_compute PermMul; eexists; (split; [reflexivity|]);
  (split; [cbv; tauto|]); (split; [reflexivity|]); intros [x y z]; reflexivity.
Qed.
Lemma perm_mul_assoc p q r : In p permutations -> In q permutations -> In r permutations ->
  exists pq qr s, PermMul p q = Some pq /\ PermMul q r = Some qr /\ PermMul pq r = Some s /\ PermMul p qr = Some s.
Proof.
  intros P Q R. perm_cases P; perm_cases Q; perm_cases R; (eexists; eexists; eexists; split; [vm_compute; reflexivity|]; split; [vm_compute; reflexivity|]; split; vm_compute; reflexivity).
Qed.
Lemma perm_identity p : In p permutations -> PermMul XYZ p = Some p /\ PermMul p XYZ = Some p.
Proof. intros P. perm_cases P; split; reflexivity. Qed.
Lemma perm_inverse p : In p permutations ->
  exists i, PermInverse p (p <? 0)%Z = Some i /\ In i permutations /\ (i <? 0)%Z = (p <? 0)%Z /\
            PermMul i p = Some XYZ /\ PermMul p i = Some XYZ /\
            forall v, act i (act p v) = v /\ act p (act i v) = v.
Proof.
  intros P. perm_cases P; vm_compute PermInverse; eexists; (split; [reflexivity|]); (split; [cbv; tauto|]);
  (split; [reflexivity|]); (split; [reflexivity|]); (split; [reflexivity|]); intros [x y z]; split; reflexivity.
Qed.
Lemma perm_determinant p : In p permutations ->
  exists s, PermDeterminant p = Some s /\ has_determinant (act p) (sgn s) /\ (s = true <-> In p odd_permutations).
Proof.
  intros P. perm_cases P; vm_compute PermDeterminant; eexists; (split; [reflexivity|]);
  (split; [intros [a b c] [d e f] [g h i]; unfold act; match goal with |- context [perm_r3 ?p] => let q := eval vm_compute in p in change p with q end; cbn; red_all; cbn; ring|]);
  (split; intros H; [try discriminate H; cbv; tauto | cbv in H; (reflexivity || (decompose [or] H; (discriminate || tauto)))]).
Qed.
Lemma perm_faithful p q : In p permutations -> In q permutations -> (forall v, act p v = act q v) -> p = q.
Proof.
  intros P Q H. specialize (H (mk3 0 1 2)).
  perm_cases P; perm_cases Q; try reflexivity; cbv in H; injection H; intros; exfalso; lra.
Qed.
Lemma perm_cross p u v : In p permutations -> perm_bivector p (Cross u v) = Some (Cross (act p u) (act p v)).
Proof.
  intros P. unfold perm_bivector. rewrite act_spec by auto.
  perm_cases P; vm_compute PermDeterminant; unfold act;
  match goal with |- context [perm_r3 ?p] => let q := eval vm_compute in p in change p with q end;
  cbn; d3; red_all; cbn; f_equal; apply mk3_eq; ring.
Qed.
Lemma sqrt_half_sq : sqrt_half * sqrt_half = / 2.
Proof. apply sqrt_sqrt. lra. Qed.
Lemma perm_forget p v : In p permutations ->
  exists q, PermForget p = Some q /\ unit_q q /\ orth_vector (p <? 0)%Z q v = act p v.
Proof.
  intros P. destruct v as [x y z]. pose proof sqrt_half_sq as H. set (s := sqrt_half) in *.
  assert (Hx : s * s * x = / 2 * x) by (rewrite H; ring). assert (Hy : s * s * y = / 2 * y) by (rewrite H; ring).
  assert (Hz : s * s * z = / 2 * z) by (rewrite H; ring).
  perm_cases P; unfold PermForget; match goal with |- context [perm_index ?p] => let q := eval vm_compute in (perm_index p) in change (perm_index p) with q end;
  cbn [Z.to_nat Pos.to_nat Pos.iter_op nth_error quaternions Nat.add]; eexists; (split; [reflexivity|]);
  (split; [fold s; red_all; lra|]); rewrite orth_vector_eq; fold s; unfold act;
  match goal with |- context [perm_r3 ?p] => let q := eval vm_compute in p in change p with q end;
  cbn; red_all; cbn; apply mk3_eq; lra.
Qed.
Lemma perm_code_int32 p : In p permutations -> (-2147483648 <= p < 2147483648)%Z.
Proof. intros P. perm_cases P; vm_compute; split; congruence. Qed.

(** * Orthogonalization *)
Lemma orthogonalization v w : w <> zero3 ->
  Dot (OrthogonalizationAgainst v w) w = 0 /\ exists k, v = add3 (OrthogonalizationAgainst v w) (scal3 k w).
Proof.
  intros H. pose proof (normalize_scal w H) as S. pose proof (normalize_unit w H) as U. unfold OrthogonalizationAgainst. cbv zeta.
  pose proof (norm_pos w H) as P. set (r := Norm w) in *. set (n := Normalize w) in *. clearbody r n. subst w. split.
  - transitivity (r * Dot v n * (1 - Norm2 n)); [clear; d3; red_all; ring | rewrite U; ring].
  - exists (Dot v n / r). clear - P. set (k := Dot v n). clearbody k. d3. red_all. apply mk3_eq; field; lra.
Qed.
