(* C85: perspectives and hiding by spheres. *)
From Coq Require Import ZArith Reals List Bool Lra Psatz Lia Permutation.
From Verif Require Double_Model.
From Verif Require Import Geometry_Model Hermite_Model.
From Verif Require Import Perspective_Model Perspective_Spec Perspective_Proofs Perspective_Proofs2 Perspective_Proofs3.
From Verif Require Import Perspective_Proofs4 Perspective_Proofs5.
Import ListNotations.
Local Open Scope R_scope.

(* In exact arithmetic, if the camera is outside of the sphere, not aligned with the segment, and if KA and KC are not
   orthogonal, VisibleSegments returns the parts of the segment that are not hidden by the sphere. *)
Theorem C85_visible_partial : forall K z f U V C radius,
  radius * radius < Norm2 (sub3 C K) -> Norm2 (Cross (sub3 U K) (sub3 V K)) <> 0 -> Dot (sub3 U K) (sub3 C K) <> 0 ->
  exists l,
    VisibleSegments exact false (Perspective (lift K) z f) (lift2 (U, V)) (Sphere (lift C) (Fin radius)) = Value (map lift2 l) /\
    correct U V (hidden K C radius) l.
Proof. exact visible_correct. Qed.
Print Assumptions C85_visible_partial.

(* A segment that passes behind a sphere: its middle is hidden, its extremities are not. *)
Example C85_visible_example :
  let K := mk3 0 0 0 in let U := mk3 (-80) 0 50 in let V := mk3 80 0 50 in let C := mk3 0 0 5 in
  exists l,
    VisibleSegments exact false (Perspective (lift K) (lift (mk3 0 0 1)) (Fin 1)) (lift2 (U, V)) (Sphere (lift C) (Fin 3)) =
      Value (map lift2 l) /\
    (forall s, In s l -> ~ between (fst s) (snd s) (mk3 0 0 50)) /\
    exists s, In s l /\ between (fst s) (snd s) (mk3 (-76) 0 50).
Proof.
  intros K U V C. destruct (C85_visible_partial K (lift (mk3 0 0 1)) (Fin 1) U V C 3) as (l & E & C1 & C2 & C3 & C4).
  - unfold Norm2, K, C. cbn. lra.
  - unfold Norm2, K, U, V. cbn. lra.
  - unfold Dot, K, U, C. cbn. lra.
  - exists l. split; [exact E|]. split.
    + intros s I B. apply (C3 (1 / 2)); [lra| |].
      * exists s. split; [exact I|]. replace (abscissa U V (1 / 2)) with (mk3 0 0 50); [exact B|].
        unfold U, V. apply eq3; cbn; lra.
      * exists (1 / 10). split; [lra|]. unfold Norm2, K, U, V, C. cbn. lra.
    + destruct (C4 (1 / 40)) as (s & I & B); [lra| |].
      * intros (t & T & H). unfold Norm2, K, U, V, C in H. cbn in H.
        pose proof (Rle_0_sqr (t - 1 / 40)) as S0. unfold Rsqr in S0. nra.
      * exists s. split; [exact I|]. replace (mk3 (-76) 0 50) with (abscissa U V (1 / 40)); [exact B|].
        unfold U, V. apply eq3; cbn; lra.
Qed.

(* If the camera is in the sphere everything is hidden, and nothing is returned. *)
Theorem C85_camera_inside : forall K z f U V C radius debug,
  (Norm2 (sub3 C K) <= radius * radius ->
   VisibleSegments exact debug (Perspective (lift K) z f) (lift2 (U, V)) (Sphere (lift C) (Fin radius)) = Value []) /\
  (Norm2 (sub3 C K) < radius * radius -> forall X, hidden K C radius X).
Proof.
  intros K z f U V C radius debug. split; [apply camera_inside|]. intros H X. apply camera_hidden. exact H.
Qed.
Print Assumptions C85_camera_inside.

(* If the camera is not in the sphere, IsHiddenBySphere tells if a point is hidden. *)
Theorem C85_point : forall K z f X C radius, radius * radius <= Norm2 (sub3 C K) ->
  IsHiddenBySphere exact (Perspective (lift K) z f) (lift X) (Sphere (lift C) (Fin radius)) = true <-> hidden K C radius X.
Proof. exact point_hidden. Qed.
Print Assumptions C85_point.

(* If the camera is in the sphere, IsHiddenBySphere says that some of the points are visible, unlike VisibleSegments. *)
Theorem C85_point_refuted : exists K C radius X,
  Norm2 (sub3 C K) < radius * radius /\ hidden K C radius X /\
  forall z f, IsHiddenBySphere exact (Perspective (lift K) z f) (lift X) (Sphere (lift C) (Fin radius)) = false.
Proof.
  exists (mk3 0 0 0), (mk3 0 0 1), 2, (mk3 0 0 (-50)).
  assert (H : Norm2 (sub3 (mk3 0 0 1) (mk3 0 0 0)) < 2 * 2) by (unfold Norm2; cbn; lra).
  split; [exact H|]. split; [apply camera_hidden; exact H|]. intros z f.
  unfold IsHiddenBySphere. cbv zeta. cbn [camera centre]. rewrite !vminus_lift, !norm2_lift, dot_lift.
  change (radius2 exact (Sphere (lift (mk3 0 0 1)) (Fin 2))) with (Fin (2 * 2)).
  cbn [less minus times exact xminus xtimes]. unfold Norm2, Dot. cbn.
  repeat match goal with |- context [Rlt_dec ?x ?y] => destruct (Rlt_dec x y); cbn; try lra; try reflexivity end.
Qed.
Print Assumptions C85_point_refuted.

(* SegmentBehindFocalPlane returns the part of the segment that is behind the focal plane, if the map from the camera is an
   isometry. *)
Theorem C85_focal_plane_partial : forall K z f U V, Norm2 z = 1 ->
  match SegmentBehindFocalPlane exact (Perspective (lift K) (lift z) (Fin f)) (lift2 (U, V)) with
  | None => forall t, 0 <= t <= 1 -> depth K z (abscissa U V t) < f
  | Some s => exists P Q, s = lift2 (P, Q) /\ between U V P /\ between U V Q /\
      forall t, 0 <= t <= 1 -> between P Q (abscissa U V t) <-> f <= depth K z (abscissa U V t)
  end.
Proof.
  intros K z f U V N. pose proof (behind_exact K z f U V) as H. cbv zeta in H.
  assert (E : forall X, depth K z X = Dot (sub3 X K) z) by (intros X; unfold depth; rewrite N; field).
  destruct (SegmentBehindFocalPlane _ _ _) as [s|].
  - destruct H as (P & Q & H1 & H2 & H3 & H4). exists P, Q. split; [exact H1|]. split; [exact H2|]. split; [exact H3|].
    intros t T. rewrite E. apply H4, T.
  - intros t T. rewrite E. apply H, T.
Qed.
Print Assumptions C85_focal_plane_partial.

(* It need not be if the map is a similarity: a segment in front of the focal plane is returned. *)
Theorem C85_focal_plane_refuted : exists K z f U V,
  Norm2 z = 4 /\ (forall t, 0 <= t <= 1 -> depth K z (abscissa U V t) < f) /\
  SegmentBehindFocalPlane exact (Perspective (lift K) (lift z) (Fin f)) (lift2 (U, V)) = Some (lift2 (U, V)).
Proof.
  exists (mk3 0 0 0), (mk3 0 0 2), 1, (mk3 0 0 1), (mk3 1 0 1). split; [unfold Norm2; cbn; lra|]. split.
  - intros t T. unfold depth, Dot, Norm2, abscissa. cbn. lra.
  - unfold SegmentBehindFocalPlane. cbv zeta. cbn [camera z_axis focal fst snd lift2]. rewrite !vminus_lift, !dot_lift.
    cbn [less_or_equal exact]. unfold Dot. cbn.
    repeat match goal with |- context [Rle_dec ?x ?y] => destruct (Rle_dec x y); cbn; try lra; try reflexivity end.
Qed.
Print Assumptions C85_focal_plane_refuted.

(* With several spheres the accesses are within bounds and the segments are those that remain when the spheres are considered
   one after the other. *)
Theorem C85_spheres : forall (X Y : Type) (visible : X -> Y -> list X), (forall x y, (length (visible x y) <= 2)%nat) ->
  forall s spheres, exists l, VisibleSegmentsMany visible s spheres = Some l /\ Permutation l (one_by_one visible s spheres).
Proof. intros X Y visible H s spheres. exact (many_ok visible H s spheres). Qed.
Print Assumptions C85_spheres.

(* Intervals of integers, from which the numbers are removed. *)
Definition remove (x : nat * nat) (y : nat) : list (nat * nat) :=
  if Nat.ltb (fst x) y && Nat.ltb y (snd x) then [(fst x, y); (y, snd x)]
  else if Nat.eqb (snd x) y then [] else [x].
Example C85_spheres_example :
  exists l, VisibleSegmentsMany remove (0, 100)%nat [20; 80; 40; 60; 100; 40]%nat = Some l /\
  one_by_one remove (0, 100)%nat [20; 80; 40; 60; 100; 40]%nat = [(0, 20); (40, 60); (60, 80)]%nat /\ length l = 3%nat.
Proof. eexists. vm_compute. auto. Qed.

(* The equality of doubles. *)
Definition same (u v : vector Double_Model.double) : bool :=
  Double_Model.eq (vx u) (vx v) && Double_Model.eq (vy u) (vy v) && Double_Model.eq (vz u) (vz v).
Definition is_whole (r : result (list (segment (T := Double_Model.double)))) (s : segment) : bool :=
  match r with Value [s'] => same (fst s') (fst s) && same (snd s') (snd s) | _ => false end.
(* On doubles, if the segment is aligned with the camera, the segment is returned although all of it is hidden. *)
Definition double_vector (a b c : Z) : vector Double_Model.double :=
  vec (Double_Model.of_Z a) (Double_Model.of_Z b) (Double_Model.of_Z c).
Definition double_perspective : perspective :=
  Perspective (double_vector 0 0 0) (double_vector 0 0 1) (Double_Model.of_Z 1).
Theorem C85_aligned_refuted :
  let s := (double_vector 0 0 5, double_vector 0 0 10) in
  let sphere := Sphere (double_vector 0 0 2) (Double_Model.of_Z 1) in
  is_whole (VisibleSegments doubles false double_perspective s sphere) s = true /\
  IsHiddenBySphere doubles double_perspective (fst s) sphere = true /\
  IsHiddenBySphere doubles double_perspective (snd s) sphere = true.
Proof. vm_compute. auto. Qed.
Print Assumptions C85_aligned_refuted.

(* If KA and KC are orthogonal, the segment is returned although it goes through the centre of the sphere. *)
Theorem C85_orthogonal_refuted :
  let s := (double_vector 4 0 0, double_vector (-4) 0 8) in
  let sphere := Sphere (double_vector 0 0 4) (Double_Model.of_Z 1) in
  is_whole (VisibleSegments doubles false double_perspective s sphere) s = true /\
  same (barycentre doubles (fst s) (snd s) (Double_Model.of_Z2 1 (-1)) (Double_Model.of_Z2 1 (-1))) (centre sphere) = true /\
  IsHiddenBySphere doubles double_perspective (centre sphere) sphere = true.
Proof. vm_compute. auto. Qed.
Print Assumptions C85_orthogonal_refuted.

(* If the second extremity is on the sphere, a DCHECK fails. *)
Theorem C85_check_refuted :
  let s := (double_vector 20 0 5, double_vector 0 0 2) in
  let sphere := Sphere (double_vector 0 0 5) (Double_Model.of_Z 3) in
  VisibleSegments doubles true double_perspective s sphere = CheckFailed /\
  match VisibleSegments doubles false double_perspective s sphere with Value [_] => True | _ => False end.
Proof. vm_compute. auto. Qed.
Print Assumptions C85_check_refuted.

(* Away from these cases, the doubles: a segment that is hidden, and one that passes behind. *)
Example C85_doubles_example :
  let sphere := Sphere (double_vector 0 0 5) (Double_Model.of_Z 3) in
  VisibleSegments doubles true double_perspective (double_vector 20 0 50, double_vector 10 0 50) sphere = Value [] /\
  match VisibleSegments doubles true double_perspective (double_vector (-80) 0 50, double_vector 80 0 50) sphere with
  | Value [s1; s2] => same (fst s1) (double_vector (-80) 0 50) && same (snd s2) (double_vector 80 0 50) = true
  | _ => False
  end.
Proof. vm_compute. auto. Qed.
