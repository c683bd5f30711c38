(* Vocabulary for the statements about perspectives. *)
From Coq Require Import Reals List.
From Verif Require Import Geometry_Model Hermite_Model Perspective_Model.
Import ListNotations.
Local Open Scope R_scope.

(* A vector of real numbers in the exact arithmetic. *)
Definition lift (v : R3) : vector extended := vec (Fin (cx v)) (Fin (cy v)) (Fin (cz v)).
Definition lift2 (s : R3 * R3) : segment (T := extended) := (lift (fst s), lift (snd s)).

(* The point of the line UV with abscissa t, and the segment UV. *)
Definition abscissa (U V : R3) (t : R) : R3 := add3 U (scal3 t (sub3 V U)).
Definition between (U V X : R3) : Prop := exists t, 0 <= t <= 1 /\ X = abscissa U V t.

(* The point X is hidden by the open ball if the segment from the camera to X meets it. *)
Definition hidden (K C : R3) (radius : R) (X : R3) : Prop :=
  exists t, 0 <= t <= 1 /\ Norm2 (sub3 (abscissa K X t) C) < radius * radius.

(* The list l of at most two parts of the segment UV is what remains when the points that satisfy H are removed: no point of
   the parts satisfies H, and, the extremities of UV aside, the points that do not satisfy H are in the parts. *)
Definition correct (U V : R3) (H : R3 -> Prop) (l : list (R3 * R3)) : Prop :=
  (length l <= 2)%nat /\
  (forall s, In s l -> exists t1 t2, 0 <= t1 <= t2 /\ t2 <= 1 /\ s = (abscissa U V t1, abscissa U V t2)) /\
  (forall t, 0 <= t <= 1 -> (exists s, In s l /\ between (fst s) (snd s) (abscissa U V t)) -> ~ H (abscissa U V t)) /\
  (forall t, 0 < t < 1 -> ~ H (abscissa U V t) -> exists s, In s l /\ between (fst s) (snd s) (abscissa U V t)).

(* The coordinate of X along the axis of the camera, in the frame of the camera: z is the image of the unit vector of the
   axis, and its norm is the scale of the similarity from the camera. *)
Definition depth (K z X : R3) : R := Dot (sub3 X K) z / Norm2 z.

(* The segments that remain when the spheres are considered one after the other. *)
Definition one_by_one {X Y : Type} (visible : X -> Y -> list X) (s : X) (spheres : list Y) : list X :=
  fold_left (fun segments sphere => flat_map (fun x => visible x sphere) segments) spheres [s].
