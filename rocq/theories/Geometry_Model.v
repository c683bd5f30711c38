(** Model of the linear maps of geometry/, in exact arithmetic ([double] is modelled by [R]; quantities by their
    value in SI units; frames are not represented, the handedness of the frames of a map being given by the
    determinant sign where the C++ computes it from the types). *)
From Coq Require Import Reals List ZArith Bool.
Import ListNotations.
Open Scope R_scope.

(** * R3Element (geometry/r3_element.hpp) *)
Record R3 := mk3 { cx : R; cy : R; cz : R }.

(** geometry/r3_element_body.hpp:265-268. *)
Definition opp3 (v : R3) : R3 := mk3 (- cx v) (- cy v) (- cz v).
(** geometry/r3_element_body.hpp:270-283. *)
Definition add3 (u v : R3) : R3 := mk3 (cx u + cx v) (cy u + cy v) (cz u + cz v).
(** geometry/r3_element_body.hpp:285-298. *)
Definition sub3 (u v : R3) : R3 := mk3 (cx u - cx v) (cy u - cy v) (cz u - cz v).
(** geometry/r3_element_body.hpp:300-318 and 320-337. *)
Definition scal3 (a : R) (v : R3) : R3 := mk3 (a * cx v) (a * cy v) (a * cz v).
(** geometry/r3_element_body.hpp:339-356. *)
Definition div3 (v : R3) (a : R) : R3 := mk3 (cx v / a) (cy v / a) (cz v / a).
(** geometry/r3_element_body.hpp:585-593. *)
Definition Cross (l r : R3) : R3 :=
  mk3 (cy l * cz r - cz l * cy r) (cz l * cx r - cx l * cz r) (cx l * cy r - cy l * cx r).
(** geometry/r3_element_body.hpp:595-599. *)
Definition Dot (l r : R3) : R := cx l * cx r + cy l * cy r + cz l * cz r.
(** geometry/r3_element_body.hpp:170-173 and 165-168. *)
Definition Norm2 (v : R3) : R := cx v * cx v + cy v * cy v + cz v * cz v.
Definition Norm (v : R3) : R := sqrt (Norm2 v).
(** geometry/r3_element_body.hpp:538-545. *)
Definition Normalize (v : R3) : R3 := div3 v (Norm v).
(** geometry/r3_element_body.hpp:184-190. *)
Definition OrthogonalizationAgainst (v w : R3) : R3 :=
  let n := Normalize w in sub3 v (scal3 (Dot v n) n).
(** geometry/r3_element_body.hpp:611-617 (for an index in 0..2). *)
Definition BasisVector (i : Z) : R3 :=
  mk3 (if (i =? 0)%Z then 1 else 0) (if (i =? 1)%Z then 1 else 0) (if (i =? 2)%Z then 1 else 0).
(** geometry/r3_element_body.hpp:68-81: other indices abort. *)
Definition index3 (v : R3) (i : Z) : option R :=
  match i with 0%Z => Some (cx v) | 1%Z => Some (cy v) | 2%Z => Some (cz v) | _ => None end.

(** * R3x3Matrix, by rows (geometry/r3x3_matrix_body.hpp:23-27) *)
Record M3 := mkM { rx : R3; ry : R3; rz : R3 }.
(** geometry/r3x3_matrix_body.hpp:123-128. *)
Definition Transpose (m : M3) : M3 :=
  mkM (mk3 (cx (rx m)) (cx (ry m)) (cx (rz m)))
      (mk3 (cy (rx m)) (cy (ry m)) (cy (rz m)))
      (mk3 (cz (rx m)) (cz (ry m)) (cz (rz m))).
(** geometry/r3x3_matrix_body.hpp:108-111. *)
Definition Trace (m : M3) : R := cx (rx m) + cy (ry m) + cz (rz m).
(** geometry/r3x3_matrix_body.hpp:113-121. *)
Definition MDeterminant (m : M3) : R :=
  cx (rx m) * cy (ry m) * cz (rz m) + cy (rx m) * cz (ry m) * cx (rz m) + cz (rx m) * cx (ry m) * cy (rz m)
  - cz (rx m) * cy (ry m) * cx (rz m) - cy (rx m) * cx (ry m) * cz (rz m) - cx (rx m) * cz (ry m) * cy (rz m).
(** geometry/r3x3_matrix_body.hpp:284-293, 352-363. *)
Definition Madd (a b : M3) : M3 := mkM (add3 (rx a) (rx b)) (add3 (ry a) (ry b)) (add3 (rz a) (rz b)).
Definition Mscal (k : R) (a : M3) : M3 := mkM (scal3 k (rx a)) (scal3 k (ry a)) (scal3 k (rz a)).
(** geometry/r3x3_matrix_body.hpp:306-324. *)
Definition Mmul (a b : M3) : M3 :=
  let t := Transpose b in
  mkM (mk3 (Dot (rx a) (rx t)) (Dot (rx a) (ry t)) (Dot (rx a) (rz t)))
      (mk3 (Dot (ry a) (rx t)) (Dot (ry a) (ry t)) (Dot (ry a) (rz t)))
      (mk3 (Dot (rz a) (rx t)) (Dot (rz a) (ry t)) (Dot (rz a) (rz t))).
(** geometry/r3x3_matrix_body.hpp:326-336. *)
Definition Mapp (a : M3) (v : R3) : R3 := mk3 (Dot (rx a) v) (Dot (ry a) v) (Dot (rz a) v).

(** * Quaternion (geometry/quaternion_body.hpp) *)
Record Quaternion := mkQ { re : R; im : R3 }.
(** geometry/quaternion_body.hpp:20-21: the imaginary part is value-initialized. *)
Definition qreal (r : R) : Quaternion := mkQ r (mk3 0 0 0).
(** geometry/quaternion_body.hpp:75-77. *)
Definition QNorm2 (q : Quaternion) : R := re q * re q + Norm2 (im q).
(** geometry/quaternion_body.hpp:79-81. *)
Definition Conjugate (q : Quaternion) : Quaternion := mkQ (re q) (opp3 (im q)).
(** geometry/quaternion_body.hpp:141-144. *)
Definition Qdivr (q : Quaternion) (a : R) : Quaternion := mkQ (re q / a) (div3 (im q) a).
(** geometry/quaternion_body.hpp:83-86. *)
Definition QInverse (q : Quaternion) : Quaternion := Qdivr (Conjugate q) (re q * re q + Dot (im q) (im q)).
(** geometry/quaternion_body.hpp:119-125. *)
Definition Qmult (l r : Quaternion) : Quaternion :=
  mkQ (re l * re r - Dot (im l) (im r))
      (add3 (add3 (scal3 (re l) (im r)) (scal3 (re r) (im l))) (Cross (im l) (im r))).

(** * Rotation: represented by its quaternion (geometry/rotation.hpp:270) *)

(** geometry/rotation_body.hpp:353-362. *)
Definition rotate (q : Quaternion) (v : R3) : R3 :=
  add3 v (scal3 2 (Cross (im q) (add3 (Cross (im q) v) (scal3 (re q) v)))).
(** geometry/rotation_body.hpp:374-379, 197-201, 313-316. *)
Definition RotMul (l r : Quaternion) : Quaternion := Qmult l r.
Definition RotInverse (q : Quaternion) : Quaternion := Conjugate q.
Definition RotIdentity : Quaternion := qreal 1.

(** geometry/rotation_body.hpp:66-71. *)
Definition AngleAxis (angle : R) (axis : R3) : Quaternion :=
  let half_angle := / 2 * angle in mkQ (cos half_angle) (scal3 (sin half_angle) axis).
(** geometry/rotation_body.hpp:85-90: the active rotation. *)
Definition RotAxis (angle : R) (axis : R3) : Quaternion := AngleAxis angle (Normalize axis).
(** geometry/rotation_body.hpp:124-130 and 132-138: the passive rotations. *)
Definition RotAxisDefinesTo (angle : R) (axis : R3) : Quaternion := AngleAxis (- angle) (Normalize axis).
Definition RotAxisDefinesFrom (angle : R) (axis : R3) : Quaternion := AngleAxis angle (Normalize axis).

(** geometry/rotation_body.hpp:25-64; [std::max] is [Rmax]. *)
Definition ToQuaternion (m : M3) : Quaternion :=
  let t := Trace m in
  let m00 := cx (rx m) in let m01 := cy (rx m) in let m02 := cz (rx m) in
  let m10 := cx (ry m) in let m11 := cy (ry m) in let m12 := cz (ry m) in
  let m20 := cx (rz m) in let m21 := cy (rz m) in let m22 := cz (rz m) in
  if Rlt_dec 0 t then
    let r := sqrt (1 + t) in let s := / 2 / r in
    mkQ (/ 2 * r) (mk3 ((m21 - m12) * s) ((m02 - m20) * s) ((m10 - m01) * s))
  else if Rlt_dec (Rmax m11 m22) m00 then
    let r := sqrt (1 + m00 - m11 - m22) in let s := / 2 / r in
    mkQ ((m21 - m12) * s) (mk3 (/ 2 * r) ((m01 + m10) * s) ((m20 + m02) * s))
  else if Rlt_dec m22 m11 then
    let r := sqrt (1 - m00 + m11 - m22) in let s := / 2 / r in
    mkQ ((m02 - m20) * s) (mk3 ((m01 + m10) * s) (/ 2 * r) ((m12 + m21) * s))
  else
    let r := sqrt (1 - m00 - m11 + m22) in let s := / 2 / r in
    mkQ ((m10 - m01) * s) (mk3 ((m02 + m20) * s) ((m12 + m21) * s) (/ 2 * r)).
(** geometry/rotation_body.hpp:92-105: from the axes of [ToFrame] in [FromFrame]. *)
Definition RotToAxes (x y z : R3) : Quaternion := ToQuaternion (mkM x y z).
(** geometry/rotation_body.hpp:107-122: from the axes of [FromFrame] in [ToFrame]. *)
Definition RotFromAxes (x y z : R3) : Quaternion := ToQuaternion (Transpose (mkM x y z)).

(** geometry/rotation.hpp:49-53, 59-77: the values of the enumerations [EulerAngles] and [CardanoAngles]. *)
Definition AxisConvention (first second third : Z) : Z :=
  (Z.shiftl (Z.shiftl first 2 + second) 2 + third)%Z.
(** geometry/rotation_body.hpp:76-79. *)
Definition BinaryCodedTernaryDigit (n : Z) (number : Z) : Z := Z.land (Z.shiftr number (2 * n)) 3.
(** geometry/rotation_body.hpp:153-164 and 179-190 (the same expression for both enumerations). *)
Definition RotAnglesDefinesFrom (a b c : R) (axes : Z) : Quaternion :=
  RotMul (RotMul (AngleAxis a (BasisVector (BinaryCodedTernaryDigit 2 axes)))
                 (AngleAxis b (BasisVector (BinaryCodedTernaryDigit 1 axes))))
         (AngleAxis c (BasisVector (BinaryCodedTernaryDigit 0 axes))).
(** geometry/rotation_body.hpp:140-151 and 166-177. *)
Definition RotAnglesDefinesTo (a b c : R) (axes : Z) : Quaternion :=
  RotInverse (RotAnglesDefinesFrom a b c axes).

(** geometry/rotation_body.hpp:203-208. *)
Definition RotationAxis (q : Quaternion) : R3 := Normalize (im q).
(** geometry/rotation_body.hpp:210-218; when the real part is (positive) zero the quotient is an infinity, whose arc
    tangent is pi/2. *)
Definition RotationAngle (q : Quaternion) : R :=
  if Req_EM_T (re q) 0 then 2 * (PI / 2) else 2 * atan (Norm (im q) / re q).
(** geometry/rotation_body.hpp:364-372. *)
Definition Exp (w : R3) : Quaternion :=
  let angle := Norm w in
  if Req_EM_T angle 0 then RotIdentity else RotAxis angle w.
(** geometry/rotation_body.hpp:241-289. *)
Definition RotForm (q : Quaternion) (f : M3) : M3 :=
  let intermediate := Transpose (mkM (rotate q (rx f)) (rotate q (ry f)) (rotate q (rz f))) in
  let result := mkM (rotate q (rx intermediate)) (rotate q (ry intermediate)) (rotate q (rz intermediate)) in
  Mscal (/ 2) (Madd result (Transpose result)).

(** * Sign (geometry/sign_body.hpp): [true] is negative *)
(** geometry/sign_body.hpp:19-22 and 76-78. *)
Definition smul (negative : bool) (x : R) : R := if negative then - x else x.
Definition smul3 (negative : bool) (v : R3) : R3 := if negative then opp3 v else v.
Definition sign_mul (l r : bool) : bool := negb (Bool.eqb l r).

(** * Signature (geometry/signature_body.hpp); [det] is [determinant_] (geometry/signature.hpp:100-102) *)
Record Signature := mkS { sx : bool; sy : bool; sz : bool }.
(** geometry/signature_body.hpp:22-38: the three constructors. *)
Definition SigXY (det : bool) (x y : bool) : Signature := mkS x y (sign_mul (sign_mul x y) det).
Definition SigXZ (det : bool) (x z : bool) : Signature := mkS x (sign_mul (sign_mul x det) z) z.
Definition SigYZ (det : bool) (y z : bool) : Signature := mkS (sign_mul (sign_mul det y) z) y z.
(** geometry/signature_body.hpp:51-67. *)
Definition SigIdentity : Signature := SigXY false false false.
Definition SigCentralInversion : Signature := SigXY true true true.
(** geometry/signature_body.hpp:45-49, 189-195. *)
Definition SigInverse (s : Signature) : Signature := mkS (sx s) (sy s) (sz s).
Definition SigMul (l r : Signature) : Signature :=
  mkS (sign_mul (sx l) (sx r)) (sign_mul (sy l) (sy r)) (sign_mul (sz l) (sz r)).
(** geometry/signature_body.hpp:69-76, 78-86. *)
Definition sig_vector (s : Signature) (v : R3) : R3 := mk3 (smul (sx s) (cx v)) (smul (sy s) (cy v)) (smul (sz s) (cz v)).
Definition sig_bivector (det : bool) (s : Signature) (v : R3) : R3 :=
  mk3 (smul (sign_mul det (sx s)) (cx v)) (smul (sign_mul det (sy s)) (cy v)) (smul (sign_mul det (sz s)) (cz v)).
(** geometry/signature_body.hpp:95-115. *)
Definition sig_form (s : Signature) (f : M3) : M3 :=
  let xy := if Bool.eqb (sx s) (sy s) then 1 else -1 in
  let yz := if Bool.eqb (sy s) (sz s) then 1 else -1 in
  let zx := if Bool.eqb (sz s) (sx s) then 1 else -1 in
  mkM (mk3 (cx (rx f)) (cy (rx f) * xy) (cz (rx f) * zx))
      (mk3 (cx (ry f) * xy) (cy (ry f)) (cz (ry f) * yz))
      (mk3 (cx (rz f) * zx) (cy (rz f) * yz) (cz (rz f))).
(** geometry/signature_body.hpp:117-137. *)
Definition SigForget (det : bool) (s : Signature) : Quaternion :=
  if Bool.eqb (sx s) (sy s) && Bool.eqb (sy s) (sz s) then qreal 1
  else mkQ 0 (if negb (sign_mul det (sx s)) then mk3 1 0 0
              else if negb (sign_mul det (sy s)) then mk3 0 1 0 else mk3 0 0 1).

(** * OrthogonalMap: the quaternion; [det] is [determinant_] (geometry/orthogonal_map.hpp:121-125) *)
(** geometry/orthogonal_map_body.hpp:133-143. *)
Definition MakeSignature (det : bool) : Signature := if det then SigCentralInversion else SigIdentity.
(** geometry/orthogonal_map_body.hpp:35-40, 42-47, 56-62. *)
Definition orth_vector (det : bool) (q : Quaternion) (v : R3) : R3 := rotate q (sig_vector (MakeSignature det) v).
Definition orth_bivector (det : bool) (q : Quaternion) (v : R3) : R3 := rotate q (sig_bivector det (MakeSignature det) v).
Definition orth_form (det : bool) (q : Quaternion) (f : M3) : M3 := RotForm q (sig_form (MakeSignature det) f).
(** geometry/orthogonal_map_body.hpp:28-33, 152-158. *)
Definition OrthInverse (q : Quaternion) : Quaternion := Conjugate q.
Definition OrthMul (l r : Quaternion) : Quaternion := Qmult l r.

(** * Permutation: its integer code (geometry/permutation.hpp:25-54) *)
(** serialization/geometry.proto:136-149. *)
Definition EVEN := 0%Z.
Definition ODD := (-2147483648)%Z.
Definition PX := 0%Z. Definition PY := 1%Z. Definition PZ := 2%Z. Definition INDEX := 6%Z.
Definition COORDINATE_MASK := 3%Z. Definition INDEX_MASK := 7%Z.
Definition code (parity a b c index : Z) : Z :=
  (parity + Z.shiftl a (PX * 2) + Z.shiftl b (PY * 2) + Z.shiftl c (PZ * 2) + Z.shiftl index INDEX)%Z.
Definition XYZ := code EVEN PX PY PZ 0.
Definition YZX := code EVEN PY PZ PX 1.
Definition ZXY := code EVEN PZ PX PY 2.
Definition XZY := code ODD PX PZ PY 3.
Definition ZYX := code ODD PZ PY PX 4.
Definition YXZ := code ODD PY PX PZ 5.
Definition permutations : list Z := [XYZ; YZX; ZXY; XZY; ZYX; YXZ].
Definition even_permutations : list Z := [XYZ; YZX; ZXY].
Definition odd_permutations : list Z := [XZY; ZYX; YXZ].

(** geometry/permutation_body.hpp:31-34 with geometry/sign_body.hpp:31-35: negative iff the code is; the CHECK
    that the code is non-zero is [None]. *)
Definition PermDeterminant (p : Z) : option bool := if (p =? 0)%Z then None else Some (p <? 0)%Z.
Definition perm_index (p : Z) : Z := Z.land INDEX_MASK (Z.shiftr p INDEX).
(** geometry/permutation_body.hpp:42-56; [None] is an out-of-bounds access. *)
Definition PermInverse (p : Z) (odd : bool) : option Z :=
  if odd then Some p else nth_error [XYZ; ZXY; YZX] (Z.to_nat (perm_index p)).
(** geometry/permutation_body.hpp:156-168. *)
Definition perm_r3 (p : Z) (v : R3) : option R3 :=
  let c i := index3 v (Z.land COORDINATE_MASK (Z.shiftr p (i * 2))) in
  match c PX, c PY, c PZ with Some x, Some y, Some z => Some (mk3 x y z) | _, _, _ => None end.
(** geometry/permutation_body.hpp:65-71. *)
Definition perm_bivector (p : Z) (v : R3) : option R3 :=
  match PermDeterminant p, perm_r3 p v with Some s, Some w => Some (smul3 s w) | _, _ => None end.
(** geometry/permutation_body.hpp:184-199. *)
Definition multiplication : list (list Z) :=
  [[XYZ; YZX; ZXY; XZY; ZYX; YXZ];
   [YZX; ZXY; XYZ; ZYX; YXZ; XZY];
   [ZXY; XYZ; YZX; YXZ; XZY; ZYX];
   [XZY; YXZ; ZYX; XYZ; ZXY; YZX];
   [ZYX; XZY; YXZ; YZX; XYZ; ZXY];
   [YXZ; ZYX; XZY; ZXY; YZX; XYZ]].
Definition PermMul (l r : Z) : option Z :=
  match nth_error multiplication (Z.to_nat (perm_index l)) with
  | Some row => nth_error row (Z.to_nat (perm_index r))
  | None => None
  end.
(** geometry/permutation_body.hpp:87-106. *)
Definition sqrt_half : R := sqrt (/ 2).
Definition quaternions : list Quaternion :=
  [qreal 1;
   mkQ (/ 2) (mk3 (- / 2) (- / 2) (- / 2));
   mkQ (/ 2) (mk3 (/ 2) (/ 2) (/ 2));
   mkQ 0 (mk3 0 (- sqrt_half) sqrt_half);
   mkQ 0 (mk3 (- sqrt_half) 0 sqrt_half);
   mkQ 0 (mk3 (- sqrt_half) sqrt_half 0)].
Definition PermForget (p : Z) : option Quaternion := nth_error quaternions (Z.to_nat (perm_index p)).

(** * ConformalMap (geometry/conformal_map_body.hpp) *)
Record ConformalMap := mkC { scale : R; quat : Quaternion }.
(** geometry/conformal_map_body.hpp:43-49 with geometry/homothecy_body.hpp:34-41. *)
Definition conf_vector (det : bool) (c : ConformalMap) (v : R3) : R3 :=
  scal3 (scale c) (rotate (quat c) (sig_vector (MakeSignature det) v)).
(** geometry/conformal_map_body.hpp:23-26. *)
Definition ConfDeterminant (c : ConformalMap) : R := scale c ^ 3.
(** geometry/conformal_map_body.hpp:28-34. *)
Definition ConfInverse (c : ConformalMap) : ConformalMap := mkC (1 / scale c) (QInverse (quat c)).
(** geometry/conformal_map_body.hpp:139-148. *)
Definition ConfMul (l r : ConformalMap) : ConformalMap := mkC (scale l * scale r) (Qmult (quat l) (quat r)).

(** * AffineMap (geometry/affine_map_body.hpp), with an orthogonal map as its linear part ([RigidTransformation],
    geometry/space_transformations.hpp); a point is given by its coordinates *)
Record RigidTransformation := mkA { from_origin : R3; to_origin : R3; linear : Quaternion }.
(** geometry/affine_map_body.hpp:35-43. *)
Definition aff (det : bool) (f : RigidTransformation) (p : R3) : R3 :=
  add3 (orth_vector det (linear f) (sub3 p (from_origin f))) (to_origin f).
(** geometry/affine_map_body.hpp:25-33. *)
Definition AffInverse (f : RigidTransformation) : RigidTransformation :=
  mkA (to_origin f) (from_origin f) (OrthInverse (linear f)).
(** geometry/affine_map_body.hpp:99-109; [ldet] is the determinant sign of [left]. *)
Definition AffMul (ldet : bool) (l r : RigidTransformation) : RigidTransformation :=
  mkA (from_origin r)
      (add3 (to_origin l) (orth_vector ldet (linear l) (sub3 (to_origin r) (from_origin l))))
      (OrthMul (linear l) (linear r)).

(** * Similarity: AffineMap with a conformal map as its linear part (geometry/space_transformations.hpp) *)
Record SimilarityMap := mkSim { sfrom : R3; sto : R3; slinear : ConformalMap }.
Definition sim (det : bool) (f : SimilarityMap) (p : R3) : R3 :=
  add3 (conf_vector det (slinear f) (sub3 p (sfrom f))) (sto f).
Definition SimInverse (f : SimilarityMap) : SimilarityMap := mkSim (sto f) (sfrom f) (ConfInverse (slinear f)).
Definition SimMul (ldet : bool) (l r : SimilarityMap) : SimilarityMap :=
  mkSim (sfrom r) (add3 (sto l) (conf_vector ldet (slinear l) (sub3 (sto r) (sfrom l)))) (ConfMul (slinear l) (slinear r)).

(** * RigidMotion (physics/rigid_motion_body.hpp) *)
Record RigidMotion := mkRM { rt : RigidTransformation; omega : R3; vel : R3 }.
Definition zero3 : R3 := mk3 0 0 0.
(** physics/rigid_motion_body.hpp:83-93; degrees of freedom are a position and a velocity; the action of an
    angular velocity (a bivector) on a vector is [Cross] (geometry/grassmann_body.hpp:324-330). *)
Definition rm_apply (det : bool) (m : RigidMotion) (d : R3 * R3) : R3 * R3 :=
  let '(p, v) := d in
  (aff det (rt m) p,
   orth_vector det (linear (rt m))
     (sub3 (sub3 v (vel m)) (Cross (omega m) (sub3 p (aff det (AffInverse (rt m)) zero3))))).
(** physics/rigid_motion_body.hpp:95-102. *)
Definition RMInverse (det : bool) (m : RigidMotion) : RigidMotion :=
  mkRM (AffInverse (rt m)) (opp3 (orth_bivector det (linear (rt m)) (omega m))) (snd (rm_apply det m (zero3, zero3))).
(** physics/rigid_motion_body.hpp:173-183. *)
Definition RMMul (ldet rdet : bool) (l r : RigidMotion) : RigidMotion :=
  mkRM (AffMul ldet (rt l) (rt r))
       (add3 (omega r) (orth_bivector rdet (OrthInverse (linear (rt r))) (omega l)))
       (snd (rm_apply rdet (RMInverse rdet r) (rm_apply ldet (RMInverse ldet l) (zero3, zero3)))).

(** * BarycentreCalculator (geometry/barycentre_calculator_body.hpp) *)
(** The calculator: [None] when [empty_], else the weighted sum and the weight.  [Add] at lines 16-35, [Get] at
    37-46 ([None] is the CHECK failure).  [reference] is [reference_] (zero for additive groups). *)
Definition BC := option (R3 * R).
Definition BCAdd (reference : R3) (c : BC) (p : R3) (w : R) : BC :=
  let d := scal3 w (sub3 p reference) in
  match c with None => Some (d, w) | Some (s, t) => Some (add3 s d, t + w) end.
Definition BCGet (reference : R3) (c : BC) : option R3 :=
  match c with None => None | Some (s, t) => Some (add3 reference (div3 s t)) end.
Definition BCAddAll (reference : R3) (l : list (R3 * R)) (c : BC) : BC :=
  fold_left (fun c pw => BCAdd reference c (fst pw) (snd pw)) l c.
(** geometry/barycentre_calculator_body.hpp:75-92: the unweighted [Barycentre], with [origin] for [reference_]. *)
Definition BarycentreUnweighted (origin : R3) (l : list R3) : R3 :=
  add3 origin (div3 (fold_left (fun t p => add3 t (sub3 p origin)) l zero3) (INR (length l))).
