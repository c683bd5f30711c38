(* Perspectives and hiding by spheres, geometry/perspective_body.hpp.  The algorithms are written for any arithmetic;
   there are two of them, the extended real numbers and the doubles.  Positions are identified with their coordinates. *)
From Coq Require Import Reals List Bool Arith.
From Flocq Require Import IEEE754.BinarySingleNaN IEEE754.Binary IEEE754.Bits.
From Verif Require Double_Model.
From Verif Require Import Hermite_Model.
Import ListNotations.

Record arithmetic (T : Type) := mkArithmetic {
  plus : T -> T -> T;
  minus : T -> T -> T;
  times : T -> T -> T;
  over : T -> T -> T;
  opposite : T -> T;                  (* The unary minus. *)
  square_root : T -> T;
  less : T -> T -> bool;
  less_or_equal : T -> T -> bool;
  equal : T -> T -> bool;
  discriminant : T -> T -> T -> T;    (* a₁² - 4 a₀ a₂, root_finders_body.hpp:474-476. *)
  nought : T;
  one : T;
  two : T;
  half : T;
  four : T;
  infinite : T
}.
Arguments plus {T}. Arguments minus {T}. Arguments times {T}. Arguments over {T}. Arguments opposite {T}.
Arguments square_root {T}. Arguments less {T}. Arguments less_or_equal {T}. Arguments equal {T}.
Arguments discriminant {T}. Arguments nought {T}. Arguments one {T}. Arguments two {T}. Arguments half {T}.
Arguments four {T}. Arguments infinite {T}.

(* Exact arithmetic, with infinities and NaNs; all the zeroes are positive. *)
Definition xopp (x : extended) : extended :=
  match x with Fin r => Fin (- r) | PosInf => NegInf | NegInf => PosInf | NaN => NaN end.
Definition xplus (x y : extended) : extended :=
  match x, y with
  | Fin r, Fin s => Fin (r + s)
  | NaN, _ | _, NaN | PosInf, NegInf | NegInf, PosInf => NaN
  | PosInf, _ | _, PosInf => PosInf
  | NegInf, _ | _, NegInf => NegInf
  end.
Definition xminus (x y : extended) : extended :=
  match x, y with Fin r, Fin s => Fin (r - s) | _, _ => xplus x (xopp y) end.
Definition xscale (r : R) (x : extended) : extended :=
  if Req_EM_T r 0 then NaN else if Rlt_dec r 0 then xopp x else x.
Definition xtimes (x y : extended) : extended :=
  match x, y with
  | Fin r, Fin s => Fin (r * s)
  | NaN, _ | _, NaN => NaN
  | Fin r, i | i, Fin r => xscale r i
  | PosInf, i => i
  | NegInf, i => xopp i
  end.
Definition xover (x y : extended) : extended :=
  match x, y with
  | Fin r, Fin s => ediv r s
  | NaN, _ | _, NaN => NaN
  | Fin _, _ => Fin 0
  | i, Fin s => if Rlt_dec s 0 then xopp i else i
  | _, _ => NaN
  end.
Definition xsqrt (x : extended) : extended :=
  match x with Fin r => if Rlt_dec r 0 then NaN else Fin (sqrt r) | PosInf => PosInf | _ => NaN end.
Definition xequal (x y : extended) : bool := ele x y && ele y x.
Definition exact : arithmetic extended :=
  mkArithmetic extended xplus xminus xtimes xover xopp xsqrt elt ele xequal
    (fun a0 a1 a2 => xminus (xtimes a1 a1) (xtimes (xtimes (Fin 4) a0) a2))
    (Fin 0) (Fin 1) (Fin 2) (Fin (1 / 2)) (Fin 4) PosInf.

(* The doubles; TwoProduct uses the FMA. *)
Definition doubles : arithmetic Double_Model.double :=
  mkArithmetic Double_Model.double Double_Model.add Double_Model.sub Double_Model.mul Double_Model.div Double_Model.opp
    (b64_sqrt mode_NE) Double_Model.lt Double_Model.le Double_Model.eq
    (fun a0 a1 a2 => Double_Model.value
      (Double_Model.minus (Double_Model.TwoProduct true a1 a1)
                          (Double_Model.TwoProduct true (Double_Model.mul (Double_Model.of_Z 4) a0) a2)))
    Double_Model.zero Double_Model.one (Double_Model.of_Z 2) (Double_Model.of_Z2 1 (-1)) (Double_Model.of_Z 4)
    Double_Model.infinity.

(* A displacement or a position. *)
Record vector (T : Type) := vec { vx : T; vy : T; vz : T }.
Arguments vec {T}. Arguments vx {T}. Arguments vy {T}. Arguments vz {T}.

Inductive result (X : Type) := Value (x : X) | CheckFailed.
Arguments Value {X}. Arguments CheckFailed {X}.

Section Perspective.
Context {T : Type} (A : arithmetic T).
Local Notation "x ⊕ y" := (plus A x y) (at level 50, left associativity).
Local Notation "x ⊖ y" := (minus A x y) (at level 50, left associativity).
Local Notation "x ⊗ y" := (times A x y) (at level 40, left associativity).
Local Notation "x ⊘ y" := (over A x y) (at level 40, left associativity).
Local Notation "x ≺ y" := (less A x y) (at level 70).
Local Notation "x ≼ y" := (less_or_equal A x y) (at level 70).

(* geometry/r3_element_body.hpp:236-300, sums, differences and products by a number. *)
Definition vplus (u v : vector T) : vector T := vec (vx u ⊕ vx v) (vy u ⊕ vy v) (vz u ⊕ vz v).
Definition vminus (u v : vector T) : vector T := vec (vx u ⊖ vx v) (vy u ⊖ vy v) (vz u ⊖ vz v).
Definition vscale (k : T) (v : vector T) : vector T := vec (k ⊗ vx v) (k ⊗ vy v) (k ⊗ vz v).
Definition vdivide (v : vector T) (k : T) : vector T := vec (vx v ⊘ k) (vy v ⊘ k) (vz v ⊘ k).
(* geometry/r3_element_body.hpp:596-599 and 171-173. *)
Definition dot (u v : vector T) : T := vx u ⊗ vx v ⊕ vy u ⊗ vy v ⊕ vz u ⊗ vz v.
Definition norm2 (v : vector T) : T := vx v ⊗ vx v ⊕ vy v ⊗ vy v ⊕ vz v ⊗ vz v.

(* geometry/perspective.hpp:27-28. *)
Definition segment : Type := vector T * vector T.
(* geometry/sphere_body.hpp:10-15. *)
Record sphere := Sphere { centre : vector T; radius : T }.
Definition radius2 (s : sphere) : T := radius s ⊗ radius s.
(* geometry/perspective.hpp:87-90: the position of the camera, the image of the z axis of the camera by the linear map of
   from_camera_, which has the norm of its scale, and the focal length. *)
Record perspective := Perspective { camera : vector T; z_axis : vector T; focal : T }.

(* numerics/root_finders_body.hpp:459-502, with origin 0. *)
Definition solve_quadratic (origin a0 a1 a2 : T) : list T :=
  let disc := discriminant A a0 a1 a2 in
  if equal A disc (nought A) then [origin ⊖ half A ⊗ a1 ⊘ a2]
  else if disc ≺ nought A then []
  else
    let numerator := if nought A ≺ a1 then opposite A a1 ⊖ square_root A disc
                     else opposite A a1 ⊕ square_root A disc in
    let x1 := origin ⊕ numerator ⊘ (two A ⊗ a2) in
    let x2 := origin ⊕ two A ⊗ a0 ⊘ numerator in
    if x1 ≺ x2 then [x1; x2] else [x2; x1].

(* geometry/barycentre_calculator_body.hpp:20-60, for two points with weights; the origin is the point 0. *)
Definition barycentre (p q : vector T) (wp wq : T) : vector T :=
  let weighted_sum := vplus (vscale wp p) (vscale wq q) in
  vdivide weighted_sum (wp ⊕ wq).

(* perspective_body.hpp:71-98. *)
Definition SegmentBehindFocalPlane (p : perspective) (s : segment) : option segment :=
  let z := z_axis p in
  let z1 := dot (vminus (fst s) (camera p)) z in
  let z2 := dot (vminus (snd s) (camera p)) z in
  let first_is_visible := focal p ≼ z1 in
  let second_is_visible := focal p ≼ z2 in
  if first_is_visible && second_is_visible then Some s
  else if negb first_is_visible && negb second_is_visible then None
  else
    let lambda := (focal p ⊖ z2) ⊘ (z1 ⊖ z2) in
    let intercept := barycentre (fst s) (snd s) lambda (one A ⊖ lambda) in
    if first_is_visible then Some (fst s, intercept) else Some (intercept, snd s).

(* perspective_body.hpp:116-158. *)
Definition IsHiddenBySphere (p : perspective) (point : vector T) (s : sphere) : bool :=
  let camera_to_centre := vminus (centre s) (camera p) in
  let camera_to_point := vminus point (camera p) in
  let centre_to_point := vminus point (centre s) in
  let r2 := radius2 s in
  let camera_to_centre2 := norm2 camera_to_centre in
  let camera_to_point2 := norm2 camera_to_point in
  let centre_to_point2 := norm2 centre_to_point in
  let is_in_sphere := centre_to_point2 ≺ r2 in
  if is_in_sphere then true
  else
    let camera_to_horizon2 := camera_to_centre2 ⊖ r2 in
    let inner_product := dot camera_to_point camera_to_centre in
    let is_in_cone := camera_to_horizon2 ⊗ camera_to_point2 ≺ inner_product ⊗ inner_product in
    if negb is_in_cone then false
    else
      let is_in_front_of_horizon := inner_product ≺ camera_to_horizon2 in
      negb is_in_front_of_horizon.

(* std::sort; the order is only meaningful without NaNs. *)
Fixpoint insert (x : T) (l : list T) : list T :=
  match l with
  | [] => [x]
  | y :: l' => if x ≺ y then x :: l else y :: insert x l'
  end.
Definition sort (l : list T) : list T := fold_right insert [] l.

(* The variables of the loop of perspective_body.hpp:274-303. *)
Record loop_state := State { lambdas : list T; lambda_lt_sigma : bool; lambda_gt_sigma : bool; infinity : T }.
(* perspective_body.hpp:279-303, an iteration of the loop. *)
Definition iteration (r2 KAKH KBKH KH2 ABKH sigma : T) (KA KB KH AB : vector T) (st : loop_state) (delta : T) : loop_state :=
  let gamma := (r2 ⊖ delta ⊗ KBKH) ⊘ KAKH in
  let PH := vplus (vscale gamma KA) (vscale delta KB) in
  let KAPH := dot KA PH in
  let KHPH := dot KH PH in
  let ABPH := dot AB PH in
  let tau := (KH2 ⊖ KHPH ⊖ KAKH) ⊘ ABKH in
  let infinity := infinite A ⊗ (tau ⊖ sigma) in
  let lambda := opposite A KAPH ⊘ ABPH in
  State
    (if ((sigma ≼ tau) && (tau ≺ lambda)) || ((tau ≼ sigma) && (lambda ≺ tau)) then lambdas st ++ [lambda] else lambdas st)
    (lambda_lt_sigma st || (lambda ≺ sigma)) (lambda_gt_sigma st || (sigma ≺ lambda)) infinity.

(* perspective_body.hpp:341-368, once the intersections are sorted; [debug] tells if the DCHECKs are active. *)
Definition cut (debug : bool) (s : segment) (AB : vector T) (sorted : list T) : result (list segment) :=
  match sorted with
  | [] => Value [s]
  | lambda_min :: _ =>
    let lambda_max := last sorted lambda_min in
    let at_ l := vplus (fst s) (vscale l AB) in
    if (one A ≼ lambda_min) || (lambda_max ≼ nought A) then Value [s]
    else if (lambda_min ≼ nought A) && (one A ≼ lambda_max) then Value []
    else if (nought A ≺ lambda_min) && (lambda_max ≺ one A) then
      Value [(fst s, at_ lambda_min); (at_ lambda_max, snd s)]
    else if lambda_min ≼ nought A then
      if debug && negb (nought A ≺ lambda_max) then CheckFailed else Value [(at_ lambda_max, snd s)]
    else
      if debug && negb ((one A ≺ lambda_max) && (lambda_min ≼ one A)) then CheckFailed
      else Value [(fst s, at_ lambda_min)]
  end.

(* perspective_body.hpp:173-369, for a single sphere. *)
Definition VisibleSegments (debug : bool) (p : perspective) (s : segment) (sp : sphere) : result (list segment) :=
  let K := camera p in
  let PA := fst s in
  let PB := snd s in
  let C := centre sp in
  let KA := vminus PA K in
  let KB := vminus PB K in
  let KC := vminus C K in
  let KC2 := norm2 KC in
  if KC2 ≼ radius2 sp then Value []
  else
  let KAKC := dot KA KC in
  let KBKC := dot KB KC in
  if (KAKC ≼ nought A) && (KBKC ≼ nought A) then Value [s]
  else
  let KA2 := norm2 KA in
  let KB2 := norm2 KB in
  let KAKB := dot KA KB in
  let determinant := KA2 ⊗ KB2 ⊖ KAKB ⊗ KAKB in
  let alpha := (KB2 ⊗ KAKC ⊖ KAKB ⊗ KBKC) ⊘ determinant in
  let beta := (KA2 ⊗ KBKC ⊖ KAKB ⊗ KAKC) ⊘ determinant in
  let KH := vplus (vscale alpha KA) (vscale beta KB) in
  let CH := vminus KH KC in
  let CH2 := norm2 CH in
  if radius2 sp ≼ CH2 then Value [s]
  else
  let r2 := radius2 sp ⊖ CH2 in
  if ((alpha ≺ nought A) && (r2 ⊗ KB2 ⊘ determinant ≼ alpha ⊗ alpha)) ||
     ((beta ≺ nought A) && (r2 ⊗ KA2 ⊘ determinant ≼ beta ⊗ beta)) then Value [s]
  else
  let KAKH := dot KA KH in
  let KBKH := dot KB KH in
  let a0 := r2 ⊗ (r2 ⊗ KA2 ⊖ KAKH ⊗ KAKH) in
  let a1 := two A ⊗ r2 ⊗ (KAKB ⊗ KAKH ⊖ KA2 ⊗ KBKH) in
  let a2 := KB2 ⊗ KAKH ⊗ KAKH ⊖ two A ⊗ KAKB ⊗ KAKH ⊗ KBKH ⊕ KA2 ⊗ KBKH ⊗ KBKH in
  let deltas := solve_quadratic (nought A) a0 a1 a2 in
  if negb (length deltas =? 2)%nat then Value [s]
  else
  let AB := vminus PB PA in
  let ABKH := dot AB KH in
  let sigma := opposite A KAKH ⊘ ABKH in
  let KH2 := norm2 KH in
  let st := fold_left (iteration r2 KAKH KBKH KH2 ABKH sigma KA KB KH AB) deltas (State [] false false (nought A)) in
  let both_sides := lambda_lt_sigma st && lambda_gt_sigma st in
  if both_sides && negb (length (lambdas st) <=? 1)%nat then CheckFailed
  else
  let intersections := if both_sides then lambdas st ++ [infinity st] else lambdas st in
  let AC := vminus C PA in
  let AB2 := norm2 AB in
  let AC2 := norm2 AC in
  let ABAC := dot AB AC in
  let mus := solve_quadratic (nought A) (AC2 ⊖ radius2 sp) (opposite A (two A) ⊗ ABAC) AB2 in
  cut debug s AB (sort (intersections ++ mus)).
End Perspective.

Section Spheres.
Context {X Y : Type} (visible : X -> Y -> list X).

Fixpoint set_nth (l : list X) (n : nat) (x : X) : option (list X) :=
  match l, n with
  | [], _ => None
  | _ :: l', O => Some (x :: l')
  | y :: l', S n' => match set_nth l' n' x with Some l'' => Some (y :: l'') | None => None end
  end.

(* perspective_body.hpp:407-417, the loop for a sphere; [count] iterations remain, the last of them with i = in_begin.
   [None] is an access out of bounds. *)
Fixpoint hide_by_sphere (count in_begin : nat) (s : Y) (segments : list X) (out_begin out_end : nat) :
    option (list X * nat * nat) :=
  match count with
  | O => Some (segments, out_begin, out_end)
  | S count' =>
    let i := (in_begin + count')%nat in
    match nth_error segments i with
    | None => None
    | Some old_segment =>
      match visible old_segment s with
      | [] => hide_by_sphere count' in_begin s segments out_begin out_end
      | first :: others =>
        match out_begin with
        | O => None
        | S out_begin' =>
          match set_nth segments out_begin' first with
          | None => None
          | Some segments' =>
            match others with
            | [second] => hide_by_sphere count' in_begin s (segments' ++ [second]) out_begin' (S out_end)
            | _ => hide_by_sphere count' in_begin s segments' out_begin' out_end
            end
          end
        end
      end
    end
  end.

(* perspective_body.hpp:406-423, the loop on the spheres. *)
Fixpoint hide_by_spheres (spheres : list Y) (segments : list X) (in_begin in_end : nat) : option (list X * nat) :=
  match spheres with
  | [] => Some (segments, in_begin)
  | s :: spheres' =>
    match hide_by_sphere (in_end - in_begin) in_begin s segments in_end in_end with
    | None => None
    | Some (segments', out_begin, out_end) => hide_by_spheres spheres' segments' out_begin out_end
    end
  end.

(* perspective_body.hpp:371-428, VisibleSegments for multiple spheres. *)
Definition VisibleSegmentsMany (s : X) (spheres : list Y) : option (list X) :=
  match hide_by_spheres spheres [s] 0 1 with
  | None => None
  | Some (segments, in_begin) => Some (skipn in_begin segments)
  end.
End Spheres.
