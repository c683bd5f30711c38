(* The torque-free motion of a rigid body, physics/euler_solver_body.hpp, on real numbers.  The elliptic functions are a
   parameter.  The inertia tensor is given by its diagonal, i.e., the check that it is diagonal passes; the frames and the
   dimensions disappear. *)
From Coq Require Import Reals Bool.
From Verif Require Import Geometry_Model Hermite_Model RotatingBody_Model.
Local Open Scope R_scope.

(* numerics/elliptic_integrals.hpp:31-41, numerics/elliptic_functions.hpp:14-16. *)
Record elliptic := Elliptic {
  EllipticF : R -> R -> R;             (* φ, mc. *)
  EllipticPi : R -> R -> R -> R;       (* φ, n, mc. *)
  JacobiAmplitude : R -> R -> R;       (* u, mc. *)
  JacobiSN : R -> R -> R;              (* The three results of JacobiSNCNDN(u, mc). *)
  JacobiCN : R -> R -> R;
  JacobiDN : R -> R -> R
}.

(* numerics/elementary_functions_body.hpp:264-266, std::atanh; NaN if |x| > 1. *)
Definition ArcTanh (x : R) : extended :=
  if Req_EM_T x 1 then PosInf else if Req_EM_T x (- 1) then NegInf
  else if Rlt_dec (Rabs x) 1 then Fin (/ 2 * ln ((1 + x) / (1 - x))) else NaN.
(* std::tanh, and 1 / std::cosh; the value for a NaN is not used. *)
Definition Tanh (e : extended) : R := match e with Fin x => tanh x | PosInf => 1 | NegInf => - 1 | NaN => 0 end.
Definition Sech (e : extended) : R := match e with Fin x => 1 / cosh x | _ => 0 end.
(* The opposite, and the product by 0.5. *)
Definition eopp (e : extended) : extended :=
  match e with Fin x => Fin (- x) | PosInf => NegInf | NegInf => PosInf | NaN => NaN end.
Definition ehalf (e : extended) : extended := match e with Fin x => Fin (/ 2 * x) | _ => e end.

(* euler_solver.hpp:119-124. *)
Inductive Region := e1 | e3 | Motionless.
(* euler_solver.hpp:109-114,143-160: the formula, with the parameters that are not NaNs for it; B₁₃_ and B₃₁_ are apart. *)
Record elliptic_parameters := EllipticParameters {
  lambda : R; n : R; mc : R; nu : R;
  psi_offset : R; psi_arctan_multiplier : R; psi_cn_multiplier : R; psi_sn_multiplier : R;
  psi_elliptic_pi_multiplier : R; psi_t_multiplier : R
}.
Inductive Formula :=
  | formula_i (B21 : R) (p : elliptic_parameters)
  | formula_ii (B23 : R) (p : elliptic_parameters)
  | formula_iii (lambda : R) (nu : extended)
      (psi_offset psi_arctan_multiplier psi_cosh_multiplier psi_sinh_multiplier psi_t_multiplier : R)
  | formula_Sphere (psi_t_multiplier : R).

(* euler_solver.hpp:129-144. *)
Record EulerSolver := mkEulerSolver {
  moments_of_inertia : R3;
  initial_attitude : Quaternion;
  initial_time : R;
  G : R;
  initial_angular_momentum : R3;
  calR : Quaternion;
  calS : Signature;
  formula : Formula;
  region : Region;
  B13 : R;
  B31 : R
}.

(* geometry/sign_body.hpp:25, the constructor of Sign, for a real number; true is negative. *)
Definition SignOf (x : R) : bool := if Rlt_dec x 0 then true else false.

(* euler_solver_body.hpp:462-502. *)
Definition ComputeP (region : Region) (G : R) (m : R3) : Quaternion :=
  match region with
  | e1 =>
    let real_part := sqrt (/ 2 * (1 + cx m / G)) in
    let denominator := 2 * G * real_part in
    mkQ real_part (mk3 0 (cz m / denominator) (- cy m / denominator))
  | e3 =>
    let real_part := sqrt (/ 2 * (1 + cz m / G)) in
    let denominator := 2 * G * real_part in
    mkQ real_part (mk3 (cy m / denominator) (- cx m / denominator) 0)
  | Motionless => qreal 1
  end.

(* The choice of the formula, euler_solver_body.hpp:90-123. *)
Inductive Choice := choose_i | choose_ii | choose_iii | choose_Sphere.

Section Solver.
Variable E : elliptic.

(* euler_solver_body.hpp:34-259.  None is the failure of a check. *)
Definition MakeEulerSolver (moments : R3) (initial_momentum : R3) (attitude : Quaternion) (time : R) : option EulerSolver :=
  let G := Norm initial_momentum in
  let m := rotate (RotInverse attitude) initial_momentum in
  let I1 := cx moments in
  let I2 := cy moments in
  let I3 := cz moments in
  if Rle_dec I1 I2 then if Rle_dec I2 I3 then
    let I32 := I3 - I2 in
    let I31 := I3 - I1 in
    let I21 := I2 - I1 in
    let I23 := - I32 in
    let I13 := - I31 in
    let I12 := - I21 in
    let D1 := cy m * cy m * I21 / I2 + cz m * cz m * I31 / I3 in
    let D2 := cz m * cz m * I32 / I3 + cx m * cx m * I12 / I1 in
    let D3 := cx m * cx m * I13 / I1 + cy m * cy m * I23 / I2 in
    if Rle_dec 0 D1 then if Rle_dec D3 0 then
      let B31_2 := I3 * D1 / I31 in
      let B21_2 := I2 * D1 / I21 in
      let B23_2 := I2 * D3 / I23 in
      let B13_2 := I1 * D3 / I13 in
      let B13 := sqrt B13_2 in
      let B31 := sqrt B31_2 in
      let choice :=
        if Rlt_dec D2 0 then Some (choose_i, e1)
        else if Rlt_dec 0 D2 then Some (choose_ii, e3)
        else if Req_EM_T G 0 then Some (choose_Sphere, Motionless)
        else if Req_EM_T I31 0 then
          if Req_EM_T I21 0 then if Req_EM_T I32 0 then
            Some (choose_Sphere, if Rlt_dec (Rabs (cx m)) (Rabs (cz m)) then e1 else e3)
          else None else None
        else Some (choose_iii, if Rlt_dec B13 B31 then e1 else e3) in
      match choice with
      | None => None
      | Some (c, region) =>
        let S :=
          match c, region with
          | choose_iii, _ => SigXZ false (SignOf (cx m)) (SignOf (cz m))
          | _, e1 => SigXY false (SignOf (cx m)) false
          | _, e3 => SigYZ false false (SignOf (cz m))
          | _, Motionless => SigIdentity
          end in
        let m := sig_bivector false S m in
        let P_inverse := RotInverse (ComputeP region G m) in
        let S_inverse := SigForget false (SigInverse S) in
        let R := RotMul attitude (RotMul (RotMul S_inverse P_inverse) RotIdentity) in
        let make f := mkEulerSolver moments attitude time G m R S f region B13 B31 in
        match c with
        | choose_i =>
          if Rle_dec 0 B21_2 then
            let B21 := sqrt B21_2 in
            let mc := Rmin (D2 * I31 / (D3 * I21)) 1 in
            let nu := EllipticF E (ArcTan2 (cy m * B31) (cz m * B21)) mc in
            let lambda := - sqrt (D3 * I12 / (I1 * I2 * I3)) in
            let sn := JacobiSN E (- nu) mc in
            let cn := JacobiCN E (- nu) mc in
            let n := I1 * I32 / (I3 * I12) in
            let psi_cn := sqrt (I3 * I21) in
            let psi_sn := sqrt (I2 * I31) in
            let psi_arctan := - 1 in
            let psi_pi := G * I13 / (lambda * I1 * I3) in
            let offset := psi_pi * EllipticPi E (JacobiAmplitude E (- nu) mc) n mc +
                          psi_arctan * ArcTan2 (psi_sn * sn) (psi_cn * cn) in
            Some (make (formula_i B21
              (EllipticParameters lambda n mc nu offset psi_arctan psi_cn psi_sn psi_pi (G / I1))))
          else None
        | choose_ii =>
          if Rle_dec 0 B23_2 then
            let B23 := sqrt B23_2 in
            let mc := Rmin (D2 * I31 / (D1 * I32)) 1 in
            let nu := EllipticF E (ArcTan2 (cy m * B13) (cx m * B23)) mc in
            let lambda := - sqrt (D1 * I32 / (I1 * I2 * I3)) in
            let sn := JacobiSN E (- nu) mc in
            let cn := JacobiCN E (- nu) mc in
            let n := I3 * I21 / (I1 * I23) in
            let psi_cn := sqrt (I1 * I32) in
            let psi_sn := sqrt (I2 * I31) in
            let psi_arctan := 1 in
            let psi_pi := G * I31 / (lambda * I1 * I3) in
            let offset := psi_pi * EllipticPi E (JacobiAmplitude E (- nu) mc) n mc +
                          psi_arctan * ArcTan2 (psi_sn * sn) (psi_cn * cn) in
            Some (make (formula_ii B23
              (EllipticParameters lambda n mc nu offset psi_arctan psi_cn psi_sn psi_pi (G / I3))))
          else None
        | choose_iii =>
          let nu := eopp (ArcTanh (cy m / G)) in
          let lambda := sqrt (- D1 * D3 / (I1 * I3)) / G in
          let multipliers :=
            match region with
            | e1 => Some (- 2, B31, B13 - G)
            | e3 => Some (2, B13, B31 - G)
            | Motionless => None
            end in
          match multipliers with
          | None => None
          | Some (psi_arctan, psi_cosh, psi_sinh) =>
            let offset := ArcTan2 (psi_sinh * Tanh (ehalf (eopp nu))) psi_cosh in
            Some (make (formula_iii lambda nu offset psi_arctan psi_cosh psi_sinh (G / I2)))
          end
        | choose_Sphere => Some (make (formula_Sphere (G / I2)))
        end
      end
    else None else None
  else None else None.

(* euler_solver_body.hpp:267-305, without the transformation by 𝒮_. *)
Definition PreferredMomentumAt (s : EulerSolver) (time : R) : R3 :=
  let dt := time - initial_time s in
  match formula s with
  | formula_i B21 p =>
    let u := lambda p * dt - nu p in
    mk3 (B13 s * JacobiDN E u (mc p)) (- B21 * JacobiSN E u (mc p)) (B31 s * JacobiCN E u (mc p))
  | formula_ii B23 p =>
    let u := lambda p * dt - nu p in
    mk3 (B13 s * JacobiCN E u (mc p)) (- B23 * JacobiSN E u (mc p)) (B31 s * JacobiDN E u (mc p))
  | formula_iii lambda nu _ _ _ _ _ =>
    let angle := esub (lambda * dt) nu in
    let sech := Sech angle in
    mk3 (B13 s * sech) (G s * Tanh angle) (B31 s * sech)
  | formula_Sphere _ => initial_angular_momentum s
  end.
(* euler_solver_body.hpp:267-305. *)
Definition AngularMomentumAt (s : EulerSolver) (time : R) : R3 :=
  sig_bivector false (SigInverse (calS s)) (PreferredMomentumAt s time).

(* euler_solver_body.hpp:307-322. *)
Definition AngularVelocityFor (s : EulerSolver) (m : R3) : R3 :=
  mk3 (cx m / cx (moments_of_inertia s)) (cy m / cy (moments_of_inertia s)) (cz m / cz (moments_of_inertia s)).

(* euler_solver_body.hpp:333-364, the angle ψ. *)
Definition PsiAt (s : EulerSolver) (time : R) : R :=
  let dt := time - initial_time s in
  match formula s with
  | formula_i _ p | formula_ii _ p =>
    let u := lambda p * dt - nu p in
    let phi := JacobiAmplitude E u (mc p) in
    psi_t_multiplier p * dt +
      (psi_elliptic_pi_multiplier p * EllipticPi E phi (n p) (mc p) +
       psi_arctan_multiplier p * ArcTan2 (psi_sn_multiplier p * JacobiSN E u (mc p)) (psi_cn_multiplier p * JacobiCN E u (mc p)) -
       psi_offset p)
  | formula_iii lambda nu psi_offset psi_arctan psi_cosh psi_sinh psi_t =>
    psi_t * dt + psi_arctan * (ArcTan2 (psi_sinh * Tanh (ehalf (esub (lambda * dt) nu))) psi_cosh - psi_offset)
  | formula_Sphere psi_t => psi_t * dt
  end.
(* euler_solver_body.hpp:324-407. *)
Definition AttitudeFor (s : EulerSolver) (m : R3) (time : R) : Quaternion :=
  let P := ComputeP (region s) (G s) (sig_bivector false (calS s) m) in
  let axis := match region s with e1 => mk3 1 0 0 | e3 => mk3 0 0 1 | Motionless => mk3 0 1 0 end in
  let Y := RotAxisDefinesFrom (PsiAt s time) axis in
  RotMul (RotMul (RotMul (calR s) Y) P) (SigForget false (calS s)).
(* euler_solver_body.hpp:409-414. *)
Definition AttitudeAt (s : EulerSolver) (time : R) : Quaternion := AttitudeFor s (AngularMomentumAt s time) time.
End Solver.
