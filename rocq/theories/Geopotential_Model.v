(* The spherical harmonics of the gravitational field of a body and their
   damping, in exact arithmetic:
     physics/harmonic_damping_body.hpp
     physics/geopotential_body.hpp
     physics/oblate_body_body.hpp:88-97 (zonalness).
   Lengths, numbers and the components of vectors are real numbers; a length
   that may be infinite is an [extended].  The table of the normalization factors
   (numerics/legendre_normalization_factor.mathematica.h) and that of the
   maxima of the Legendre functions are parameters.  NaNs and infinite
   positions (geopotential_body.hpp:748-752, 912-914) are not modelled. *)
From Coq Require Import Reals List Arith Bool.
From Verif Require Import Geometry_Model.
Import ListNotations.
Open Scope R_scope.

(* The null vector. *)
Definition vector_zero : R3 := mk3 0 0 0.

(* A length that may be Infinity<Length>. *)
Inductive extended := Finite (r : R) | Infinite.

(* r <= l and r < l, for a finite r. *)
Definition at_most (r : R) (l : extended) : bool :=
  match l with
  | Finite s => if Rle_dec r s then true else false
  | Infinite => true
  end.
Definition below (r : R) (l : extended) : bool :=
  match l with
  | Finite s => if Rlt_dec r s then true else false
  | Infinite => true
  end.

(* class HarmonicDamping, harmonic_damping.hpp:25-67; the constant coefficient,
   which is 0 and not used, is omitted. *)
Record harmonic_damping := Damping {
  outer_threshold : extended;
  inner_threshold : extended;
  c1 : R;
  c2 : R;
  c3 : R
}.

(* The constructor, harmonic_damping_body.hpp:16-22.  For an infinite threshold
   the divisions yield 0. *)
Definition HarmonicDamping (inner : extended) : harmonic_damping :=
  match inner with
  | Finite s0 =>
      Damping (Finite (s0 * 3)) (Finite s0)
              (9 / (4 * s0)) (- 3 / (2 * s0 ^ 2)) (1 / (4 * s0 ^ 3))
  | Infinite => Damping Infinite Infinite 0 0 0
  end.

(* ComputeDampedRadialQuantities, harmonic_damping_body.hpp:32-60: the results
   are sigma R / r and the gradient of sigma R. *)
Definition ComputeDampedRadialQuantities (damping : harmonic_damping)
    (r_norm r2 : R) (r_normalized : R3) (R_over_r R_prime : R)
    : R * R3 :=
  if at_most r_norm (inner_threshold damping) then
    (R_over_r, scal3 R_prime r_normalized)
  else
    let r3 := r2 * r_norm in
    let c3r3 := c3 damping * r3 in
    let c2r2 := c2 damping * r2 in
    let c1r := c1 damping * r_norm in
    let sigma := c3r3 + c2r2 + c1r in
    let sigma_prime_r := 3 * c3r3 + 2 * c2r2 + c1r in
    (sigma * R_over_r,
     scal3 (sigma_prime_r * R_over_r + R_prime * sigma) r_normalized).

(* The overload for the potential, harmonic_damping_body.hpp:62-81. *)
Definition ComputeDampedRadialQuantity (damping : harmonic_damping)
    (r_norm r2 R_over_r : R) : R :=
  if at_most r_norm (inner_threshold damping) then R_over_r
  else
    let r3 := r2 * r_norm in
    let c3r3 := c3 damping * r3 in
    let c2r2 := c2 damping * r2 in
    let c1r := c1 damping * r_norm in
    let sigma := c3r3 + c2r2 + c1r in
    sigma * R_over_r.

(* What Geopotential uses of an OblateBody, at a given time: its reference
   radius, the normalized coefficients, the degree, the polar axis, the
   equatorial and biequatorial vectors, and the images of x_ and y_ by
   FromSurfaceFrame(t). *)
Record oblate_body := Body {
  reference_radius : R;
  cos_coefficients : nat -> nat -> R;
  sin_coefficients : nat -> nat -> R;
  geopotential_degree : nat;
  polar_axis : R3;
  equatorial : R3;
  biequatorial : R3;
  surface_x : R3;
  surface_y : R3
}.

Definition nonzero (x : R) : bool := if Req_EM_T x 0 then false else true.

(* oblate_body_body.hpp:88-97. *)
Definition is_zonal (body : oblate_body) : bool :=
  negb (existsb
          (fun n =>
             existsb
               (fun m => nonzero (cos_coefficients body n m) ||
                         nonzero (sin_coefficients body n m))
               (seq 1 n))
          (seq 0 (S (geopotential_degree body)))).

(* class Geopotential, geopotential.hpp:99-113. *)
Record geopotential := Geopotential {
  body_ : oblate_body;
  degree_damping : list harmonic_damping;
  sectoral_damping : harmonic_damping
}.

(* struct Threshold, geopotential_body.hpp:680-684. *)
Record threshold := Threshold {
  threshold_r : extended;
  threshold_n : nat;
  threshold_m : nat
}.

Definition length_less (a b : extended) : bool :=
  match a, b with
  | Finite x, Finite y => if Rlt_dec x y then true else false
  | Finite _, Infinite => true
  | Infinite, _ => false
  end.
Definition length_equal (a b : extended) : bool :=
  match a, b with
  | Finite x, Finite y => if Req_EM_T x y then true else false
  | Infinite, Infinite => true
  | _, _ => false
  end.

(* The comparator, geopotential_body.hpp:687-691. *)
Definition after (left right : threshold) : bool :=
  length_less (threshold_r left) (threshold_r right) ||
  (length_equal (threshold_r left) (threshold_r right) &&
   (Nat.ltb (threshold_m left) (threshold_m right) ||
    (Nat.eqb (threshold_m left) (threshold_m right) &&
     Nat.ltb (threshold_n left) (threshold_n right)))).

(* std::priority_queue<Threshold, std::vector<Threshold>, decltype(after)>, as
   the list of its elements in the order in which they are popped. *)
Fixpoint push (queue : list threshold) (t : threshold) : list threshold :=
  match queue with
  | [] => [t]
  | top :: rest => if after top t then t :: queue else top :: push rest t
  end.

(* The threshold of one harmonic, geopotential_body.hpp:696-707, with Root(n, x)
   which is std::pow(x, 1.0 / n), elementary_functions_body.hpp:157-159.  When
   the tolerance is 0 the quotient, and the threshold, are infinite. *)
Definition harmonic_threshold (max_abs_Pnm : nat -> nat -> R)
    (tolerance : R) (body : oblate_body) (n m : nat) : extended :=
  let Cnm := cos_coefficients body n m in
  let Snm := sin_coefficients body n m in
  if nonzero Cnm || nonzero Snm then
    if nonzero tolerance then
      Finite (reference_radius body *
              Rpower (max_abs_Pnm n m * INR (n + 1) *
                      sqrt (Cnm ^ 2 + Snm ^ 2) / tolerance) (1 / INR n))
    else Infinite
  else Finite 0.

(* The harmonics, in the order of the loops of geopotential_body.hpp:694-695. *)
Definition harmonics (degree : nat) : list (nat * nat) :=
  flat_map (fun n => map (fun m => (n, m)) (seq 0 (S n)))
           (seq 2 (degree - 1)).

(* geopotential_body.hpp:692-713. *)
Definition harmonic_thresholds (max_abs_Pnm : nat -> nat -> R)
    (tolerance : R) (body : oblate_body) : list threshold :=
  let queue :=
    fold_left
      (fun queue nm =>
         push queue (Threshold (harmonic_threshold max_abs_Pnm tolerance body
                                                   (fst nm) (snd nm))
                               (fst nm) (snd nm)))
      (harmonics (geopotential_degree body)) [] in
  push (push queue (Threshold Infinite 0 0)) (Threshold Infinite 1 0).

(* The loop of geopotential_body.hpp:728-730. *)
Definition fill (dampings : list harmonic_damping) (t : threshold)
    : list harmonic_damping :=
  dampings ++ repeat (HarmonicDamping (threshold_r t))
                     (S (threshold_n t) - List.length dampings).

(* HarmonicDamping() = default, harmonic_damping.hpp:27, 57-66. *)
Definition default_damping : harmonic_damping := HarmonicDamping Infinite.

(* One iteration of the loop of geopotential_body.hpp:715-732. *)
Definition take_threshold (dampings : list harmonic_damping * harmonic_damping)
    (t : threshold) : list harmonic_damping * harmonic_damping :=
  let (degree, sectoral) := dampings in
  (fill degree t,
   if Nat.eqb (threshold_n t) 2 && Nat.eqb (threshold_m t) 2 then
     if Nat.ltb 3 (List.length degree) then
       HarmonicDamping (inner_threshold (nth 3 degree default_damping))
     else HarmonicDamping (threshold_r t)
   else sectoral).

(* The constructor, geopotential_body.hpp:669-733; None stands for the failure
   of the CHECK. *)
Definition make_geopotential (max_abs_Pnm : nat -> nat -> R)
    (body : oblate_body) (tolerance : R) : option geopotential :=
  if Rle_dec 0 tolerance then
    let (degree, sectoral) :=
      fold_left take_threshold
                (harmonic_thresholds max_abs_Pnm tolerance body)
                ([], default_damping) in
    Some (Geopotential body degree sectoral)
  else None.

(* LimitingDegree, geopotential_body.hpp:910-922.  std::partition_point returns
   the first element that does not satisfy the predicate, provided that the
   sequence is partitioned. *)
Fixpoint partition_point {A} (predicate : A -> bool) (l : list A) : nat :=
  match l with
  | [] => 0
  | a :: l => if predicate a then S (partition_point predicate l) else 0
  end.
Definition LimitingDegree (g : geopotential) (r_norm : R) : nat :=
  partition_point (fun damping => below r_norm (outer_threshold damping))
                  (degree_damping g).

(* struct Precomputations, geopotential_body.hpp:31-65.  The arrays are
   functions; what they contain before they are written is arbitrary.
   [dchecks] is a ghost that tells if the DCHECKs encountered hold. *)
Record precomputations := Precomputations {
  p_r_norm : R;
  p_r2 : R;
  p_r_normalized : R3;
  p_sin_beta : R;
  p_cos_beta : R;
  p_grad_B_vector : R3;
  p_grad_L_vector : R3;
  p_R_over_r : nat -> R;
  p_cos_m_lambda : nat -> R;
  p_sin_m_lambda : nat -> R;
  p_cos_beta_to_the_m : nat -> R;
  p_DmPn : nat -> nat -> R;
  dchecks : bool
}.

Definition set_at {A} (f : nat -> A) (i : nat) (a : A) : nat -> A :=
  fun j => if Nat.eqb j i then a else f j.
Definition set_at2 {A} (f : nat -> nat -> A) (n m : nat) (a : A)
    : nat -> nat -> A :=
  fun i j => if Nat.eqb i n && Nat.eqb j m then a else f i j.

Definition set_R_over_r (p : precomputations) (n : nat) (v : R) :=
  Precomputations (p_r_norm p) (p_r2 p) (p_r_normalized p) (p_sin_beta p)
    (p_cos_beta p) (p_grad_B_vector p) (p_grad_L_vector p)
    (set_at (p_R_over_r p) n v) (p_cos_m_lambda p) (p_sin_m_lambda p)
    (p_cos_beta_to_the_m p) (p_DmPn p) (dchecks p).
Definition set_order (p : precomputations) (m : nat) (cos sin power : R) :=
  Precomputations (p_r_norm p) (p_r2 p) (p_r_normalized p) (p_sin_beta p)
    (p_cos_beta p) (p_grad_B_vector p) (p_grad_L_vector p) (p_R_over_r p)
    (set_at (p_cos_m_lambda p) m cos) (set_at (p_sin_m_lambda p) m sin)
    (set_at (p_cos_beta_to_the_m p) m power) (p_DmPn p) (dchecks p).
Definition set_DmPn (p : precomputations) (n m : nat) (v : R) :=
  Precomputations (p_r_norm p) (p_r2 p) (p_r_normalized p) (p_sin_beta p)
    (p_cos_beta p) (p_grad_B_vector p) (p_grad_L_vector p) (p_R_over_r p)
    (p_cos_m_lambda p) (p_sin_m_lambda p) (p_cos_beta_to_the_m p)
    (set_at2 (p_DmPn p) n m v) (dchecks p).
Definition DCHECK (p : precomputations) (condition : bool) :=
  Precomputations (p_r_norm p) (p_r2 p) (p_r_normalized p) (p_sin_beta p)
    (p_cos_beta p) (p_grad_B_vector p) (p_grad_L_vector p) (p_R_over_r p)
    (p_cos_m_lambda p) (p_sin_m_lambda p) (p_cos_beta_to_the_m p) (p_DmPn p)
    (dchecks p && condition).

(* geopotential_body.hpp:270-298. *)
Definition update_order (n m : nat) (p : precomputations) : precomputations :=
  if Nat.eqb m n then
    if Nat.even m then
      let h := Nat.div m 2 in
      let cos_h := p_cos_m_lambda p h in
      let sin_h := p_sin_m_lambda p h in
      let power_h := p_cos_beta_to_the_m p h in
      set_order p m ((cos_h + sin_h) * (cos_h - sin_h)) (2 * sin_h * cos_h)
                (power_h * power_h)
    else
      let h1 := Nat.div m 2 in
      let h2 := (m - h1)%nat in
      let cos_h1 := p_cos_m_lambda p h1 in
      let sin_h1 := p_sin_m_lambda p h1 in
      let power_h1 := p_cos_beta_to_the_m p h1 in
      let cos_h2 := p_cos_m_lambda p h2 in
      let sin_h2 := p_sin_m_lambda p h2 in
      let power_h2 := p_cos_beta_to_the_m p h2 in
      set_order p m (cos_h1 * cos_h2 - sin_h1 * sin_h2)
                (sin_h1 * cos_h2 + cos_h1 * sin_h2) (power_h1 * power_h2)
  else p.

(* geopotential_body.hpp:300-306. *)
Definition update_Pn (n m : nat) (p : precomputations) : precomputations :=
  if Nat.eqb m 0 then
    set_DmPn p n 0
      ((INR (2 * n - 1) * p_sin_beta p * p_DmPn p (n - 1) 0 -
        INR (n - 1) * p_DmPn p (n - 2) 0) / INR n)
  else p.

(* geopotential_body.hpp:308-329. *)
Definition update_DmPn (n m : nat) (p : precomputations) : precomputations :=
  if Nat.eqb m n then p
  else if Nat.eqb m (n - 1) then
    set_DmPn p n (m + 1)
      (INR (2 * n - 1) * INR (m + 1) * p_DmPn p (n - 1) m / INR n)
  else if Nat.eqb m (n - 2) then
    set_DmPn p n (m + 1)
      (INR (2 * n - 1) * (p_sin_beta p * p_DmPn p (n - 1) (m + 1) +
                          INR (m + 1) * p_DmPn p (n - 1) m) / INR n)
  else
    set_DmPn p n (m + 1)
      ((INR (2 * n - 1) * (p_sin_beta p * p_DmPn p (n - 1) (m + 1) +
                           INR (m + 1) * p_DmPn p (n - 1) m) -
        INR (n - 1) * p_DmPn p (n - 2) (m + 1)) / INR n).

(* DegreeNOrderM::UpdatePrecomputations, geopotential_body.hpp:249-331. *)
Definition UpdateOrder (n m : nat) (p : precomputations) : precomputations :=
  if Nat.eqb n 2 && Nat.eqb m 1 then set_DmPn p 2 2 3
  else update_DmPn n m (update_Pn n m (update_order n m p)).

(* DegreeNOrderM::Acceleration after the update, geopotential_body.hpp:139-203;
   [factor] is LegendreNormalizationFactor. *)
Definition order_acceleration (factor : nat -> nat -> R) (body : oblate_body)
    (n m : nat) (sR_over_r : R) (grad_sR : R3) (p : precomputations)
    : R3 :=
  if Nat.eqb n 2 && Nat.eqb m 1 then vector_zero
  else
    let cos_beta := p_cos_beta p in
    let sin_beta := p_sin_beta p in
    let cos_m := p_cos_m_lambda p m in
    let sin_m := p_sin_m_lambda p m in
    let power := p_cos_beta_to_the_m p m in
    let power_minus_1 := p_cos_beta_to_the_m p (m - 1) in
    let B := power * p_DmPn p n m in
    let grad_B_polynomials_0 :=
      if Nat.ltb m n then cos_beta * power * p_DmPn p n (m + 1) else 0 in
    let grad_B_polynomials :=
      if Nat.ltb 0 m then
        grad_B_polynomials_0 - INR m * sin_beta * power_minus_1 * p_DmPn p n m
      else grad_B_polynomials_0 in
    let Cnm := cos_coefficients body n m in
    let Snm := sin_coefficients body n m in
    let L := if Nat.eqb m 0 then Cnm else Cnm * cos_m + Snm * sin_m in
    let BL_grad_R := scal3 (B * L) grad_sR in
    let RL_grad_B :=
      scal3 (sR_over_r * L * grad_B_polynomials) (p_grad_B_vector p) in
    let grad_RBL := add3 BL_grad_R RL_grad_B in
    let grad_RBL :=
      if Nat.ltb 0 m then
        add3 grad_RBL
          (scal3
             (sR_over_r * power_minus_1 * p_DmPn p n m * INR m *
              (Snm * cos_m - Cnm * sin_m))
             (p_grad_L_vector p))
      else grad_RBL in
    scal3 (factor n m) grad_RBL.

(* DegreeNOrderM::Acceleration, geopotential_body.hpp:130-204. *)
Definition OrderAcceleration (factor : nat -> nat -> R) (body : oblate_body)
    (n m : nat) (sR_over_r : R) (grad_sR : R3) (p : precomputations)
    : precomputations * R3 :=
  let p := UpdateOrder n m p in
  (p, order_acceleration factor body n m sR_over_r grad_sR p).

(* DegreeNOrderM::Potential after the update, geopotential_body.hpp:213-246. *)
Definition order_potential (factor : nat -> nat -> R) (body : oblate_body)
    (n m : nat) (sR_over_r : R) (p : precomputations) : R :=
  if Nat.eqb n 2 && Nat.eqb m 1 then 0
  else
    let sR := p_r_norm p * sR_over_r in
    let B := p_cos_beta_to_the_m p m * p_DmPn p n m in
    let Cnm := cos_coefficients body n m in
    let Snm := sin_coefficients body n m in
    let L :=
      if Nat.eqb m 0 then Cnm
      else Cnm * p_cos_m_lambda p m + Snm * p_sin_m_lambda p m in
    - factor n m * sR * B * L.

(* DegreeNOrderM::Potential, geopotential_body.hpp:206-247. *)
Definition OrderPotential (factor : nat -> nat -> R) (body : oblate_body)
    (n m : nat) (sR_over_r : R) (p : precomputations) : precomputations * R :=
  let p := UpdateOrder n m p in
  (p, order_potential factor body n m sR_over_r p).

(* DegreeNAllOrders::UpdatePrecomputations, geopotential_body.hpp:476-499. *)
Definition UpdateDegree (n : nat) (p : precomputations) : precomputations :=
  if Nat.even n then
    let h := Nat.div n 2 in
    set_R_over_r p n (p_R_over_r p h * p_R_over_r p h * p_r2 p)
  else
    let h1 := Nat.div n 2 in
    let h2 := (n - h1)%nat in
    set_R_over_r p n (p_R_over_r p h1 * p_R_over_r p h2 * p_r2 p).

(* The evaluation of the elements of an initializer list, in order, followed by
   the sum of the results. *)
Fixpoint evaluate {S A} (plus : A -> A -> A) (zero : A)
    (f : nat -> S -> S * A) (indices : list nat) (s : S) : S * A :=
  match indices with
  | [] => (s, zero)
  | i :: indices =>
      let (s, a) := f i s in
      let (s, b) := evaluate plus zero f indices s in
      (s, plus a b)
  end.

Definition damping_of_degree (g : geopotential) (n : nat) : harmonic_damping :=
  nth n (degree_damping g) default_damping.

(* DegreeNAllOrders::Acceleration, geopotential_body.hpp:333-413, for the orders
   0 ... size - 1. *)
Definition DegreeAcceleration (factor : nat -> nat -> R) (g : geopotential)
    (size n : nat) (p : precomputations) : precomputations * R3 :=
  if Nat.ltb n 2 then (p, vector_zero)
  else
    let p := UpdateDegree n p in
    let R_over_r := p_R_over_r p n in
    let R_prime := - INR (n + 1) * R_over_r in
    let radial damping :=
      ComputeDampedRadialQuantities
        damping (p_r_norm p) (p_r2 p) (p_r_normalized p) R_over_r R_prime in
    if Nat.eqb n 2 && Nat.ltb 1 size then
      let (sR_over_r, grad_sR) := radial (damping_of_degree g 2) in
      let p := DCHECK p (below (p_r_norm p)
                               (outer_threshold (damping_of_degree g 2))) in
      let (p, j2) := OrderAcceleration factor (body_ g) 2 0
                                       sR_over_r grad_sR p in
      let (sR_over_r, grad_sR) := radial (sectoral_damping g) in
      let p := DCHECK p (below (p_r_norm p)
                               (outer_threshold (sectoral_damping g))) in
      let (p, _) := OrderAcceleration factor (body_ g) 2 1
                                      sR_over_r grad_sR p in
      let (p, c22_s22) := OrderAcceleration factor (body_ g) 2 2
                                            sR_over_r grad_sR p in
      (p, add3 j2 c22_s22)
    else
      let (sR_over_r, grad_sR) := radial (damping_of_degree g n) in
      let p := DCHECK p (below (p_r_norm p)
                               (outer_threshold (damping_of_degree g n))) in
      evaluate add3 vector_zero
               (fun m p => OrderAcceleration factor (body_ g) n m
                                             sR_over_r grad_sR p)
               (seq 0 size) p.

(* DegreeNAllOrders::Potential, geopotential_body.hpp:415-474. *)
Definition DegreePotential (factor : nat -> nat -> R) (g : geopotential)
    (size n : nat) (p : precomputations) : precomputations * R :=
  if Nat.ltb n 2 then (p, 0)
  else
    let p := UpdateDegree n p in
    let R_over_r := p_R_over_r p n in
    let radial damping :=
      ComputeDampedRadialQuantity damping (p_r_norm p) (p_r2 p) R_over_r in
    if Nat.eqb n 2 && Nat.ltb 1 size then
      let sR_over_r := radial (damping_of_degree g 2) in
      let p := DCHECK p (below (p_r_norm p)
                               (outer_threshold (damping_of_degree g 2))) in
      let (p, j2) := OrderPotential factor (body_ g) 2 0 sR_over_r p in
      let sR_over_r := radial (sectoral_damping g) in
      let p := DCHECK p (below (p_r_norm p)
                               (outer_threshold (sectoral_damping g))) in
      let (p, _) := OrderPotential factor (body_ g) 2 1 sR_over_r p in
      let (p, c22_s22) := OrderPotential factor (body_ g) 2 2 sR_over_r p in
      (p, j2 + c22_s22)
    else
      let sR_over_r := radial (damping_of_degree g n) in
      let p := DCHECK p (below (p_r_norm p)
                               (outer_threshold (damping_of_degree g n))) in
      evaluate Rplus 0
               (fun m p => OrderPotential factor (body_ g) n m sR_over_r p)
               (seq 0 size) p.

(* geopotential_body.hpp:513-515, 550-552, 586-588: body.is_zonal() ||
   r_norm > sectoral_damping_.outer_threshold(). *)
Definition zonal_at (g : geopotential) (r_norm : R) : bool :=
  is_zonal (body_ g) ||
  negb (at_most r_norm (outer_threshold (sectoral_damping g))).

(* InitializePrecomputations, geopotential_body.hpp:575-667; [p] is the
   uninitialized object. *)
Definition InitializePrecomputations (g : geopotential) (r : R3)
    (r_norm r2 one_over_r3 : R) (p : precomputations) : precomputations :=
  let body := body_ g in
  let x_hat := if zonal_at g r_norm then equatorial body else surface_x body in
  let y_hat :=
    if zonal_at g r_norm then biequatorial body else surface_y body in
  let z_hat := polar_axis body in
  let x := Dot r x_hat in
  let y := Dot r y_hat in
  let z := Dot r z_hat in
  let r_equatorial := sqrt (x * x + y * y) in
  let one_over_r_equatorial := 1 / r_equatorial in
  let off_axis := if Rlt_dec 0 r_equatorial then true else false in
  let cos_lambda := if off_axis then x * one_over_r_equatorial else 1 in
  let sin_lambda := if off_axis then y * one_over_r_equatorial else 0 in
  let one_over_r_norm := 1 / r_norm in
  let cos_beta := r_equatorial * one_over_r_norm in
  let sin_beta := z * one_over_r_norm in
  Precomputations
    r_norm r2
    (scal3 one_over_r_norm r)
    sin_beta cos_beta
    (add3
       (sub3 (scal3 (- sin_beta * cos_lambda) x_hat)
                     (scal3 (sin_beta * sin_lambda) y_hat))
       (scal3 cos_beta z_hat))
    (sub3 (scal3 cos_lambda y_hat)
                  (scal3 sin_lambda x_hat))
    (set_at (p_R_over_r p) 1 (reference_radius body * one_over_r3))
    (set_at (p_cos_m_lambda p) 1 cos_lambda)
    (set_at (p_sin_m_lambda p) 1 sin_lambda)
    (set_at (set_at (p_cos_beta_to_the_m p) 0 1) 1 cos_beta)
    (set_at2 (set_at2 (set_at2 (p_DmPn p) 0 0 1) 1 0 sin_beta) 1 1 1)
    true.

(* AllDegrees::Acceleration, geopotential_body.hpp:501-536, for the degrees
   0 ... max_degree. *)
Definition AllDegreesAcceleration (factor : nat -> nat -> R)
    (g : geopotential) (max_degree : nat) (r : R3)
    (r_norm r2 one_over_r3 : R) (uninitialized : precomputations)
    : precomputations * R3 :=
  let p := InitializePrecomputations g r r_norm r2 one_over_r3
                                     uninitialized in
  evaluate add3 vector_zero
           (fun n p => DegreeAcceleration
                         factor g (if zonal_at g r_norm then 1 else n + 1)
                         n p)
           (seq 0 (max_degree + 1)) p.

(* AllDegrees::Potential, geopotential_body.hpp:538-573. *)
Definition AllDegreesPotential (factor : nat -> nat -> R)
    (g : geopotential) (max_degree : nat) (r : R3)
    (r_norm r2 one_over_r3 : R) (uninitialized : precomputations)
    : precomputations * R :=
  let p := InitializePrecomputations g r r_norm r2 one_over_r3
                                     uninitialized in
  evaluate Rplus 0
           (fun n p => DegreePotential
                         factor g (if zonal_at g r_norm then 1 else n + 1)
                         n p)
           (seq 0 (max_degree + 1)) p.

(* The cases of the switch: 30, or 50 if PRINCIPIA_GEOPOTENTIAL_MAX_DEGREE_50,
   geopotential_body.hpp:755-812, is a parameter.  None stands for LOG(FATAL).
   The boolean tells if the DCHECKs hold. *)

(* GeneralSphericalHarmonicsAcceleration, geopotential_body.hpp:740-813. *)
Definition GeneralSphericalHarmonicsAcceleration (factor : nat -> nat -> R)
    (cases : nat) (g : geopotential) (r : R3)
    (r_norm r2 one_over_r3 : R) (uninitialized : precomputations)
    : option (bool * R3) :=
  let max_degree := (LimitingDegree g r_norm - 1)%nat in
  if Nat.leb 2 max_degree && Nat.leb max_degree cases then
    let (p, a) := AllDegreesAcceleration factor g max_degree r r_norm r2
                                         one_over_r3 uninitialized in
    Some (dchecks p, a)
  else if Nat.eqb max_degree 1 then Some (true, vector_zero)
  else None.

(* GeneralSphericalHarmonicsPotential, geopotential_body.hpp:822-895. *)
Definition GeneralSphericalHarmonicsPotential (factor : nat -> nat -> R)
    (cases : nat) (g : geopotential) (r : R3)
    (r_norm r2 one_over_r3 : R) (uninitialized : precomputations)
    : option (bool * R) :=
  let max_degree := (LimitingDegree g r_norm - 1)%nat in
  if Nat.leb 2 max_degree && Nat.leb max_degree cases then
    let (p, v) := AllDegreesPotential factor g max_degree r r_norm r2
                                      one_over_r3 uninitialized in
    Some (dchecks p, v)
  else if Nat.eqb max_degree 1 then Some (true, 0)
  else None.
