(** C51: the coefficients of the finite difference formulae and of the linear multistep methods have their stated orders. *)
From Coq Require Import Reals ZArith QArith Qreals List Arith Lra.
From Verif Require Import OneStep_Model Multistep_Tables Multistep_Model Multistep_Proofs Multistep_Proofs2 Multistep_Proofs3.
Import ListNotations.
Open Scope R_scope.

(** The derivative computed from n equally spaced values of a polynomial of degree less than n, at any of the points, is
    exact. *)
Theorem C51_finite_difference :
  forall n offset p p1 x0 h, (1 <= n <= 9)%nat -> (offset < n)%nat -> polynomial (n - 1) p -> derivative p p1 -> h <> 0 ->
  FiniteDifference (map (fun j => p (x0 + INR j * h)) (seq 0 n)) h offset = p1 (x0 + INR offset * h).
Proof. exact finite_difference_exact. Qed.
Print Assumptions C51_finite_difference.
(** The degree is the best possible. *)
Theorem C51_finite_difference_sharp :
  forall n offset h, (1 <= n <= 9)%nat -> (offset < n)%nat -> h <> 0 ->
  exists p p1, polynomial n p /\ derivative p p1 /\
    FiniteDifference (map (fun j => p (0 + INR j * h)) (seq 0 n)) h offset <> p1 (0 + INR offset * h).
Proof. exact finite_difference_sharp. Qed.
Print Assumptions C51_finite_difference_sharp.
(** Adams-Moulton formulae: y(x) - y(x - h) from the derivatives at x, x - h, ... *)
Theorem C51_adams_moulton :
  forall n, (1 <= n <= 14)%nat -> exists m,
  nth_error AdamsMoultonOrder (n - 1) = Some m /\ length (numerators m) = n /\
  (forall y y1 x h, polynomial n y -> derivative y y1 -> y x - y (x - h) = am_formula m y1 x h) /\
  (forall h, h <> 0 -> exists y y1, polynomial (S n) y /\ derivative y y1 /\ y 0 - y (0 - h) <> am_formula m y1 0 h).
Proof. exact adams_moulton. Qed.
Print Assumptions C51_adams_moulton.
(** Cohen-Hubbard-Oesterwinter formulae: the velocity from two positions and the accelerations. *)
Theorem C51_cohen_hubbard_oesterwinter :
  forall n, (1 <= n <= 15)%nat -> exists m,
  nth_error CohenHubbardOesterwinterOrder (n - 1) = Some m /\ length (numerators m) = n /\
  (forall q q1 q2 x h, polynomial (S n) q -> derivative q q1 -> derivative q1 q2 -> h <> 0 -> cho_formula m q q2 x h = q1 x) /\
  (forall h, h <> 0 -> exists q q1 q2,
     polynomial (S (S n)) q /\ derivative q q1 /\ derivative q1 q2 /\ cho_formula m q q2 0 h <> q1 0).
Proof. exact cohen_hubbard_oesterwinter. Qed.
Print Assumptions C51_cohen_hubbard_oesterwinter.
(** A step of the Adams-Bashforth methods, from previous steps on a polynomial whose degree is at most the order, remains
    on it; the order is the best possible. *)
Theorem C51_adams_bashforth :
  forall m f h s y y1 steps, In m explicit_methods ->
  (forall d, polynomial (order m) (y d)) -> (forall d, derivative (y d) (y1 d)) ->
  e_on_solution y y1 h s (order m) steps ->
  forall d, e_y (fst (e_step m f h steps s)) d = y d (s + h).
Proof. exact explicit_exact. Qed.
Print Assumptions C51_adams_bashforth.
Theorem C51_adams_bashforth_sharp :
  forall m f h, In m explicit_methods -> h <> 0 -> exists y y1 s steps,
  (forall d, polynomial (S (order m)) (y d)) /\ (forall d, derivative (y d) (y1 d)) /\
  e_on_solution y y1 h s (order m) steps /\
  forall d, e_y (fst (e_step m f h steps s)) d <> y d (s + h).
Proof. exact explicit_sharp. Qed.
Print Assumptions C51_adams_bashforth_sharp.
(** A step of the symmetric methods: the equation is of the second order, the degree is at most the order plus one. *)
Theorem C51_symmetric :
  forall m f h t q q1 q2 steps, In m symmetric_methods ->
  (forall d, polynomial (S (order m)) (q d)) -> (forall d, derivative (q d) (q1 d)) -> (forall d, derivative (q1 d) (q2 d)) ->
  s_on_motion q q2 h t (order m) steps ->
  forall d, displacements (fst (s_step m f h steps t)) d = q d (t + h).
Proof. exact symmetric_exact. Qed.
Print Assumptions C51_symmetric.
Theorem C51_symmetric_sharp :
  forall m f h, In m symmetric_methods -> h <> 0 -> exists q q1 q2 t steps,
  (forall d, polynomial (S (S (order m))) (q d)) /\ (forall d, derivative (q d) (q1 d)) /\ (forall d, derivative (q1 d) (q2 d)) /\
  s_on_motion q q2 h t (order m) steps /\
  forall d, displacements (fst (s_step m f h steps t)) d <> q d (t + h).
Proof. exact symmetric_sharp. Qed.
Print Assumptions C51_symmetric_sharp.
(** The velocity that goes with it. *)
Theorem C51_symmetric_velocity :
  forall m h t q q1 q2 steps, In m symmetric_methods -> h <> 0 ->
  (forall d, polynomial (S (order m)) (q d)) -> (forall d, derivative (q d) (q1 d)) -> (forall d, derivative (q1 d) (q2 d)) ->
  s_on_motion q q2 h t (order m) steps ->
  forall d, ComputeVelocity m h steps d = q1 d t.
Proof. exact velocity_exact. Qed.
Print Assumptions C51_symmetric_velocity.
(** The symmetric methods are symmetric: backward in time, from the reverse of the last steps, they give the step that
    was forgotten. *)
Theorem C51_symmetric_reverse :
  forall m f h steps t f' t' d, In m symmetric_methods -> length steps = order m ->
  displacements (fst (s_step m f' (- h) (rev (tl steps ++ [fst (s_step m f h steps t)])) t')) d
  = displacements (hd default_step steps) d.
Proof. exact symmetric_reverse. Qed.
Print Assumptions C51_symmetric_reverse.

(** The derivative of the fourth power at 2, from 0, 1, 16, 81 and 256. *)
Example C51_finite_difference_example : FiniteDifference [0; 1; 16; 81; 256] 1 2 = 32.
Proof. unfold FiniteDifference, fd_numerator, fd_denominator. cbn. lra. Qed.
(** The Adams-Bashforth method of order 2, from the squares of 2 and 3, gives that of 4. *)
Example C51_adams_bashforth_example :
  e_y (fst (e_step AdamsBashforthOrder2 (fun _ _ => (Ok, vzero)) 1
        [mkEStep 2 (fun _ => 4) (fun _ => 4); mkEStep 3 (fun _ => 9) (fun _ => 6)] 3)) 0%nat = 16.
Proof. rewrite e_step_y. unfold sum_to, alpha_, beta_numerator_, beta_denominator_, Q2R. cbn. lra. Qed.
(** The symmetric method of order 8, from the cubes of -4, ... 3, gives that of 4. *)
Example C51_symmetric_example :
  displacements (fst (s_step Quinlan1999Order8A (fun _ _ => (Ok, vzero)) 1
        (map (fun x => mkStep x (fun _ => x ^ 3) (fun _ => 6 * x)) [-4; -3; -2; -1; 0; 1; 2; 3]) 3)) 0%nat = 64.
Proof.
  unfold s_step, s_sums, alpha_, beta_numerator_, beta_denominator_, Q2R. cbn. unfold vadd, vscal. lra.
Qed.
Example C51_methods : length explicit_methods = 5%nat /\ length symmetric_methods = 6%nat.
Proof. split; reflexivity. Qed.
