(** C26 and C58: the zero finders. *)
From Coq Require Import ZArith Bool Reals.
From Flocq Require Import Core IEEE754.BinarySingleNaN IEEE754.Binary IEEE754.Bits.
From Verif Require Import Double_Model Double_Proofs RootFinders_Model RootFinders_Proofs.
Open Scope R_scope.

(** * C26 *)
(** For all functions, continuous or not, which change sign between the bounds, in any order: after some number of iterations Bisect returns a
    point of the interval which is a zero, or the same number as one of two adjacent doubles of the interval between which the function changes
    sign.  Missing: the bounds of absolute value above 2¹⁰²³, for which it is false, see [C26_overflow_refuted]. *)
Theorem C26_bisect_partial : forall f l u, fin l -> fin u -> Rabs (real l) < pow2 1023 -> Rabs (real u) < pow2 1023 -> real l <> real u -> sign_change f l u ->
  exists n m, Bisect n f l u = Returned m /\ within l u m /\
    (eq (f m) zero = true \/
     exists a b, within l u a /\ within l u b /\ adjacent a b /\ sign_change f a b /\ (real m = real a \/ real m = real b)).
Proof. exact bisect_found. Qed.
Print Assumptions C26_bisect_partial.
(** Bisect fails exactly if the values at the bounds are not zero and have the same sign. *)
Theorem C26_checks : forall n f l u, Bisect n f l u = CheckFailed <-> eq (f l) zero = false /\ eq (f u) zero = false /\ ~ sign_change f l u.
Proof. exact bisect_checks. Qed.
Print Assumptions C26_checks.
(** Above 2¹⁰²³ the sum of the bounds overflows: an infinity is returned, which is not in the interval. *)
Theorem C26_overflow_refuted : exists f l u, fin l /\ fin u /\ lt l u = true /\ sign_change f l u /\
  forall n, (2 <= n)%nat -> Bisect n f l u = Returned infinity /\ ~ within l u infinity.
Proof.
  exists (fun x => sub x (of_Z2 3 1022)), (of_Z2 1 1023), (of_Z2 7 1021). split; [reflexivity|]. split; [reflexivity|]. split; [reflexivity|]. split; [vm_compute; discriminate|].
  intros n H. split; [|intros [F _]; discriminate F]. destruct n as [|[|n]]; [exfalso; inversion H|exfalso; inversion H as [|? G]; inversion G|].
  unfold Bisect. cbn [bisect_loop]. cbv zeta. vm_compute. reflexivity.
Qed.
Print Assumptions C26_overflow_refuted.
(** Between the infinities, Bisect does not return if the function isn't zero at a NaN. *)
Theorem C26_infinite_refuted : (forall f n, (forall x, is_nan 53 1024 x = true -> eq (f x) zero = false) ->
    eq (f minus_infinity) zero = false -> eq (f infinity) zero = false -> sign_change f minus_infinity infinity -> Bisect n f minus_infinity infinity = Running) /\
  forall n, Bisect n (fun x => x) minus_infinity infinity = Running.
Proof.
  split; [intros f n; exact (bisect_infinite f n)|]. intros n. apply bisect_infinite; [|reflexivity|reflexivity|discriminate]. intros x H. apply nan_eq, H.
Qed.
Print Assumptions C26_infinite_refuted.
(** √2, to the nearest; a jump, at the negative of the least positive double; an interval given backwards. *)
Definition bits_of (r : result) : option Z := match r with Returned x => Some (bits x) | _ => None end.
Example C26_example : bits_of (Bisect 60 (fun x => sub (mul x x) two) one two) = Some 0x3FF6A09E667F3BCC%Z /\
  bits_of (Bisect 2000 (fun x => if le zero x then one else opp one) (opp one) one) = Some (- 2 ^ 63)%Z /\
  bits_of (Bisect 60 (fun x => sub x (of_Z2 3 (-1))) (of_Z 3) zero) = Some (bits (of_Z2 3 (-1))) /\
  Bisect 60 (fun x => x) one two = CheckFailed.
Proof. vm_compute. repeat split. Qed.

(** * C58 *)
(** If Brent returns, for any function and bounds, the value at the result is zero, or there is a point where the function has the other sign, the
    value at the result being the smallest of the two in absolute value; in real numbers these points are within 4 ϵ of each other, relatively, if the result is
    not minute. *)
Theorem C58_brent : forall f n l u b, Brent n f l u = Returned b ->
  eq (f b) zero = true \/
  exists c, sign_change f b c /\ lt (Abs (f c)) (Abs (f b)) = false /\
    (fin b -> pow2 (-960) <= Rabs (real b) -> fin c /\ Rabs (real c - real b) <= pow2 (-51) * Rabs (real b)).
Proof.
  intros f n l u b H. destruct (brent_returns f n l u b H) as [E|(c & S & O & T)]; [left; exact E|right; exists c].
  split; [exact S|]. split; [exact O|]. intros F B. exact (tolerance_close b c F B T).
Qed.
Print Assumptions C58_brent.
Example C58_example : bits_of (Brent 20 (fun x => sub (mul x x) two) one two) = Some 0x3FF6A09E667F3BCD%Z /\
  Brent 5 (fun x => sub (mul x x) two) one two = Running /\ Brent 20 (fun x => x) one two = CheckFailed.
Proof. vm_compute. repeat split. Qed.
