(** The Legendre polynomials, by the recurrence of Bonnet, and the integral of a function between -1 and 1. *)
From Coq Require Import Reals.
Open Scope R_scope.

(** The polynomials of degrees [n] and [n + 1]. *)
Fixpoint legendres (n : nat) (x : R) : R * R :=
  match n with
  | O => (1, x)
  | S n => let (a, b) := legendres n x in (b, ((2 * INR n + 3) * x * b - (INR n + 1) * a) / (INR n + 2))
  end.
Definition legendre (n : nat) (x : R) : R := fst (legendres n x).

(** The integral of [f] from -1 to 1 is [v]: this is the difference of the values of any antiderivative, and there is one. *)
Definition integral (f : R -> R) (v : R) : Prop :=
  (exists F, forall x, derivable_pt_lim F x (f x)) /\ forall F, (forall x, derivable_pt_lim F x (f x)) -> F 1 - F (-1) = v.

(** The double factorial of an odd number, 1 3 ... (2 n - 1). *)
Fixpoint odd_factorial (n : nat) : Z := match n with O => 1 | S n => (2 * Z.of_nat n + 1) * odd_factorial n end%Z.
