From Coq Require Import Reals Lra Field.
From Verif Require Import Complexification_Model.
Open Scope R_scope.

(** * Specification: a field with a square root of -1, in which the reals are embedded. *)
Definition reciprocal (a : complex) : complex := divide_rc 1 a.
Definition i : complex := Complex 0 1.

Lemma complex_eq a b : real_part a = real_part b -> imaginary_part a = imaginary_part b -> a = b.
Proof. destruct a, b; cbn; congruence. Qed.
Ltac complex := intros; apply complex_eq; unfold Real, Conjugate, positive, negative, plus_rc, plus_cr, plus, minus_rc, minus_cr, minus, times_rc, times_cr, times, InnerProduct, i; cbn [real_part imaginary_part]; try ring.
Lemma complex_ring : ring_theory (Real 0) (Real 1) plus times minus negative eq.
Proof. constructor; complex. Qed.
Add Ring complex_ring : complex_ring.
Lemma norm2_pos a : a <> Real 0 -> 0 < Norm2 a.
Proof.
  intros N. unfold Norm2. pose proof (Rle_0_sqr (real_part a)). pose proof (Rle_0_sqr (imaginary_part a)). unfold Rsqr in *.
  destruct (Req_dec (real_part a * real_part a + imaginary_part a * imaginary_part a) 0) as [E|E]; [|lra]. exfalso. apply N.
  apply complex_eq; cbn.
  - apply Rsqr_0_uniq. unfold Rsqr. lra.
  - apply Rsqr_0_uniq. unfold Rsqr. lra.
Qed.
Lemma complex_field : field_theory (Real 0) (Real 1) plus times minus negative divide reciprocal eq.
Proof.
  constructor.
  - exact complex_ring.
  - intros E. injection E as E. lra.
  - intros a b. apply complex_eq; unfold divide, times, reciprocal, divide_rc, Rdiv; cbn [real_part imaginary_part]; ring.
  - intros a N. apply norm2_pos in N. unfold Norm2 in N. apply complex_eq; unfold times, reciprocal, divide_rc, Real; cbn [real_part imaginary_part]; field; lra.
Qed.
Lemma i_squared : times i i = negative (Real 1).
Proof. complex. Qed.
Lemma parts a : a = plus (Real (real_part a)) (times (Real (imaginary_part a)) i).
Proof. complex. Qed.
Lemma embedding a b : Real (a + b) = plus (Real a) (Real b) /\ Real (a - b) = minus (Real a) (Real b) /\ Real (a * b) = times (Real a) (Real b) /\ (b <> 0 -> Real (a / b) = divide (Real a) (Real b)).
Proof.
  split; [complex|]. split; [complex|]. split; [complex|]. intros N.
  apply complex_eq; unfold Real, divide; cbn [real_part imaginary_part]; field; exact N.
Qed.
Lemma mixed r a : plus_rc r a = plus (Real r) a /\ plus_cr a r = plus a (Real r) /\ minus_cr a r = minus a (Real r) /\
  times_rc r a = times (Real r) a /\ times_cr a r = times a (Real r) /\ (a <> Real 0 -> divide_rc r a = divide (Real r) a) /\ (r <> 0 -> divide_cr a r = divide a (Real r)).
Proof.
  do 5 (split; [complex|]). split.
  - intros N. apply norm2_pos in N. unfold Norm2 in N. apply complex_eq; unfold Real, divide, divide_rc; cbn [real_part imaginary_part]; field; lra.
  - intros N. apply complex_eq; unfold Real, divide, divide_cr; cbn [real_part imaginary_part]; field; exact N.
Qed.
Lemma real_minus_complex r a : minus_rc r a = Conjugate (minus (Real r) a).
Proof. complex. Qed.
Lemma real_minus_complex_right r a : minus_rc r a = minus (Real r) a <-> imaginary_part a = 0.
Proof. split; [intros E; injection E; lra|]. intros E. apply complex_eq; unfold minus_rc, minus, Real; cbn [real_part imaginary_part]; lra. Qed.
Lemma norms a b : times a (Conjugate a) = Real (Norm2 a) /\ Norm2 (times a b) = Norm2 a * Norm2 b /\ Norm2 (Conjugate a) = Norm2 a /\ (Norm2 a = 0 <-> a = Real 0) /\ 0 <= Norm a /\ Norm a * Norm a = Norm2 a.
Proof.
  split; [unfold Norm2; complex|]. split; [unfold Norm2, times; cbn [real_part imaginary_part]; ring|]. split; [unfold Norm2, Conjugate; cbn [real_part imaginary_part]; ring|].
  split.
  - split; [|intros ->; unfold Norm2, Real; cbn [real_part imaginary_part]; ring]. intros E.
    destruct (Req_dec (real_part a) 0) as [A|A]; [destruct (Req_dec (imaginary_part a) 0) as [B|B]|]; [now apply complex_eq| |];
      (pose proof (norm2_pos a) as P; assert (a <> Real 0) as N; [intros K; rewrite K in *; cbn in *; congruence|specialize (P N); lra]).
  - split; [apply sqrt_pos|]. unfold Norm. apply sqrt_def. unfold Norm2. pose proof (Rle_0_sqr (real_part a)). pose proof (Rle_0_sqr (imaginary_part a)). unfold Rsqr in *. lra.
Qed.
(** The Hermitian product is linear on the left. *)
Lemma hermitian a b c : InnerProduct a b = times a (Conjugate b) /\ InnerProduct a b = Conjugate (InnerProduct b a) /\ InnerProduct a a = Real (Norm2 a) /\
  InnerProduct (plus a b) c = plus (InnerProduct a c) (InnerProduct b c) /\ InnerProduct (times b a) c = times b (InnerProduct a c).
Proof. split; [complex|]. split; [complex|]. split; [unfold Norm2; complex|]. split; complex. Qed.
