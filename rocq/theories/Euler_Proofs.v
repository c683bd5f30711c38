(* The kinematics of the attitude: the rotation 𝒫ₜ, the rotation 𝒴ₜ, and their derivatives. *)
From Coq Require Import Reals Lra.
From Verif Require Import Geometry_Model Geometry_Proofs Geometry_Proofs2 VectorCalculus_Proofs Hermite_Model RotatingBody_Model RotatingBody_Proofs.
From Verif Require Import Euler_Model Euler_Spec.
Local Open Scope R_scope.

Definition axis1 : R3 := mk3 1 0 0.
Definition axis3 : R3 := mk3 0 0 1.

(* The rotation that brings the unit vector n onto e. *)
Definition Pmat (e n w : R3) : R3 :=
  let a := Cross n e in add3 (add3 w (Cross a w)) (scal3 (/ (1 + Dot n e)) (Cross a (Cross a w))).

Lemma half_sqrt G x : 0 < G -> 0 < G + x ->
  let c := sqrt (/ 2 * (1 + x / G)) in 0 < c /\ / G * x = 2 * (c * c) - 1 /\ x = G * (2 * (c * c) - 1).
Proof.
  intros HG HX c. assert (P : 0 < / 2 * (1 + x / G)).
  { replace (/ 2 * (1 + x / G)) with (/ 2 * ((G + x) / G)) by (field; lra). apply Rmult_lt_0_compat; [lra|].
    now apply Rdiv_lt_0_compat. }
  assert (S : c * c = / 2 * (1 + x / G)) by (apply sqrt_sqrt; lra).
  split; [now apply sqrt_lt_R0|]. rewrite S. split; field; lra.
Qed.

Lemma P1 G m w : 0 < G -> Norm2 m = G * G -> 0 < G + cx m ->
  unit_q (ComputeP e1 G m) /\ rotate (ComputeP e1 G m) w = Pmat axis1 (scal3 (/ G) m) w.
Proof.
  intros HG N P. destruct m as [x y z]. destruct w as [w1 w2 w3]. cbn [cx] in P.
  destruct (half_sqrt G x HG P) as (C & F & X).
  cbv [Norm2 Dot cx cy cz] in N. cbv [ComputeP cx cy cz]. set (c := sqrt (/ 2 * (1 + x / G))) in *. clearbody c.
  split.
  - cbv [unit_q re im cx cy cz].
    assert (N' : y * y + z * z = G * G * (4 * (c * c) * (1 - c * c))) by (transitivity (G * G - x * x); [lra|rewrite X; ring]).
    transitivity (c * c + (y * y + z * z) / (4 * G * G * (c * c))); [field; lra|]. rewrite N'. field. lra.
  - unfold Pmat, axis1. replace (1 + Dot (scal3 (/ G) (mk3 x y z)) (mk3 1 0 0)) with (2 * (c * c)) by (red_all; lra).
    clear - HG C. red_all. apply mk3_eq; field; lra.
Qed.
Lemma P3 G m w : 0 < G -> Norm2 m = G * G -> 0 < G + cz m ->
  unit_q (ComputeP e3 G m) /\ rotate (ComputeP e3 G m) w = Pmat axis3 (scal3 (/ G) m) w.
Proof.
  intros HG N P. destruct m as [x y z]. destruct w as [w1 w2 w3]. cbn [cz] in P.
  destruct (half_sqrt G z HG P) as (C & F & X).
  cbv [Norm2 Dot cx cy cz] in N. cbv [ComputeP cx cy cz]. set (c := sqrt (/ 2 * (1 + z / G))) in *. clearbody c.
  split.
  - cbv [unit_q re im cx cy cz].
    assert (N' : x * x + y * y = G * G * (4 * (c * c) * (1 - c * c))) by (transitivity (G * G - z * z); [lra|rewrite X; ring]).
    transitivity (c * c + (x * x + y * y) / (4 * G * G * (c * c))); [field; lra|]. rewrite N'. field. lra.
  - unfold Pmat, axis3. replace (1 + Dot (scal3 (/ G) (mk3 x y z)) (mk3 0 0 1)) with (2 * (c * c)) by (red_all; lra).
    clear - HG C. red_all. apply mk3_eq; field; lra.
Qed.

(* The derivative of [Pmat] along n'. *)
Definition dPmat (e n n' w : R3) : R3 :=
  let a := Cross n e in let a' := Cross n' e in let d := 1 + Dot n e in
  add3 (Cross a' w)
       (add3 (scal3 (- Dot n' e / (d * d)) (Cross a (Cross a w)))
             (scal3 (/ d) (add3 (Cross a' (Cross a w)) (Cross a (Cross a' w))))).
Lemma v_cross_l f w t f' : has_derivative f t f' -> has_derivative (fun s => Cross (f s) w) t (Cross f' w).
Proof.
  intros F. eapply v_eq; [apply (v_cross f (fun _ => w)); [exact F|apply v_const]|].
  destruct f', w, (f t). red_all. apply mk3_eq; ring.
Qed.
Lemma d_Pmat e n t n' w : has_derivative n t n' -> 1 + Dot (n t) e <> 0 ->
  has_derivative (fun s => Pmat e (n s) w) t (dPmat e (n t) n' w).
Proof.
  intros N D. unfold Pmat. pose proof (v_cross_l _ e _ _ N) as A. pose proof (v_cross_l _ w _ _ A) as AW.
  eapply v_eq; [apply v_add; [apply v_add; [apply v_const|exact AW]|apply v_scal]|].
  - apply (d_inv (fun s => 1 + Dot (n s) e)); [|exact D].
    apply d_plus; [apply d_const|]. apply (v_dot n (fun _ => e)); [exact N|apply v_const].
  - apply v_cross; eassumption.
  - unfold dPmat. set (d := 1 + Dot (n t) e) in *. clearbody d. destruct e as [ex ey ez], (n t) as [a b c], n' as [a' b' c'], w as [w1 w2 w3].
    red_all. apply mk3_eq; field; exact D.
Qed.

(* The unit vectors other than - e are given by their stereographic projections. *)
Lemma stereo1 n : Norm2 n = 1 -> 0 < 1 + cx n -> exists y z,
  n = mk3 ((1 - (y * y + z * z)) / (1 + (y * y + z * z))) (2 * y / (1 + (y * y + z * z))) (2 * z / (1 + (y * y + z * z))).
Proof.
  destruct n as [a b c]. cbn [cx]. intros N P. red_all. exists (b / (1 + a)), (c / (1 + a)).
  assert (K : b / (1 + a) * (b / (1 + a)) + c / (1 + a) * (c / (1 + a)) = (1 - a) / (1 + a)).
  { replace (b / (1 + a) * (b / (1 + a)) + c / (1 + a) * (c / (1 + a))) with ((b * b + c * c) / ((1 + a) * (1 + a))) by (field; lra).
    replace (b * b + c * c) with ((1 - a) * (1 + a)) by lra. field. lra. }
  rewrite K. apply mk3_eq; field; split; lra.
Qed.
Lemma stereo3 n : Norm2 n = 1 -> 0 < 1 + cz n -> exists y z,
  n = mk3 (2 * y / (1 + (y * y + z * z))) (2 * z / (1 + (y * y + z * z))) ((1 - (y * y + z * z)) / (1 + (y * y + z * z))).
Proof.
  destruct n as [a b c]. cbn [cz]. intros N P. red_all. exists (a / (1 + c)), (b / (1 + c)).
  assert (K : a / (1 + c) * (a / (1 + c)) + b / (1 + c) * (b / (1 + c)) = (1 - c) / (1 + c)).
  { replace (a / (1 + c) * (a / (1 + c)) + b / (1 + c) * (b / (1 + c))) with ((a * a + b * b) / ((1 + c) * (1 + c))) by (field; lra).
    replace (a * a + b * b) with ((1 - c) * (1 + c)) by lra. field. lra. }
  rewrite K. apply mk3_eq; field; split; lra.
Qed.

(* The rotation about e by ψ, if ψ has the right derivative, compensates the rotation of [Pmat] about e. *)
Definition psi_rate (e n om : R3) : R := (Dot n om + Dot om e) / (1 + Dot n e).
Lemma kinematics1 n om w : Norm2 n = 1 -> 0 < 1 + cx n ->
  add3 (scal3 (psi_rate axis1 n om) (Cross axis1 (Pmat axis1 n w))) (dPmat axis1 n (Cross n om) w) = Pmat axis1 n (Cross om w).
Proof.
  intros N P. destruct (stereo1 n N P) as (y & z & ->). clear. destruct om as [o1 o2 o3], w as [w1 w2 w3].
  assert (Q : 1 + (y * y + z * z) <> 0) by (pose proof (Rle_0_sqr y); pose proof (Rle_0_sqr z); unfold Rsqr in *; lra).
  unfold psi_rate, dPmat, Pmat, axis1.
  red_all. apply mk3_eq; field; (split; [|split || idtac]; try exact Q); nra.
Qed.
Lemma kinematics3 n om w : Norm2 n = 1 -> 0 < 1 + cz n ->
  add3 (scal3 (psi_rate axis3 n om) (Cross axis3 (Pmat axis3 n w))) (dPmat axis3 n (Cross n om) w) = Pmat axis3 n (Cross om w).
Proof.
  intros N P. destruct (stereo3 n N P) as (y & z & ->). clear. destruct om as [o1 o2 o3], w as [w1 w2 w3].
  assert (Q : 1 + (y * y + z * z) <> 0) by (pose proof (Rle_0_sqr y); pose proof (Rle_0_sqr z); unfold Rsqr in *; lra).
  unfold psi_rate, dPmat, Pmat, axis3.
  red_all. apply mk3_eq; field; (split; [|split || idtac]; try exact Q); nra.
Qed.
Lemma Pmat1_self n : Norm2 n = 1 -> 0 < 1 + cx n -> Pmat axis1 n n = axis1.
Proof.
  intros N P. destruct (stereo1 n N P) as (y & z & ->). clear.
  assert (Q : 1 + (y * y + z * z) <> 0) by (pose proof (Rle_0_sqr y); pose proof (Rle_0_sqr z); unfold Rsqr in *; lra).
  unfold Pmat, axis1. red_all. apply mk3_eq; field; (split; [|split || idtac]; try exact Q); nra.
Qed.
Lemma Pmat3_self n : Norm2 n = 1 -> 0 < 1 + cz n -> Pmat axis3 n n = axis3.
Proof.
  intros N P. destruct (stereo3 n N P) as (y & z & ->). clear.
  assert (Q : 1 + (y * y + z * z) <> 0) by (pose proof (Rle_0_sqr y); pose proof (Rle_0_sqr z); unfold Rsqr in *; lra).
  unfold Pmat, axis3. red_all. apply mk3_eq; field; (split; [|split || idtac]; try exact Q); nra.
Qed.
