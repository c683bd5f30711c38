(** C93: the reduction of angles. *)
From Coq Require Import ZArith Bool Reals Lra Lia.
From Verif Require Import AngleReduction_Model AngleReduction_Spec AngleReduction_Proofs.
Open Scope R_scope.

(** If Reduce has an error less than π/4, the fractional part is in the interval, which excludes its upper bound, and the integer part is the right one: the
    error of their sum is that of Reduce. *)
Theorem C93_mpi_2_pi_2 : forall Reduce eps theta, 0 <= eps < PI / 4 -> reduces eps theta (fst (Reduce theta)) (snd (Reduce theta)) ->
  let (f, k) := ReduceAngle2_mpi_2_pi_2 Reduce theta in f = ReduceAngle_mpi_2_pi_2 Reduce theta /\ parts eps (- (PI / 2)) PI theta f k.
Proof.
  exact (fun Reduce eps theta E H => conj eq_refl (two_parts eps _ _ theta _ E (Rle_refl PI) (mpi_2_pi_2_ok Reduce eps theta E H))).
Qed.
Print Assumptions C93_mpi_2_pi_2.
Theorem C93_mpi_pi : forall Reduce eps theta, 0 <= eps < PI / 4 -> reduces eps theta (fst (Reduce theta)) (snd (Reduce theta)) ->
  let (f, k) := ReduceAngle2_mpi_pi Reduce theta in f = ReduceAngle_mpi_pi Reduce theta /\ parts eps (- PI) (2 * PI) theta f k.
Proof.
  intros Reduce eps theta E H. split; [reflexivity |]. apply (two_parts eps _ _ theta _ E); [pose proof PI_RGT_0; lra | exact (mpi_pi_ok Reduce eps theta E H)].
Qed.
Print Assumptions C93_mpi_pi.
Theorem C93_0_2pi : forall Reduce eps theta, 0 <= eps < PI / 4 -> reduces eps theta (fst (Reduce theta)) (snd (Reduce theta)) ->
  let (f, k) := ReduceAngle2_0_2pi Reduce theta in f = ReduceAngle_0_2pi Reduce theta /\ parts eps 0 (2 * PI) theta f k.
Proof.
  intros Reduce eps theta E H. split; [reflexivity |]. apply (two_parts eps _ _ theta _ E); [pose proof PI_RGT_0; lra | exact (zero_2pi_ok Reduce eps theta E H)].
Qed.
Print Assumptions C93_0_2pi.
(** Without errors the parts are determined by the angle. *)
Theorem C93_unique : forall lower period theta f k f' k', 0 < period -> parts 0 lower period theta f k -> parts 0 lower period theta f' k' -> f = f' /\ k = k'.
Proof. exact parts_unique. Qed.
Print Assumptions C93_unique.
(** A small negative angle is reduced to almost 2 π: the error of Reduce may have this effect on a small positive one. *)
Theorem C93_wraps : forall Reduce, (forall x, -1 / 2 <= x <= 1 / 2 -> Reduce x = (x, 0%Z)) -> forall x, 0 < x <= 1 / 2 -> ReduceAngle_0_2pi Reduce (- x) - ReduceAngle_0_2pi Reduce x = 2 * PI - 2 * x.
Proof.
  intros Reduce H x X. unfold ReduceAngle_0_2pi. rewrite !H by lra. cbn [Z.eqb]. destruct (Rlt_dec (- x) 0); [| lra]. destruct (Rlt_dec x 0); [lra |]. lra.
Qed.
Print Assumptions C93_wraps.

(** 5 π / 4 + 1 / 10 + 20 π is in the third quadrant, with an error of 1 / 100. *)
Example C93_example : let theta := 5 * PI / 4 + 1 / 10 + 20 * PI in let Reduce := fun _ : R => (- (PI / 4) + 9 / 100, 3%Z) in
  reduces (1 / 100) theta (fst (Reduce theta)) (snd (Reduce theta)) /\
  ReduceAngle2_0_2pi Reduce theta = (5 * PI / 4 + 9 / 100, 10%Z) /\ ReduceAngle2_mpi_pi Reduce theta = (- (3 * PI / 4) + 9 / 100, 11%Z) /\
  ReduceAngle2_mpi_2_pi_2 Reduce theta = (PI / 4 + 9 / 100, 21%Z).
Proof.
  cbv zeta. pose proof PI_RGT_0. pose proof PI2_1.
  assert (A : Rabs (1 / 100) <= 1 / 100) by (rewrite Rabs_pos_eq; lra).
  split; [| split; [| split]].
  - cbn [fst snd]. split; [lia |]. split; [apply Rabs_le; lra |]. exists 10%Z. match goal with |- Rabs ?a <= _ => replace a with (1 / 100) by lra end. exact A.
  - unfold ReduceAngle2_0_2pi, ReduceAngle_0_2pi. cbn [Z.eqb Pos.eqb]. f_equal; [lra |]. apply (integer_part (1 / 100)); [lra | lra |].
    match goal with |- Rabs ?a <= _ => replace a with (1 / 100) by lra end. exact A.
  - unfold ReduceAngle2_mpi_pi, ReduceAngle_mpi_pi. cbn [Z.eqb Pos.eqb]. f_equal; [lra |]. apply (integer_part (1 / 100)); [lra | lra |].
    match goal with |- Rabs ?a <= _ => replace a with (1 / 100) by lra end. exact A.
  - unfold ReduceAngle2_mpi_2_pi_2, ReduceAngle_mpi_2_pi_2. cbn [Z.eqb Pos.eqb orb]. destruct (Rlt_dec _ 0); [| lra]. f_equal; [lra |]. apply (integer_part (1 / 100)); [lra | lra |].
    match goal with |- Rabs ?a <= _ => replace a with (1 / 100) by lra end. exact A.
Qed.
