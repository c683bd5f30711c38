(** Proofs for the reduction of angles. *)
From Coq Require Import ZArith Reals Lra Lia.
From Flocq Require Import Core.
From Verif Require Import AngleReduction_Model AngleReduction_Spec.
Open Scope R_scope.

Lemma round_near : forall x k, Rabs (x - IZR k) < 1 / 2 -> round_away x = k.
Proof.
  intros x k H. apply Rabs_def2 in H. unfold round_away. destruct (Rlt_dec x 0).
  - rewrite (Zfloor_imp (- k)); [lia |]. rewrite plus_IZR, opp_IZR. lra.
  - apply Zfloor_imp. rewrite plus_IZR. lra.
Qed.
Lemma integer_part : forall eps period x f k, 0 < period -> 2 * eps < period -> Rabs (x - (f + IZR k * period)) <= eps -> round_away ((x - f) / period) = k.
Proof.
  intros eps period x f k P E H. apply round_near. replace ((x - f) / period - IZR k) with ((x - (f + IZR k * period)) / period) by (field; lra).
  unfold Rdiv. rewrite Rabs_mult, (Rabs_pos_eq (/ period)) by (left; apply Rinv_0_lt_compat; exact P).
  apply (Rmult_lt_reg_r period); [exact P |]. rewrite Rmult_assoc, Rinv_l, Rmult_1_r by lra. lra.
Qed.

(** The exact value of the reduction, up to the error. *)
Lemma cases : forall eps theta r q, 0 <= eps < PI / 4 -> reduces eps theta r q ->
  (q = 0 \/ q = 1 \/ q = 2 \/ q = 3)%Z /\ - (PI / 2) < r < PI / 2 /\ exists k, Rabs (theta - (r + (IZR q + 4 * IZR k) * (PI / 2))) <= eps.
Proof.
  intros eps theta r q E (Q & B & K). split; [lia |]. split; [| exact K]. assert (A : Rabs r < PI / 2) by lra. apply Rabs_def2 in A. lra.
Qed.
Lemma parts_at : forall eps lower period theta f k e, lower <= f < lower + period -> Rabs e <= eps -> e = theta - (f + IZR k * period) -> parts eps lower period theta f k.
Proof. intros eps lower period theta f k e B K ->. split; assumption. Qed.
Ltac close K := refine (parts_at _ _ _ _ _ _ _ _ K _); [pose proof PI_RGT_0; lra | rewrite ?minus_IZR, ?plus_IZR, ?mult_IZR; lra].

Section Proofs.
  Variable Reduce : R -> R * Z.
  Lemma mpi_2_pi_2_ok : forall eps theta, 0 <= eps < PI / 4 -> reduces eps theta (fst (Reduce theta)) (snd (Reduce theta)) ->
    exists k, parts eps (- (PI / 2)) PI theta (ReduceAngle_mpi_2_pi_2 Reduce theta) k.
  Proof.
    intros eps theta E H. unfold ReduceAngle_mpi_2_pi_2. destruct (Reduce theta) as [r q]. cbn [fst snd] in H.
    destruct (cases eps theta r q E H) as ([-> | [-> | [-> | ->]]] & B & k & K); cbn [Z.eqb Pos.eqb orb].
    - exists (2 * k)%Z. close K.
    - destruct (Rlt_dec r 0); [exists (2 * k)%Z | exists (2 * k + 1)%Z]; close K.
    - exists (2 * k + 1)%Z. close K.
    - destruct (Rlt_dec r 0); [exists (2 * k + 1)%Z | exists (2 * k + 2)%Z]; close K.
  Qed.
  Lemma mpi_pi_ok : forall eps theta, 0 <= eps < PI / 4 -> reduces eps theta (fst (Reduce theta)) (snd (Reduce theta)) ->
    exists k, parts eps (- PI) (2 * PI) theta (ReduceAngle_mpi_pi Reduce theta) k.
  Proof.
    intros eps theta E H. unfold ReduceAngle_mpi_pi. destruct (Reduce theta) as [r q]. cbn [fst snd] in H.
    destruct (cases eps theta r q E H) as ([-> | [-> | [-> | ->]]] & B & k & K); cbn [Z.eqb Pos.eqb orb].
    - exists k. close K.
    - exists k. close K.
    - destruct (Rlt_dec r 0); [exists k | exists (k + 1)%Z]; close K.
    - exists (k + 1)%Z. close K.
  Qed.
  Lemma zero_2pi_ok : forall eps theta, 0 <= eps < PI / 4 -> reduces eps theta (fst (Reduce theta)) (snd (Reduce theta)) ->
    exists k, parts eps 0 (2 * PI) theta (ReduceAngle_0_2pi Reduce theta) k.
  Proof.
    intros eps theta E H. unfold ReduceAngle_0_2pi. destruct (Reduce theta) as [r q]. cbn [fst snd] in H. pose proof H as (_ & A & _).
    destruct (cases eps theta r q E H) as ([-> | [-> | [-> | ->]]] & B & k & K); cbn [Z.eqb Pos.eqb orb].
    - destruct (Rlt_dec r 0); [exists (k - 1)%Z | exists k]; close K.
    - exists k. close K.
    - exists k. close K.
    - exists k. close K.
  Qed.

  Lemma two_parts : forall eps lower period theta f, 0 <= eps < PI / 4 -> PI <= period -> (exists k, parts eps lower period theta f k) ->
    parts eps lower period theta f (round_away ((theta - f) / period)).
  Proof.
    intros eps lower period theta f E P [k [B K]]. pose proof PI_RGT_0. rewrite (integer_part eps period theta f k ltac:(lra) ltac:(lra) K). split; assumption.
  Qed.
  (** The parts are unique if there is no error. *)
  Lemma parts_unique : forall lower period theta f k f' k', 0 < period -> parts 0 lower period theta f k -> parts 0 lower period theta f' k' -> f = f' /\ k = k'.
  Proof.
    intros lower period theta f k f' k' P [B K] [B' K'].
    assert (Z0 : forall x, Rabs x <= 0 -> x = 0) by (intros x X; destruct (Req_dec x 0) as [| N]; [assumption | apply Rabs_pos_lt in N; lra]).
    apply Z0 in K. apply Z0 in K'. assert (D : (IZR k - IZR k') * period = f' - f) by lra.
    assert (k = k').
    { destruct (Z.lt_trichotomy k k') as [L | [L | L]]; [exfalso | exact L | exfalso].
      - assert (IZR k + 1 <= IZR k') by (rewrite <- (plus_IZR k 1); apply IZR_le; lia). assert ((IZR k' - IZR k - 1) * period >= 0) by (apply Rle_ge, Rmult_le_pos; lra). lra.
      - assert (IZR k' + 1 <= IZR k) by (rewrite <- (plus_IZR k' 1); apply IZR_le; lia). assert ((IZR k - IZR k' - 1) * period >= 0) by (apply Rle_ge, Rmult_le_pos; lra). lra. }
    subst k'. split; [lra | reflexivity].
  Qed.
End Proofs.
