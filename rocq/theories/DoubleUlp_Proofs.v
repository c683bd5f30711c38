(** Proofs about ULPDistance. *)
From Coq Require Import ZArith Bool Reals Lra Lia Psatz.
From Flocq Require Import Core IEEE754.BinarySingleNaN IEEE754.Binary IEEE754.Bits.
From Verif Require Import Double_Model Double_Proofs DoubleOrder_Proofs DoubleScale_Proofs DoubleNext_Proofs.
Open Scope Z_scope.

Definition number (x : double) : Prop := is_nan 53 1024 x = false.
(** The rank of the infinities: the number of positive doubles. *)
Definition top : Z := 2047 * 2 ^ 52.
(** The rank of a number among the numbers, starting from 0 and counting downward for the negative ones. *)
Definition rank (x : double) : Z := if Bsign 53 1024 x then - (bits_of_b64 x - 2 ^ 63) else bits_of_b64 x.

Definition magnitude (x : double) : Z :=
  match x with
  | B754_zero _ => 0
  | B754_infinity _ => top
  | B754_nan _ _ _ => 0
  | B754_finite _ m e _ => Zpos m + (e + 1074) * 2 ^ 52
  end.
Lemma bounded_spec : forall m e, SpecFloat.bounded 53 1024 m e = true -> Zpos m < 2 ^ 53 /\ -1074 <= e <= 971 /\ (2 ^ 52 <= Zpos m \/ e = -1074).
Proof.
  intros m e H. destruct (bounded_exponent m e H) as [B1 B2].
  pose proof (Zdigits_correct radix2 (Zpos m)) as D. rewrite <- Digits.Zpos_digits2_pos in D. set (d := Zpos (Digits.digits2_pos m)) in *.
  change (Zpos (SpecFloat.digits2_pos m)) with d in B1. simpl Z.abs in D.
  assert (D53 : d <= 53) by lia. destruct D as [D1 D2]. change (Zpower radix2 (d - 1)) with (2 ^ (d - 1)) in D1. change (Zpower radix2 d) with (2 ^ d) in D2.
  split; [|split].
  - eapply Z.lt_le_trans; [exact D2|]. apply Z.pow_le_mono_r; lia.
  - lia.
  - destruct (Z.eq_dec d 53) as [E|E]; [left; rewrite E in D1; exact D1|right; lia].
Qed.
Lemma magnitude_range : forall x, number x -> 0 <= magnitude x <= top.
Proof.
  intros x N. unfold top. destruct x as [s|s|s p H|s m e H]; cbn [magnitude]; try (unfold top; lia).
  destruct (bounded_spec m e H) as [B1 [B2 B3]]. lia.
Qed.
Lemma bits_magnitude : forall x, number x -> bits_of_b64 x = (if Bsign 53 1024 x then 2 ^ 63 else 0) + magnitude x.
Proof.
  intros x N. destruct x as [s|s|s p H|s m e H]; try discriminate N.
  - destruct s; reflexivity.
  - destruct s; reflexivity.
  - unfold bits_of_b64, bits_of_binary_float, join_bits. cbn [Bsign magnitude].
    destruct (bounded_spec m e H) as [B1 [B2 B3]]. rewrite !Z.shiftl_mul_pow2 by lia. change (SpecFloat.emin (52 + 1) (2 ^ (11 - 1))) with (-1074).
    change (2 ^ 63) with (2 ^ 11 * 2 ^ 52). destruct (Zle_bool 0 (Zpos m - 2 ^ 52)) eqn:L.
    + destruct s; lia.
    + apply Z.leb_gt in L. assert (e = -1074) by lia. subst e. destruct s; lia.
Qed.
Lemma rank_magnitude : forall x, number x -> rank x = if Bsign 53 1024 x then - magnitude x else magnitude x.
Proof. intros x N. unfold rank. rewrite bits_magnitude by exact N. destruct (Bsign 53 1024 x); lia. Qed.
Lemma bits_model : forall x, number x -> bits x = (if Bsign 53 1024 x then - 2 ^ 63 else 0) + magnitude x.
Proof.
  intros x N. unfold bits. rewrite bits_magnitude by exact N. pose proof (magnitude_range x N) as R. unfold top in R. cbv zeta.
  destruct (Bsign 53 1024 x).
  - rewrite (proj2 (Z.leb_le _ _)) by lia. lia.
  - rewrite (proj2 (Z.leb_gt _ _)) by lia. lia.
Qed.
(** The rank is increasing. *)
Lemma compare_finite_magnitude : forall m1 e1 m2 e2, SpecFloat.bounded 53 1024 m1 e1 = true -> SpecFloat.bounded 53 1024 m2 e2 = true ->
  (Zpos m1 + (e1 + 1074) * 2 ^ 52 ?= Zpos m2 + (e2 + 1074) * 2 ^ 52) = match e1 ?= e2 with Lt => Lt | Gt => Gt | Eq => Pos.compare_cont Eq m1 m2 end.
Proof.
  intros m1 e1 m2 e2 H1 H2. destruct (bounded_spec _ _ H1) as [A1 [A2 A3]]. destruct (bounded_spec _ _ H2) as [B1 [B2 B3]].
  destruct (Z.compare_spec e1 e2) as [E|E|E].
  - subst e2. change (Pos.compare_cont Eq m1 m2) with (Zpos m1 ?= Zpos m2). destruct (Z.compare_spec (Zpos m1) (Zpos m2)); [apply Z.compare_eq_iff|apply Z.compare_lt_iff|apply Z.compare_gt_iff]; lia.
  - apply Z.compare_lt_iff. lia.
  - apply Z.compare_gt_iff. lia.
Qed.
Theorem compare_rank : forall x y, number x -> number y -> b64_compare x y = Some (rank x ?= rank y).
Proof.
  intros x y Nx Ny. rewrite !rank_magnitude by assumption.
  pose proof (magnitude_range x Nx) as Rx. pose proof (magnitude_range y Ny) as Ry. unfold top in *.
  destruct x as [sx|sx|sx px Hx|sx mx ex Hx]; try discriminate Nx; destruct y as [sy|sy|sy py Hy|sy my ey Hy]; try discriminate Ny;
    unfold b64_compare, Bcompare, BinarySingleNaN.Bcompare; cbn [Bsign]; cbn [B2BSN BinarySingleNaN.B2SF SpecFloat.SFcompare];
    cbn [magnitude] in *; try pose proof (bounded_spec _ _ Hx) as Bx; try pose proof (bounded_spec _ _ Hy) as By;
    clear Nx Ny; destruct sx; destruct sy; try reflexivity;
    try (f_equal; symmetry; first [apply Z.compare_lt_iff; unfold top; lia | apply Z.compare_gt_iff; unfold top; lia | apply Z.compare_eq_iff; unfold top; lia]).
  - f_equal. rewrite Z.compare_opp. rewrite (Z.compare_antisym (Z.pos mx + (ex + 1074) * 2 ^ 52)). rewrite compare_finite_magnitude by assumption.
    destruct (ex ?= ey); reflexivity.
  - f_equal. rewrite compare_finite_magnitude by assumption. destruct (ex ?= ey); reflexivity.
Qed.
Lemma eq_rank : forall x y, number x -> number y -> eq x y = true <-> rank x = rank y.
Proof. intros x y Nx Ny. unfold eq. rewrite compare_rank by assumption. destruct (Z.compare_spec (rank x) (rank y)); split; intros; try discriminate; try lia; reflexivity. Qed.
Lemma lt_rank : forall x y, number x -> number y -> lt x y = true <-> rank x < rank y.
Proof. intros x y Nx Ny. unfold lt. rewrite compare_rank by assumption. destruct (Z.compare_spec (rank x) (rank y)); split; intros; try discriminate; try lia; reflexivity. Qed.
Lemma rank_range : forall x, number x -> - top <= rank x <= top.
Proof. intros x N. rewrite rank_magnitude by exact N. pose proof (magnitude_range x N). destruct (Bsign 53 1024 x); lia. Qed.
(** Every rank is that of a number. *)
Lemma rank_onto_pos : forall n, 0 <= n <= top -> exists x, number x /\ rank x = n /\ bits_of_b64 x = n.
Proof.
  intros n H. exists (b64_of_bits n). assert (B : bits_of_b64 (b64_of_bits n) = n). { apply bits_of_binary_float_of_bits. unfold top in H. simpl Z.add. lia. }
  assert (N : number (b64_of_bits n)).
  { unfold number. destruct (b64_of_bits n) as [s|s|s p Hp|s m e Hb]; try reflexivity. exfalso. unfold bits_of_b64, bits_of_binary_float, join_bits in B.
    rewrite Z.shiftl_mul_pow2 in B by lia. unfold top in H. destruct s; lia. }
  split; [exact N|]. split; [|exact B]. pose proof (bits_magnitude _ N) as M. rewrite B in M. pose proof (magnitude_range _ N) as R. unfold top in *.
  rewrite rank_magnitude by exact N. destruct (Bsign 53 1024 (b64_of_bits n)); lia.
Qed.
Lemma number_opp : forall x, number x -> number (opp x) /\ rank (opp x) = - rank x.
Proof.
  intros x N. assert (NO : number (opp x)) by (destruct x; try discriminate N; reflexivity). split; [exact NO|].
  rewrite !rank_magnitude by assumption. destruct x as [s|s|s p H|s m e H]; try discriminate N; destruct s; cbn [opp b64_opp Bopp Bsign negb magnitude]; lia.
Qed.
Theorem rank_onto : forall n, - top <= n <= top -> exists x, number x /\ rank x = n.
Proof.
  intros n H. destruct (Z_le_gt_dec 0 n) as [L|L].
  - destruct (rank_onto_pos n) as [x [N [R _]]]; [lia|]. exists x. split; assumption.
  - destruct (rank_onto_pos (- n)) as [x [N [R _]]]; [lia|]. exists (opp x). destruct (number_opp x N) as [N' R']. split; [exact N'|]. lia.
Qed.
Theorem ulp_distance_rank : forall x y, number x -> number y -> ULPDistance x y = Z.min (2 ^ 63 - 1) (Z.abs (rank x - rank y)).
Proof.
  intros x y Nx Ny. unfold ULPDistance, int64_max. destruct (eq x y) eqn:E.
  { apply eq_rank in E; [|assumption|assumption]. rewrite E, Z.sub_diag. reflexivity. }
  pose proof (magnitude_range x Nx) as Mx. pose proof (magnitude_range y Ny) as My. unfold top in *.
  pose proof (bits_model x Nx) as Bx. pose proof (bits_model y Ny) as By. pose proof (rank_magnitude x Nx) as Rx. pose proof (rank_magnitude y Ny) as Ry.
  assert (D0 : forall z, number z -> Bsign 53 1024 z = false -> ULPDistance_same_sign z zero = magnitude z).
  { intros z N S. unfold ULPDistance_same_sign. destruct (eq z zero) eqn:Q.
    - apply eq_rank in Q; [|exact N|reflexivity]. change (rank zero) with 0 in Q. rewrite rank_magnitude, S in Q by exact N. lia.
    - rewrite (bits_model z N), S. change (bits zero) with 0. pose proof (magnitude_range z N). lia. }
  assert (D1 : forall z, number z -> Bsign 53 1024 z = true -> ULPDistance_same_sign z minus_zero = magnitude z).
  { intros z N S. unfold ULPDistance_same_sign. destruct (eq z minus_zero) eqn:Q.
    - apply eq_rank in Q; [|exact N|reflexivity]. change (rank minus_zero) with 0 in Q. rewrite rank_magnitude, S in Q by exact N. lia.
    - rewrite (bits_model z N), S. change (bits minus_zero) with (- 2 ^ 63). pose proof (magnitude_range z N). lia. }
  destruct (Bsign 53 1024 x) eqn:Sx, (Bsign 53 1024 y) eqn:Sy; cbn [Bool.eqb negb]; cbv zeta.
  - rewrite Bx, By, Rx, Ry. lia.
  - rewrite (D0 y Ny Sy), (D1 x Nx Sx). destruct (Z.ltb_spec (2 ^ 63 - 1 - magnitude x) (magnitude y)); lia.
  - rewrite (D0 x Nx Sx), (D1 y Ny Sy). destruct (Z.ltb_spec (2 ^ 63 - 1 - magnitude y) (magnitude x)); lia.
  - rewrite Bx, By, Rx, Ry. lia.
Qed.
Theorem ulp_distance_metric : forall x y z, number x -> number y -> number z ->
  (ULPDistance x y = 0 <-> eq x y = true) /\ ULPDistance x y = ULPDistance y x /\ ULPDistance x z <= ULPDistance x y + ULPDistance y z.
Proof.
  intros x y z Nx Ny Nz. rewrite !ulp_distance_rank by assumption. rewrite eq_rank by assumption. repeat split; lia.
Qed.
Lemma finite_number : forall x, fin x -> number x.
Proof. intros x F. destruct x; try reflexivity; discriminate F. Qed.
Lemma rank_real : forall x y, fin x -> fin y -> (rank x < rank y <-> (real x < real y)%R).
Proof. intros x y Fx Fy. rewrite <- lt_rank by (apply finite_number; assumption). apply lt_fin; assumption. Qed.
Lemma finite_rank : forall x, number x -> (fin x <-> - top < rank x < top).
Proof.
  intros x N. rewrite rank_magnitude by exact N. destruct x as [s|s|s p H|s m e H]; try discriminate N; cbn [Bsign magnitude]; unfold fin, finite; simpl is_finite; unfold top.
  - split; intros; [destruct s; lia|reflexivity].
  - split; intros; [discriminate|destruct s; lia].
  - destruct (bounded_spec m e H) as [B1 [B2 B3]]. split; intros; [destruct s; lia|reflexivity].
Qed.
(** The function NextUp moves to the number of the next rank, up to infinity. *)
Theorem next_up_rank : forall x, fin x -> number (NextUp x) /\ rank (NextUp x) = rank x + 1.
Proof.
  intros x F. pose proof (finite_number x F) as N. pose proof (proj1 (finite_rank x N) F) as R.
  destruct (rank_onto (rank x + 1)) as [z [Nz Rz]]; [lia|].
  destruct (Z.eq_dec (rank x + 1) top) as [T|T].
  - (* the largest one *)
    assert (X : x = b64_of_bits (top - 1)).
    { rewrite <- (binary_float_of_bits_of_binary_float 52 11 eq_refl eq_refl eq_refl x). change (bits_of_binary_float 52 11 x) with (bits_of_b64 x). unfold b64_of_bits. apply f_equal.
      pose proof (rank_magnitude x N) as M. pose proof (bits_magnitude x N) as B. pose proof (magnitude_range x N). unfold top in *. destruct (Bsign 53 1024 x); lia. }
    subst x. assert (NI : NextUp (b64_of_bits (top - 1)) = infinity) by (vm_compute; reflexivity). rewrite NI, T. split; reflexivity.
  - assert (Fz : fin z) by (apply finite_rank; [exact Nz|lia]).
    assert (L : (real x < real z)%R) by (apply rank_real; [exact F|exact Fz|lia]).
    destruct (next_up_least x z F Fz L) as [FN [L1 L2]]. split; [apply finite_number, FN|].
    apply (rank_real x _ F FN) in L1. assert (~ rank z < rank (NextUp x)). { intros Q. apply (rank_real z _ Fz FN) in Q. lra. } lia.
Qed.
Theorem ulp_distance_steps : forall n x, (forall k, (k < n)%nat -> fin (Nat.iter k NextUp x)) -> number x ->
  ULPDistance x (Nat.iter n NextUp x) = Z.min (2 ^ 63 - 1) (Z.of_nat n).
Proof.
  intros n x H Nx. assert (G : number (Nat.iter n NextUp x) /\ rank (Nat.iter n NextUp x) = rank x + Z.of_nat n).
  { clear -H Nx. revert H. induction n as [|n IH]; intros H.
    - split; [exact Nx|]. simpl. lia.
    - destruct IH as [I1 I2]; [intros k K; apply H; lia|]. assert (F : fin (Nat.iter n NextUp x)) by (apply H; lia).
      change (Nat.iter (S n) NextUp x) with (NextUp (Nat.iter n NextUp x)). destruct (next_up_rank _ F) as [R1 R2]. split; [exact R1|]. rewrite R2, I2. lia. }
  destruct G as [G1 G2]. rewrite ulp_distance_rank by assumption. rewrite G2. lia.
Qed.
