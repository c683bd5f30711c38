(** C27: the fast Fourier transform, with real values and exact arithmetic. *)
From Coq Require Import List Reals Lra Lia.
From Verif Require Import Complexification_Model Complexification_Proofs FourierTransform_Model FourierTransform_Proofs.
Import ListNotations.
Open Scope R_scope.

(** For every size that is a power of 2 and an int, the coefficients are those of the discrete Fourier transform. *)
Theorem C27_transform k u : (k < 31)%nat -> length u = (2 ^ k)%nat ->
  exists t, FastFourierTransform k u = Some t /\ length t = (2 ^ k)%nat /\ forall s, (s < 2 ^ k)%nat -> nth s t (Real 0) = dft u s.
Proof. exact (fft_ok k u). Qed.
Print Assumptions C27_transform.

Theorem C27_wrong_size k u : length u <> (2 ^ k)%nat -> FastFourierTransform k u = None.
Proof. exact (fft_size k u). Qed.
Print Assumptions C27_wrong_size.

(** The sum of the powers is the size times the sum of the squares of the values. *)
Theorem C27_parseval k u t : (k < 31)%nat -> FastFourierTransform k u = Some t ->
  sum (2 ^ k) (fun s => Norm2 (nth s t (Real 0))) = 2 ^ k * sum (2 ^ k) (fun r => nth r u 0 * nth r u 0).
Proof. exact (parseval k u t). Qed.
Print Assumptions C27_parseval.

(** The second half of the spectrum mirrors the first, which is why Mode only looks at the first. *)
Theorem C27_symmetry u s : (s <= length u)%nat -> dft u (length u - s) = Conjugate (dft u s).
Proof. exact (dft_symmetry u s). Qed.
Print Assumptions C27_symmetry.

Theorem C27_frequency k dt s : dt <> 0 -> frequency k dt s = omega (2 ^ k) dt s.
Proof. exact (frequency_ok k dt s). Qed.
Print Assumptions C27_frequency.

(** With at least 4 values, if some frequency of the first half is between the bounds, the mode is the interval between the neighbours of one that has the largest power. *)
Theorem C27_mode_partial k dt t lo hi : (2 <= k)%nat -> 0 < dt -> length t = (2 ^ k)%nat -> lo <= hi ->
  (exists j, (j <= 2 ^ k / 2)%nat /\ lo <= omega (2 ^ k) dt j <= hi) ->
  exists a b, Mode k dt t lo hi = Some (a, b) /\ mode (2 ^ k) dt (fun j => Norm2 (nth j t (Real 0))) lo hi a b.
Proof. exact (mode_ok k dt t lo hi). Qed.
Print Assumptions C27_mode_partial.

Theorem C27_no_mode k dt t lo hi : 0 < dt -> length t = (2 ^ k)%nat -> (forall j, (j <= 2 ^ k / 2)%nat -> ~ (lo <= omega (2 ^ k) dt j <= hi)) -> Mode k dt t lo hi = None.
Proof. exact (mode_none k dt t lo hi). Qed.
Print Assumptions C27_no_mode.

(** With two values, Mode dereferences the end of the spectrum if the only frequency between the bounds is the second; with one value, always. *)
Theorem C27_mode_2_refuted dt t lo hi : 0 < dt -> length t = 2%nat -> 0 < lo -> lo <= PI / dt <= hi -> Mode 1 dt t lo hi = None.
Proof. exact (mode_short dt t lo hi). Qed.
Print Assumptions C27_mode_2_refuted.
Theorem C27_mode_1_refuted dt t lo hi : 0 < dt -> length t = 1%nat -> Mode 0 dt t lo hi = None.
Proof. exact (mode_single dt t lo hi). Qed.
Print Assumptions C27_mode_1_refuted.

(** The transform of 1, 2, 3, 5 is 11, -2 + 3i, -3, -2 - 3i, and its mode between 1 and 4 for a step of 1 is between the neighbours of the first frequency. *)
Example C27_example : FastFourierTransform 2 [1; 2; 3; 5] = Some [Complex 11 0; Complex (-2) 3; Complex (-3) 0; Complex (-2) (-3)].
Proof.
  transitivity (Some (Transform 2 [Real 1; Real 3; Real 2; Real 5])); [reflexivity|].
  cbn [Transform]. f_equal. f_equal; [|f_equal; [|f_equal; [|f_equal]]]; apply complex_eq; cbn; lra.
Qed.
Example C27_mode_example : exists a b, Mode 2 1 [Complex 11 0; Complex (-2) 3; Complex (-3) 0; Complex (-2) (-3)] 1 4 = Some (a, b) /\ a = 0 /\ b = PI.
Proof.
  pose proof PI_4. pose proof PI2_3_2. assert (3 < PI) by lra. assert (O : forall j, omega (2 ^ 2) 1 j = INR j * (PI / 2)).
  { intros j. unfold omega. rewrite pow2_INR. field. }
  destruct (C27_mode_partial 2 1 [Complex 11 0; Complex (-2) 3; Complex (-3) 0; Complex (-2) (-3)] 1 4) as (a & b & M & m & R & W & B & -> & ->); try lia; try lra; [reflexivity| |].
  { exists 1%nat. split; [cbn; lia|]. rewrite O. cbn [INR]. lra. }
  exists (omega (2 ^ 2) 1 (m - 1)), (omega (2 ^ 2) 1 (m + 1)). split; [exact M|].
  assert (m = 1)%nat as ->.
  { change (2 ^ 2 / 2)%nat with 2%nat in *. destruct m as [|[|[|m]]]; [|reflexivity| |lia].
    - rewrite O in W. cbn [INR] in W. lra.
    - specialize (B 1%nat ltac:(lia)). rewrite O in B. cbn [INR nth Norm2 real_part imaginary_part] in B. unfold Norm2 in B. cbn [real_part imaginary_part] in B. lra. }
  cbn [Nat.sub Nat.add]. rewrite !O. cbn [INR]. split; lra.
Qed.
