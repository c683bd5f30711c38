(** Proofs about the zero finders. *)
From Coq Require Import ZArith Bool Reals Lra Lia.
From Flocq Require Import Core IEEE754.BinarySingleNaN IEEE754.Binary IEEE754.Bits Plus_error Mult_error Sterbenz.
From Verif Require Import Double_Model Double_Proofs DoubleOrder_Proofs DoubleScale_Proofs DoubleNext_Proofs DoubleUlp_Proofs RootFinders_Model.
Open Scope R_scope.

(** ** Specification *)
(** No double is strictly between. *)
Definition adjacent (a b : double) : Prop :=
  real a <> real b /\ forall c, fin c -> ~ (real a < real c < real b) /\ ~ (real b < real c < real a).
Definition within (l u x : double) : Prop := fin x /\ Rmin (real l) (real u) <= real x <= Rmax (real l) (real u).
Definition sign_change (f : double -> double) (a b : double) : Prop := Bsign 53 1024 (f a) <> Bsign 53 1024 (f b).

(** ** The middle *)
Lemma rounded_double x : pow2 (-1022) <= Rabs x -> rounded (2 * x) = 2 * rounded x.
Proof.
  intros H. assert (N : x <> 0) by (intros ->; rewrite Rabs_R0 in H; pose proof (bpow_gt_0 radix2 (-1022)); lra).
  assert (M : (mag radix2 x >= -1021)%Z) by (apply Z.le_ge; pose proof (mag_ge_bpow radix2 x (-1021)); apply H0; exact H).
  assert (E : 2 * x = x * pow2 1) by (change (pow2 1) with 2; ring). rewrite E. unfold rounded, round, F2R, scaled_mantissa, cexp. rewrite mag_mult_bpow by exact N. cbn [Fnum Fexp].
  replace (FLT_exp (-1074) 53 (mag radix2 x + 1)) with (FLT_exp (-1074) 53 (mag radix2 x) + 1)%Z by (unfold FLT_exp; lia).
  set (e := FLT_exp (-1074) 53 (mag radix2 x)). rewrite Rmult_assoc, <- bpow_plus. replace (1 + - (e + 1))%Z with (- e)%Z by lia. rewrite bpow_plus. change (pow2 1) with 2. ring.
Qed.
Lemma rounded_half s : (Rabs s <= pow2 (-1021) -> representable s) -> rounded (rounded s / 2) = rounded (s / 2).
Proof.
  intros H. destruct (Rle_lt_dec (Rabs s) (pow2 (-1021))) as [L|L]; [rewrite (rounded_id s) by exact (H L); reflexivity|].
  assert (P : pow2 (-1021) = 2 * pow2 (-1022)) by (change 2 with (pow2 1); rewrite <- bpow_plus; reflexivity).
  assert (A : pow2 (-1022) <= Rabs (s / 2)) by (unfold Rdiv; rewrite Rabs_mult, (Rabs_pos_eq (/ 2)) by lra; lra).
  replace (rounded s) with (2 * rounded (s / 2)) by (rewrite <- rounded_double by exact A; f_equal; field).
  replace (2 * rounded (s / 2) / 2) with (rounded (s / 2)) by field. apply rounded_id, representable_rounded.
Qed.
Lemma representable_double x : representable x -> representable (2 * x).
Proof.
  intros H. replace (2 * x) with (x * pow2 1) by (change (pow2 1) with 2; ring). destruct (Req_dec x 0) as [->|N]; [rewrite Rmult_0_l; apply generic_format_0|].
  apply mult_bpow_pos_exact_FLT; [exact H|lia].
Qed.
Definition small (x : double) : Prop := fin x /\ Rabs (real x) < pow2 1023.
Lemma middle_ok l u : small l -> small u -> fin (Barycentre l u) /\ real (Barycentre l u) = rounded ((real l + real u) / 2).
Proof.
  intros [FL BL] [FU BU]. assert (PB : pow2 1024 = 2 * pow2 1023) by (change 2 with (pow2 1); rewrite <- bpow_plus; reflexivity).
  destruct (add_exact zero l (real l)) as [F0 E0]; [reflexivity|exact FL|change (real zero) with 0; ring|apply representable_real|apply real_bound|].
  assert (S : Rabs (rounded (real l + real u)) < pow2 1024).
  { pose proof (Rabs_triang (real l) (real u)) as T. destruct (Rle_lt_dec (Rabs (real l)) (Rabs (real u))) as [C|C].
    - apply Rle_lt_trans with (2 * Rabs (real u)); [|lra]. apply rounded_abs_le; [apply representable_double, generic_format_abs, representable_real|lra].
    - apply Rle_lt_trans with (2 * Rabs (real l)); [|lra]. apply rounded_abs_le; [apply representable_double, generic_format_abs, representable_real|lra]. }
  assert (A : fin (add (add zero l) u) /\ real (add (add zero l) u) = rounded (real l + real u)).
  { generalize (Bplus_correct 53 1024 (refl_equal _) (refl_equal _) binop_nan_pl64 mode_NE (add zero l) u F0 FU).
    change (round radix2 (SpecFloat.fexp 53 1024) (round_mode mode_NE) (B2R 53 1024 (add zero l) + B2R 53 1024 u)) with (rounded (real (add zero l) + real u)).
    rewrite E0, Rlt_bool_true by exact S. intros [R [G _]]. split; [exact G|exact R]. }
  destruct A as [FA EA]. destruct (real_of_small 2) as [_ R2]; [cbv; discriminate|].
  assert (H : rounded (rounded (real l + real u) / 2) = rounded ((real l + real u) / 2)).
  { apply rounded_half. intros B. apply (FLT_format_plus_small radix2 (-1074) 53); [apply representable_real|apply representable_real|exact B]. }
  destruct (div_ok (add (add zero l) u) (of_Z 2) FA) as [FD [ED _]].
  - rewrite R2. lra.
  - rewrite EA, R2, H. apply Rle_lt_trans with (pow2 1023); [|apply bpow_lt; reflexivity]. apply rounded_abs_le; [apply representable_pow2; lia|].
    unfold Rdiv. rewrite Rabs_mult, (Rabs_pos_eq (/ 2)) by lra. pose proof (Rabs_triang (real l) (real u)). lra.
  - rewrite EA, R2, H in ED. split; [exact FD|exact ED].
Qed.
Lemma nearest m c : representable c -> Rabs (rounded m - m) <= Rabs (c - m).
Proof.
  intros F. pose proof (round_N_pt radix2 (FLT_exp (-1074) 53) (fun x => negb (Z.even x)) m) as [_ H]. exact (H c F).
Qed.
Lemma between_or_adjacent x y c : representable c -> x < c < y -> x < rounded ((x + y) / 2) < y.
Proof.
  intros F [L R]. pose proof (nearest ((x + y) / 2) c F) as H. set (m := rounded ((x + y) / 2)) in *.
  split_Rabs; lra.
Qed.
Lemma middle_within x y : representable x -> representable y -> x <= y -> x <= rounded ((x + y) / 2) <= y.
Proof.
  intros X Y L. rewrite <- (rounded_id x X) at 1. rewrite <- (rounded_id y Y) at 3. split; apply rounded_le; lra.
Qed.

(** ** Bisection *)
Lemma half_sum_comm x y : (x + y) / 2 = (y + x) / 2. Proof. field. Qed.
Lemma middle_cases l u : small l -> small u -> real l <> real u ->
  let m := Barycentre l u in small m /\ within l u m /\
  ((eq m l || eq m u = true /\ adjacent l u /\ (real m = real l \/ real m = real u)) \/
   (eq m l || eq m u = false /\ real m <> real l /\ real m <> real u /\ Rmin (real l) (real u) < real m < Rmax (real l) (real u))).
Proof.
  intros SL SU N m. pose proof SL as [FL BL]. pose proof SU as [FU BU]. destruct (middle_ok l u SL SU) as [FM EM]. fold m in FM, EM.
  assert (W : within l u m).
  { split; [exact FM|]. rewrite EM. destruct (Rle_lt_dec (real l) (real u)) as [C|C].
    - rewrite Rmin_left, Rmax_right by exact C. apply middle_within; [apply representable_real|apply representable_real|exact C].
    - rewrite Rmin_right, Rmax_left by lra. rewrite half_sum_comm. apply middle_within; [apply representable_real|apply representable_real|lra]. }
  assert (SM : small m).
  { split; [exact FM|]. destruct W as [_ W]. revert W BL BU. unfold Rmin, Rmax. destruct (Rle_dec (real l) (real u)); intros; split_Rabs; lra. }
  split; [exact SM|]. split; [exact W|]. rewrite (eq_bool_fin m l FM FL), (eq_bool_fin m u FM FU).
  destruct (Req_dec (real m) (real l)) as [E1|E1]; [|destruct (Req_dec (real m) (real u)) as [E2|E2]].
  1, 2: left; split; [try rewrite (Req_bool_true (real m) (real l)) by assumption; try rewrite (Req_bool_true (real m) (real u)) by assumption; rewrite ?orb_true_r; reflexivity|].
  1, 2: split; [|tauto]; split; [exact N|]; intros c Fc; rewrite EM in *; split; intros O.
  1, 3: pose proof (between_or_adjacent (real l) (real u) (real c) (representable_real c) O); lra.
  1, 2: pose proof (between_or_adjacent (real u) (real l) (real c) (representable_real c) O) as H; rewrite half_sum_comm in H; lra.
  right. rewrite !Req_bool_false by assumption. split; [reflexivity|]. split; [exact E1|]. split; [exact E2|]. destruct W as [_ W]. revert W. unfold Rmin, Rmax. destruct (Rle_dec (real l) (real u)); intros; lra.
Qed.
Lemma within_trans l u l' u' x : within l u l' -> within l u u' -> within l' u' x -> within l u x.
Proof.
  intros [_ A] [_ B] [F C]. split; [exact F|]. revert A B C. unfold Rmin, Rmax. destruct (Rle_dec (real l) (real u)), (Rle_dec (real l') (real u')); lra.
Qed.
Definition found (f : double -> double) (l u m : double) : Prop :=
  within l u m /\ (eq (f m) zero = true \/ exists a b, within l u a /\ within l u b /\ adjacent a b /\ sign_change f a b /\ (real m = real a \/ real m = real b)).
Lemma loop_found f f_upper n : forall l u, small l -> small u -> real l <> real u -> (Z.to_nat (Z.abs (rank u - rank l)) <= n)%nat ->
  Sign (f u) = Sign f_upper -> Sign (f l) <> Sign f_upper ->
  exists m, bisect_loop n f f_upper l u = Returned m /\ found f l u m.
Proof.
  induction n as [|n IH]; intros l u SL SU N B SFU SFL.
  - exfalso. pose proof (proj2 (eq_fin l u (proj1 SL) (proj1 SU))) as H. pose proof (proj1 (eq_rank l u (finite_number l (proj1 SL)) (finite_number u (proj1 SU)))) as K.
    apply N. apply (eq_fin l u (proj1 SL) (proj1 SU)). apply (eq_rank l u (finite_number l (proj1 SL)) (finite_number u (proj1 SU))). lia.
  - cbn [bisect_loop]. cbv zeta. destruct (middle_cases l u SL SU N) as (SM & W & [(E & A & C)|(E & E1 & E2 & C)]); rewrite E.
    + exists (Barycentre l u). split; [reflexivity|]. split; [exact W|]. right. exists l, u.
      split; [split; [exact (proj1 SL)|split; [apply Rmin_l|apply Rmax_l]]|]. split; [split; [exact (proj1 SU)|split; [apply Rmin_r|apply Rmax_r]]|].
      split; [exact A|]. split; [|exact C]. unfold sign_change. change (Sign (f l) <> Sign (f u)). congruence.
    + set (m := Barycentre l u) in *. destruct (eq (f m) zero) eqn:Z; [exists m; split; [reflexivity|split; [exact W|left; exact Z]]|].
      assert (WL : within l u l) by (split; [exact (proj1 SL)|split; [apply Rmin_l|apply Rmax_l]]).
      assert (WU : within l u u) by (split; [exact (proj1 SU)|split; [apply Rmin_r|apply Rmax_r]]).
      pose proof (rank_real l m (proj1 SL) (proj1 SM)) as R1. pose proof (rank_real m l (proj1 SM) (proj1 SL)) as R2.
      pose proof (rank_real u m (proj1 SU) (proj1 SM)) as R3. pose proof (rank_real m u (proj1 SM) (proj1 SU)) as R4.
      assert (RK : (rank l < rank m < rank u \/ rank u < rank m < rank l)%Z).
      { revert C. unfold Rmin, Rmax. destruct (Rle_dec (real l) (real u)); intros C; [left|right]; split; tauto. }
      destruct (Bool.eqb (Sign (f m)) (Sign f_upper)) eqn:EB.
      * apply eqb_prop in EB. destruct (IH l m SL SM ltac:(congruence) ltac:(lia) EB SFL) as (r & R & FW & FR). exists r. split; [exact R|].
        split; [exact (within_trans l u l m r WL W FW)|]. destruct FR as [FR|(a & b & Wa & Wb & FR)]; [left; exact FR|right; exists a, b].
        split; [exact (within_trans l u l m a WL W Wa)|]. split; [exact (within_trans l u l m b WL W Wb)|exact FR].
      * apply eqb_false_iff in EB. destruct (IH m u SM SU ltac:(congruence) ltac:(lia) SFU EB) as (r & R & FW & FR). exists r. split; [exact R|].
        split; [exact (within_trans l u m u r W WU FW)|]. destruct FR as [FR|(a & b & Wa & Wb & FR)]; [left; exact FR|right; exists a, b].
        split; [exact (within_trans l u m u a W WU Wa)|]. split; [exact (within_trans l u m u b W WU Wb)|exact FR].
Qed.
Theorem bisect_found f l u : fin l -> fin u -> Rabs (real l) < pow2 1023 -> Rabs (real u) < pow2 1023 -> real l <> real u -> sign_change f l u ->
  exists n m, Bisect n f l u = Returned m /\ found f l u m.
Proof.
  intros FL FU BL BU N S.
  assert (WL : within l u l) by (split; [exact FL|split; [apply Rmin_l|apply Rmax_l]]).
  assert (WU : within l u u) by (split; [exact FU|split; [apply Rmin_r|apply Rmax_r]]).
  unfold Bisect. destruct (eq (f u) zero) eqn:ZU; [exists O, u; split; [reflexivity|split; [exact WU|left; exact ZU]]|].
  destruct (eq (f l) zero) eqn:ZL; [exists O, l; split; [reflexivity|split; [exact WL|left; exact ZL]]|].
  change (Sign (f l) <> Sign (f u)) in S. destruct (Bool.eqb (Sign (f l)) (Sign (f u))) eqn:E; [apply eqb_prop in E; contradiction|]. cbn [negb].
  destruct (loop_found f (f u) (Z.to_nat (Z.abs (rank u - rank l))) l u (conj FL BL) (conj FU BU) N (le_n _) eq_refl S) as (m & R & F). eexists _, m. split; [exact R|exact F].
Qed.
Theorem bisect_checks n f l u : 
  Bisect n f l u = CheckFailed <-> eq (f l) zero = false /\ eq (f u) zero = false /\ ~ sign_change f l u.
Proof.
  assert (L : forall n l u v, bisect_loop n f v l u <> CheckFailed).
  { clear. induction n as [|n IH]; intros l u v; [discriminate|]. cbn [bisect_loop]. cbv zeta. destruct (_ || _); [discriminate|]. destruct (eq _ _); [discriminate|]. destruct (Bool.eqb _ _); apply IH. }
  unfold Bisect, sign_change. destruct (eq (f u) zero), (eq (f l) zero); try (split; [discriminate|intros (A & B & _); discriminate]).
  destruct (Bool.eqb (Sign (f l)) (Sign (f u))) eqn:E; cbn [negb].
  - apply eqb_prop in E. split; [intros _; split; [reflexivity|split; [reflexivity|intros H; apply H; exact E]]|reflexivity].
  - apply eqb_false_iff in E. split; [intros H; contradiction (L _ _ _ _ H)|intros (_ & _ & H); contradiction (H E)].
Qed.
Lemma nan_add x y : is_nan 53 1024 x = true \/ is_nan 53 1024 y = true -> is_nan 53 1024 (add x y) = true.
Proof. intros H. destruct x, y; destruct H as [H|H]; try discriminate H; reflexivity. Qed.
Lemma nan_div x y : is_nan 53 1024 x = true -> is_nan 53 1024 (div x y) = true.
Proof. intros H. destruct x; try discriminate H. destruct y; reflexivity. Qed.
Lemma nan_middle l u : is_nan 53 1024 l = true \/ is_nan 53 1024 u = true -> is_nan 53 1024 (Barycentre l u) = true.
Proof. intros H. unfold Barycentre. apply nan_div, nan_add. destruct H; [left; apply nan_add; right; assumption|right; assumption]. Qed.
Lemma nan_eq x y : is_nan 53 1024 x = true -> eq x y = false.
Proof. intros H. destruct x; try discriminate H. destruct y; reflexivity. Qed.
Lemma nan_loop f v n : (forall x, is_nan 53 1024 x = true -> eq (f x) zero = false) -> forall l u, is_nan 53 1024 l = true \/ is_nan 53 1024 u = true -> bisect_loop n f v l u = Running.
Proof.
  intros F. induction n as [|n IH]; intros l u H; [reflexivity|]. cbn [bisect_loop]. cbv zeta. pose proof (nan_middle l u H) as M. rewrite (nan_eq _ l M), (nan_eq _ u M), (F _ M). cbn [orb].
  destruct (Bool.eqb _ _); apply IH; tauto.
Qed.
(** An interval between the infinities: no iteration is the last. *)
Theorem bisect_infinite f n : (forall x, is_nan 53 1024 x = true -> eq (f x) zero = false) -> eq (f minus_infinity) zero = false -> eq (f infinity) zero = false ->
  sign_change f minus_infinity infinity -> Bisect n f minus_infinity infinity = Running.
Proof.
  intros F L U S. unfold Bisect. rewrite L, U. change (Sign (f minus_infinity) <> Sign (f infinity)) in S.
  destruct (Bool.eqb (Sign (f minus_infinity)) (Sign (f infinity))) eqn:E; [apply eqb_prop in E; contradiction|]. cbn [negb]. destruct n as [|n]; [reflexivity|]. cbn [bisect_loop]. cbv zeta.
  assert (M : is_nan 53 1024 (Barycentre minus_infinity infinity) = true) by reflexivity. rewrite (nan_eq _ minus_infinity M), (nan_eq _ infinity M), (F _ M). cbn [orb].
  destruct (Bool.eqb (Sign (f (Barycentre minus_infinity infinity))) (Sign (f infinity))); apply nan_loop; tauto.
Qed.

(** ** Brent's method *)
(** [f_a], [f_b] and [f_c] are the values at [a], [b] and [c], and the function changes sign between [b] and [c]. *)
Definition consistent (f : double -> double) (s : brent_state) : Prop := fa s = f (ba s) /\ fb s = f (bb s) /\ fc s = f (bc s) /\ Sign (fb s) <> Sign (fc s).
Lemma swap_consistent f s : consistent f s -> consistent f (swap s).
Proof.
  intros (A & B & C & S). unfold swap. destruct (lt _ _); [|split; [exact A|split; [exact B|split; [exact C|exact S]]]].
  split; [exact B|]. split; [exact C|]. split; [exact B|]. cbn [fb fc]. congruence.
Qed.
Lemma swap_order s : lt (Abs (fc (swap s))) (Abs (fb (swap s))) = false.
Proof.
  unfold swap. destruct (lt (Abs (fc s)) (Abs (fb s))) eqn:E; [|exact E]. cbn [fb fc]. revert E. unfold lt, b64_compare. rewrite (Bcompare_swap 53 1024 (Abs (fc s)) (Abs (fb s))).
  destruct (Bcompare 53 1024 (Abs (fc s)) (Abs (fb s))) as [[]|]; try discriminate; reflexivity.
Qed.
Definition brent_result (f : double -> double) (b : double) : Prop :=
  eq (f b) zero = true \/
  exists c, sign_change f b c /\ lt (Abs (f c)) (Abs (f b)) = false /\
    le (Abs (mul half (sub c b))) (mul (mul two brent_epsilon) (Abs (sub b zero))) = true.
Lemma brent_loop_result f n : forall s b, consistent f s -> brent_loop n f s = Returned b -> brent_result f b.
Proof.
  induction n as [|n IH]; intros s b K H; [discriminate|]. cbn [brent_loop] in H. cbv zeta in H. pose proof (swap_consistent f s K) as K'. pose proof (swap_order s) as O. set (s' := swap s) in *. destruct K' as (A & B & C & S).
  destruct (le (Abs (half_interval s')) (tolerance s')) eqn:T; cbn [orb] in H.
  { injection H as <-. right. exists (bc s'). split; [unfold sign_change; change (Sign (f (bb s')) <> Sign (f (bc s'))); congruence|]. split; [congruence|exact T]. }
  destruct (eq (fb s') zero) eqn:Z; [injection H as <-; left; congruence|].
  destruct (brent_step s') as [d e]. set (t := advance f s' d e) in *. change (fc t) with (fc s') in H.
  destruct (Bool.eqb (Sign (fb t)) (Sign (fc s'))) eqn:E; cbn [negb] in H.
  - apply eqb_prop in E. refine (IH _ _ _ H). split; [exact B|]. split; [reflexivity|]. split; [exact B|]. cbn [restart fb fc]. change (fa t) with (fb s'). congruence.
  - apply eqb_false_iff in E. refine (IH _ _ _ H). split; [exact B|]. split; [reflexivity|]. split; [exact C|]. change (fc t) with (fc s'). exact E.
Qed.
Theorem brent_returns f n l u b : Brent n f l u = Returned b -> brent_result f b.
Proof.
  unfold Brent. cbv zeta. destruct (eq (f l) zero) eqn:ZL; [intros H; injection H as <-; left; exact ZL|]. destruct (eq (f u) zero) eqn:ZU; [intros H; injection H as <-; left; exact ZU|].
  destruct (Bool.eqb (Sign (f l)) (Sign (f u))) eqn:E; cbn [negb]; [discriminate|]. apply eqb_false_iff in E. apply brent_loop_result. split; [reflexivity|]. split; [reflexivity|]. split; [reflexivity|].
  cbn [restart fb fc fa]. congruence.
Qed.
Lemma abs_real x : real (Abs x) = Rabs (real x).
Proof.
  unfold Abs. destruct (Sign x) eqn:S; [rewrite real_opp|]; destruct x as [s|s|s p H|s m e H]; unfold real, B2R in *; cbn in S; subst; rewrite ?Ropp_0, ?Rabs_R0; try reflexivity.
  - rewrite Rabs_left1; [reflexivity|]. apply F2R_le_0. cbn. lia.
  - rewrite Rabs_pos_eq; [reflexivity|]. apply F2R_ge_0. cbn. lia.
Qed.
Lemma abs_fin x : fin (Abs x) <-> fin x.
Proof. unfold Abs. destruct (Sign x); [apply fin_opp|reflexivity]. Qed.
Lemma fin_le x y : fin y -> le (Abs x) y = true -> fin x.
Proof.
  intros F H. destruct x as [s|s|s p HH|s m e HH]; try reflexivity.
  - destruct s, y as [[]|[]|? ? ?|[] ? ? ?]; try discriminate F; discriminate H.
  - destruct s, y as [[]|[]|? ? ?|[] ? ? ?]; try discriminate F; discriminate H.
Qed.
Lemma rounded_nonneg x : 0 <= x -> 0 <= rounded x.
Proof. intros H. rewrite <- (rounded_id 0) by apply generic_format_0. apply rounded_le, H. Qed.
Lemma rounded_abs x : rounded (Rabs x) = Rabs (rounded x).
Proof.
  destruct (Rle_lt_dec 0 x) as [L|L].
  - rewrite !Rabs_pos_eq; [reflexivity|apply rounded_nonneg, L|exact L].
  - rewrite (Rabs_left x L), rounded_opp. rewrite Rabs_left1; [reflexivity|]. pose proof (rounded_nonneg (- x) ltac:(lra)) as H. rewrite rounded_opp in H. lra.
Qed.
(** The tolerance, in real numbers. *)
Lemma tolerance_close b c : fin b -> pow2 (-960) <= Rabs (real b) ->
  le (Abs (mul half (sub c b))) (mul (mul two brent_epsilon) (Abs (sub b zero))) = true ->
  fin c /\ Rabs (real c - real b) <= pow2 (-51) * Rabs (real b).
Proof.
  intros FB B H. destruct (real_of_small 2 ltac:(vm_compute; discriminate)) as [F2 R2]. destruct (real_of_pow2 (-53) ltac:(lia)) as [FE RE]. destruct (real_of_pow2 (-1) ltac:(lia)) as [FH RH].
  change (of_Z 2) with two in *. change (of_Z2 1 (-53)) with brent_epsilon in *. change (of_Z2 1 (-1)) with half in *.
  assert (P52 : real two * real brent_epsilon = pow2 (-52)) by (rewrite R2, RE; change 2 with (pow2 1); rewrite <- bpow_plus; reflexivity).
  destruct (mul_ok two brent_epsilon F2 FE) as [F52 [R52 _]].
  { rewrite P52, rounded_id by (apply representable_pow2; lia). rewrite Rabs_pos_eq by apply bpow_ge_0. apply bpow_lt. reflexivity. }
  rewrite P52, rounded_id in R52 by (apply representable_pow2; lia).
  assert (SB : fin (sub b zero) /\ real (sub b zero) = real b).
  { generalize (Bminus_correct 53 1024 (refl_equal _) (refl_equal _) binop_nan_pl64 mode_NE b zero FB eq_refl).
    change (round radix2 (SpecFloat.fexp 53 1024) (round_mode mode_NE) (B2R 53 1024 b - B2R 53 1024 zero)) with (rounded (real b - real zero)). change (real zero) with 0.
    rewrite Rminus_0_r, rounded_id by apply representable_real. rewrite Rlt_bool_true by apply real_bound. intros [R [G _]]. split; [exact G|exact R]. }
  destruct SB as [FS RS]. set (B' := Rabs (real b)) in *. assert (BP : 0 < B') by (pose proof (bpow_gt_0 radix2 (-960)); lra).
  assert (MB : (-959 <= mag radix2 B')%Z).
  { apply mag_ge_bpow. rewrite (Rabs_pos_eq B') by lra. exact B. }
  assert (FB' : representable B') by (apply generic_format_abs, representable_real).
  assert (T : forall k, (-52 <= k)%Z -> representable (B' * pow2 k)) by (intros k K; apply mult_bpow_exact_FLT; [exact FB'|lia]).
  assert (B1024 : B' < pow2 1024) by apply real_bound.
  destruct (mul_ok (mul two brent_epsilon) (Abs (sub b zero)) F52 (proj2 (abs_fin _) FS)) as [FT [RT _]].
  { rewrite R52, abs_real, RS. fold B'. rewrite Rmult_comm, rounded_id by (apply T; lia). rewrite Rabs_pos_eq by (pose proof (bpow_ge_0 radix2 (-52)); nra).
    assert (pow2 (-52) < 1) by (change 1 with (pow2 0); apply bpow_lt; reflexivity). nra. }
  rewrite R52, abs_real, RS in RT. fold B' in RT. rewrite (Rmult_comm (pow2 (-52))), rounded_id in RT by (apply T; lia).
  pose proof (fin_le _ _ FT H) as FM. destruct (mul_fin _ _ FM) as (_ & FD & RM). destruct (sub_fin _ _ FD) as (FC & _ & RD). split; [exact FC|].
  apply le_fin in H; [|apply abs_fin, FM|exact FT]. rewrite abs_real, RM, RT, RH, RD in H. rewrite <- rounded_abs, Rabs_mult, <- rounded_abs in H. rewrite (Rabs_pos_eq (pow2 (-1))) in H by apply bpow_ge_0.
  set (x := Rabs (real c - real b)) in *. set (D := rounded x) in *. assert (ND : 0 <= D) by (apply rounded_nonneg, Rabs_pos). assert (FX : representable D) by apply representable_rounded.
  assert (P1 : pow2 (-1) = / 2) by reflexivity. rewrite P1 in H.
  assert (P51 : pow2 (-51) = 2 * pow2 (-52)) by (change 2 with (pow2 1); rewrite <- bpow_plus; reflexivity).
  assert (LD : D <= B' * pow2 (-51)).
  { apply Rnot_lt_le. intros C. replace (/ 2 * D) with (D / 2) in H by field. rewrite rounded_id in H; [rewrite P51 in C; nra|]. apply representable_half; [exact FX|]. rewrite Rabs_pos_eq by exact ND.
    apply Rle_trans with (B' * pow2 (-51)); [|lra]. apply Rle_trans with (pow2 (-960) * pow2 (-51)); [rewrite <- bpow_plus; apply bpow_le; lia|]. apply Rmult_le_compat_r; [apply bpow_ge_0|exact B]. }
  assert (LX : x <= B' / 2).
  { apply Rnot_lt_le. intros C. assert (G : B' / 2 <= D). { rewrite <- (rounded_id (B' / 2)); [apply rounded_le; lra|]. replace (B' / 2) with (B' * pow2 (-1)) by (rewrite P1; field). apply T. lia. }
    assert (pow2 (-51) < / 4) by (change (/ 4) with (pow2 (-2)); apply bpow_lt; reflexivity). nra. }
  assert (EX : representable (real c - real b)).
  { assert (ST : forall u v, representable u -> representable v -> 0 < v -> Rabs (u - v) <= v / 2 -> representable (u - v)).
    { intros u v U V P L. apply sterbenz; [typeclasses eauto|typeclasses eauto|exact U|exact V|]. split_Rabs; lra. }
    unfold x, B' in LX, BP. destruct (Rle_lt_dec 0 (real b)) as [Q|Q].
    - rewrite (Rabs_pos_eq (real b)) in * by exact Q. apply ST; [apply representable_real|apply representable_real|exact BP|exact LX].
    - rewrite (Rabs_left (real b)) in * by exact Q. replace (real c - real b) with (- (- real c - - real b)) by ring. apply representable_opp.
      apply ST; [apply representable_opp, representable_real|apply representable_opp, representable_real|exact BP|]. replace (- real c - - real b) with (- (real c - real b)) by ring. rewrite Rabs_Ropp. exact LX. }
  replace x with D; [rewrite Rmult_comm; exact LD|]. unfold D, x. rewrite rounded_abs, rounded_id by exact EX. reflexivity.
Qed.
