From Coq Require Import ZArith Bool Reals Lra Lia.
From Verif Require Import Dimensions_Model Dimensions_Spec.

(** The representation. *)
Local Open Scope Z_scope.
Definition bit_field (r position : Z) : Z := Z.land (Z.shiftr r (position * 5)) 31.
Lemma mask_bit : forall e j, 5 <= j -> Z.testbit (Z.land e 31) j = false.
Proof.
  intros e j H. rewrite Z.land_spec. replace (Z.testbit 31 j) with false; [apply andb_false_r |]. symmetry. change 31 with (Z.ones 5). apply Z.ones_spec_high. lia.
Qed.
Lemma mask_bits_low : forall e j, 0 <= j < 5 -> Z.testbit (Z.land e 31) j = Z.testbit e j.
Proof. intros e j H. rewrite Z.land_spec. change 31 with (Z.ones 5). rewrite Z.ones_spec_low by lia. apply andb_true_r. Qed.
Lemma representation_bit : forall e p n, 0 <= n -> Z.testbit (Representation e p) n = Z.testbit (Z.land e 31) (n - p * 5).
Proof. intros e p n H. unfold Representation, exponent_mask, exponent_bits. apply Z.shiftl_spec. exact H. Qed.
Lemma fields : forall d, let r := representation d in
  bit_field r 0 = Z.land (Length d) 31 /\ bit_field r 1 = Z.land (Mass d) 31 /\ bit_field r 2 = Z.land (Time d) 31 /\ bit_field r 3 = Z.land (Current d) 31 /\
  bit_field r 4 = Z.land (Temperature d) 31 /\ bit_field r 5 = Z.land (Amount d) 31 /\ bit_field r 6 = Z.land (LuminousIntensity d) 31 /\ bit_field r 7 = Z.land (Angle d) 31.
Proof.
  intros d r.
  assert (F : forall k e, 0 <= k -> (forall j, 0 <= j < 5 -> Z.testbit r (j + k * 5) = Z.testbit e j) -> bit_field r k = Z.land e 31).
  { intros k e K H. apply Z.bits_inj'. intros j J. unfold bit_field. destruct (Z.ltb_spec j 5) as [L | L].
    - rewrite !mask_bits_low by lia. rewrite Z.shiftr_spec by lia. apply H. lia.
    - rewrite !mask_bit by lia. reflexivity. }
  unfold r, representation in F |- *. clear r.
  assert (Low : forall e n p, n - p * 5 < 0 -> Z.testbit (Z.land e 31) (n - p * 5) = false) by (intros; apply Z.testbit_neg_r; assumption).
  assert (High : forall e n p, 5 <= n - p * 5 -> Z.testbit (Z.land e 31) (n - p * 5) = false) by (intros; apply mask_bit; assumption).
  assert (Mid : forall e j p, 0 <= j < 5 -> Z.testbit (Z.land e 31) (j + p * 5 - p * 5) = Z.testbit e j).
  { intros e j p H. replace (j + p * 5 - p * 5) with j by ring. apply mask_bits_low. exact H. }
  repeat split; apply F; try lia; intros j J; rewrite !Z.lor_spec, !representation_bit by lia; rewrite ?Mid by lia;
    repeat match goal with |- context [Z.testbit (Z.land ?e 31) (?n - ?p * 5)] => first [rewrite (Low e n p) by lia | rewrite (High e n p) by lia] end;
    rewrite ?orb_false_r, ?orb_false_l; reflexivity.
Qed.
Lemma serializable_range : forall e, IsSerializable e = true <-> -24 <= e <= 7.
Proof. intros e. unfold IsSerializable, min_exponent, max_exponent. rewrite andb_true_iff, Z.geb_le, Z.leb_le. reflexivity. Qed.
Lemma serializable_all : forall d, DimensionsAreSerializable d = true -> -24 <= Length d <= 7 /\ -24 <= Mass d <= 7 /\ -24 <= Time d <= 7 /\ -24 <= Current d <= 7 /\
  -24 <= Temperature d <= 7 /\ -24 <= Amount d <= 7 /\ -24 <= LuminousIntensity d <= 7 /\ -24 <= Angle d <= 7.
Proof. intros d H. unfold DimensionsAreSerializable in H. rewrite !andb_true_iff, !serializable_range in H. tauto. Qed.
Lemma mask_injective : forall a b, -24 <= a <= 7 -> -24 <= b <= 7 -> Z.land a 31 = Z.land b 31 -> a = b.
Proof.
  intros a b A B H. change 31 with (Z.ones 5) in H. rewrite !Z.land_ones in H by lia. change (2 ^ 5) with 32 in H.
  pose proof (Z.div_mod a 32 ltac:(lia)). pose proof (Z.div_mod b 32 ltac:(lia)). lia.
Qed.
Theorem representation_injective : forall a b, DimensionsAreSerializable a = true -> DimensionsAreSerializable b = true -> representation a = representation b -> a = b.
Proof.
  intros a b A B E. apply serializable_all in A. apply serializable_all in B. pose proof (fields a) as Fa. pose proof (fields b) as Fb. cbv zeta in Fa, Fb. rewrite E in Fa.
  destruct a as [a0 a1 a2 a3 a4 a5 a6 a7], b as [b0 b1 b2 b3 b4 b5 b6 b7]. cbn [Length Mass Time Current Temperature Amount LuminousIntensity Angle] in *.
  f_equal; apply mask_injective; intuition congruence.
Qed.
Lemma lor_bound : forall a b n, 0 <= n -> 0 <= a < 2 ^ n -> 0 <= b < 2 ^ n -> 0 <= Z.lor a b < 2 ^ n.
Proof.
  intros a b n N A B. split; [apply Z.lor_nonneg; lia |].
  destruct (Z.eq_dec (Z.lor a b) 0) as [-> | Z]; [lia |]. apply Z.log2_lt_pow2; [assert (0 <= Z.lor a b) by (apply Z.lor_nonneg; lia); lia |].
  rewrite Z.log2_lor by lia. apply Z.max_lub_lt.
  - destruct (Z.eq_dec a 0) as [-> | ?]; [| apply Z.log2_lt_pow2; lia]. cbn. destruct (Z.eq_dec n 0) as [-> | ?]; [| lia]. rewrite Z.pow_0_r in *. assert (b = 0) by lia. subst. elim Z. reflexivity.
  - destruct (Z.eq_dec b 0) as [-> | ?]; [| apply Z.log2_lt_pow2; lia]. cbn. destruct (Z.eq_dec n 0) as [-> | ?]; [| lia]. rewrite Z.pow_0_r in *. assert (a = 0) by lia. subst. elim Z. reflexivity.
Qed.
Theorem representation_bound : forall d, 0 <= representation d < 2 ^ 40.
Proof.
  intros d. assert (B : forall e p, 0 <= p <= 7 -> 0 <= Representation e p < 2 ^ 40).
  { intros e p P. unfold Representation, exponent_mask, exponent_bits. rewrite Z.shiftl_mul_pow2 by lia. change 31 with (Z.ones 5). rewrite Z.land_ones by lia.
    pose proof (Z.mod_pos_bound e (2 ^ 5) ltac:(lia)). assert (1 <= 2 ^ (p * 5)) by (apply (Z.pow_le_mono_r 2 0 (p * 5)); lia).
    assert (2 ^ (p * 5) <= 2 ^ 35) by (apply Z.pow_le_mono_r; lia). change (2 ^ 40) with (2 ^ 5 * 2 ^ 35). nia. }
  unfold representation. repeat (apply lor_bound; [lia | | apply B; lia]). apply B. lia.
Qed.

(** Written and read. *)
Theorem read_written : forall M d e (m : M) w, WriteToMessage d m = Ok w -> DimensionsAreSerializable e = true ->
  (d = e -> ReadFromMessage e w = Ok m) /\ (d <> e -> ReadFromMessage e w = CheckFailed).
Proof.
  intros M d e m w W E. unfold WriteToMessage in W. destruct (DimensionsAreSerializable d) eqn:D; [| discriminate]. injection W as <-. unfold ReadFromMessage. rewrite E. cbn [fst snd].
  split.
  - intros <-. rewrite Z.eqb_refl. reflexivity.
  - intros N. destruct (Z.eqb_spec (representation e) (representation d)) as [R |]; [| reflexivity]. elim N. symmetry. apply representation_injective; assumption.
Qed.

(** The algebra. *)
Local Open Scope R_scope.
Lemma power_nz : forall x n, 0 < x -> powerRZ x n <> 0.
Proof. intros x n H. apply powerRZ_NOR. lra. Qed.
Lemma power_minus : forall x a b, 0 < x -> powerRZ x (a - b) * powerRZ x b = powerRZ x a.
Proof. intros x a b H. rewrite <- powerRZ_add by lra. f_equal. ring. Qed.
Lemma factor_product : forall u l r, positive u -> factor u (DimensionsProduct l r) = factor u l * factor u r.
Proof.
  intros u l r (A & B & C & D & E & F & G & H). unfold factor, DimensionsProduct. cbn [Length Mass Time Current Temperature Amount LuminousIntensity Angle].
  rewrite !powerRZ_add by lra. ring.
Qed.
Lemma factor_nz : forall u d, positive u -> factor u d <> 0.
Proof. intros u d (A & B & C & D & E & F & G & H). unfold factor. repeat apply Rmult_integral_contrapositive_currified; apply power_nz; assumption. Qed.
Lemma quotient_product : forall l r, DimensionsProduct (DimensionsQuotient l r) r = l.
Proof. intros [? ? ? ? ? ? ? ?] [? ? ? ? ? ? ? ?]. unfold DimensionsProduct, DimensionsQuotient. cbn. f_equal; ring. Qed.
Lemma factor_quotient : forall u l r, positive u -> factor u (DimensionsQuotient l r) = factor u l / factor u r.
Proof.
  intros u l r P. rewrite <- (quotient_product l r) at 2. rewrite factor_product by exact P. unfold Rdiv. rewrite Rmult_assoc, Rinv_r by (apply factor_nz, P). ring.
Qed.
Lemma factor_none : forall u, factor u NoDimensions = 1.
Proof. intros u. unfold factor, NoDimensions. cbn. ring. Qed.
Lemma power_mult : forall x a n, 0 < x -> powerRZ x (a * n) = powerRZ (powerRZ x a) n.
Proof.
  intros x a n H. assert (P : forall k : nat, powerRZ x (a * Z.of_nat k) = powerRZ x a ^ k).
  { induction k as [|k IH]; [rewrite Z.mul_0_r; reflexivity |]. rewrite Nat2Z.inj_succ, <- Z.add_1_r, Z.mul_add_distr_l, Z.mul_1_r, powerRZ_add, IH by lra. cbn [pow]. ring. }
  assert (N : powerRZ x a <> 0) by (apply power_nz; exact H).
  destruct n as [|p|p].
  - rewrite Z.mul_0_r. reflexivity.
  - rewrite <- positive_nat_Z. rewrite P. rewrite pow_powerRZ. reflexivity.
  - cbn [powerRZ]. rewrite <- P, positive_nat_Z. apply (Rmult_eq_reg_r (powerRZ x (a * Z.pos p))); [| apply power_nz; exact H].
    rewrite Rinv_l by (apply power_nz; exact H). rewrite <- powerRZ_add by lra. replace (a * Z.neg p + a * Z.pos p)%Z with 0%Z by lia. reflexivity.
Qed.
Lemma powerRZ_mult' : forall x y n, x <> 0 -> y <> 0 -> powerRZ (x * y) n = powerRZ x n * powerRZ y n.
Proof.
  intros x y [|p|p] X Y; cbn [powerRZ]; [ring | apply Rpow_mult_distr |]. rewrite Rpow_mult_distr. rewrite Rinv_mult. reflexivity.
Qed.
Lemma factor_power : forall u d n, positive u -> factor u (DimensionsExponentiation d n) = powerRZ (factor u d) n.
Proof.
  intros u d n (A & B & C & D & E & F & G & H). unfold factor, DimensionsExponentiation. cbn [Length Mass Time Current Temperature Amount LuminousIntensity Angle].
  rewrite !power_mult by assumption. rewrite !powerRZ_mult' by (repeat apply Rmult_integral_contrapositive_currified; apply power_nz; assumption). reflexivity.
Qed.
Lemma root_power : forall d n r, DimensionsNthRoot d n = Some r <-> (n <> 0%Z /\ DimensionsExponentiation r n = d).
Proof.
  intros [a b c d e f g h] n [a' b' c' d' e' f' g' h']. unfold DimensionsNthRoot, DimensionsExponentiation. cbn [Length Mass Time Current Temperature Amount LuminousIntensity Angle].
  destruct (Z.eqb_spec n 0) as [-> | N]; [split; [discriminate | intros [K _]; elim K; reflexivity] |].
  assert (Q : forall x y, (x * n = y)%Z <-> (Z.rem y n = 0 /\ Z.quot y n = x)%Z).
  { intros x y. split.
    - intros <-. rewrite Z.rem_mul, Z.quot_mul by exact N. split; reflexivity.
    - intros [R <-]. pose proof (Z.quot_rem' y n). lia. }
  destruct (_ && _) eqn:E.
  - rewrite !andb_true_iff, !Z.eqb_eq in E. split.
    + intros K. injection K as <- <- <- <- <- <- <- <-. split; [exact N |]. f_equal; apply Q; intuition.
    + intros [_ K]. injection K as A B C D F G H I. f_equal. f_equal; apply Q; assumption.
  - split; [discriminate |]. intros [_ K]. injection K as A B C D F G H I.
    apply Q in A, B, C, D, F, G, H, I. revert E. destruct A as [-> _], B as [-> _], C as [-> _], D as [-> _], F as [-> _], G as [-> _], H as [-> _], I as [-> _]. discriminate.
Qed.

(** Different dimensions have different factors. *)
Lemma power_2_injective : forall a b, powerRZ 2 a = powerRZ 2 b -> a = b.
Proof.
  intros a b H. assert (K : powerRZ 2 (a - b) = 1).
  { apply (Rmult_eq_reg_r (powerRZ 2 b)); [| apply power_nz; lra]. rewrite power_minus by lra. rewrite H. ring. }
  assert (G : forall n, (0 < n)%Z -> powerRZ 2 n <> 1).
  { intros n P. destruct n as [|p|p]; try lia. cbn [powerRZ]. pose proof (Pos2Nat.is_pos p). pose proof (Rlt_pow_R1 2 (Pos.to_nat p) ltac:(lra) H0). lra. }
  destruct (Z.lt_trichotomy (a - b) 0) as [L | [E | L]]; [| lia | elim (G _ L K)].
  exfalso. apply (G (b - a)%Z); [lia |]. apply (Rmult_eq_reg_r (powerRZ 2 (a - b))); [| apply power_nz; lra].
  rewrite <- powerRZ_add by lra. rewrite K. replace (b - a + (a - b))%Z with 0%Z by ring. cbn. ring.
Qed.
Definition ones_with (i : nat) : units :=
  let x j := if Nat.eqb i j then 2 else 1 in mkUnits (x 0%nat) (x 1%nat) (x 2%nat) (x 3%nat) (x 4%nat) (x 5%nat) (x 6%nat) (x 7%nat).
Lemma ones_positive : forall i, positive (ones_with i).
Proof. intros i. unfold positive, ones_with. cbv zeta. cbn [metre kilogram second ampere kelvin mole candela radian]. repeat split; destruct (Nat.eqb _ _); lra. Qed.
Lemma power_1 : forall n, powerRZ 1 n = 1.
Proof. intros n. apply powerRZ_R1. Qed.
Theorem factor_faithful : forall a b, (forall u, positive u -> factor u a = factor u b) -> a = b.
Proof.
  intros a b H.
  pose proof (H _ (ones_positive 0)) as H0. pose proof (H _ (ones_positive 1)) as H1. pose proof (H _ (ones_positive 2)) as H2. pose proof (H _ (ones_positive 3)) as H3.
  pose proof (H _ (ones_positive 4)) as H4. pose proof (H _ (ones_positive 5)) as H5. pose proof (H _ (ones_positive 6)) as H6. pose proof (H _ (ones_positive 7)) as H7.
  unfold factor, ones_with in *. cbn [Nat.eqb metre kilogram second ampere kelvin mole candela radian] in *. rewrite !power_1 in *. rewrite ?Rmult_1_l, ?Rmult_1_r in *.
  destruct a as [a0 a1 a2 a3 a4 a5 a6 a7], b as [b0 b1 b2 b3 b4 b5 b6 b7]. cbn [Length Mass Time Current Temperature Amount LuminousIntensity Angle] in *. f_equal; apply power_2_injective; assumption.
Qed.

(** The types. *)
Lemma is_none : forall d, is_no_dimensions d = true <-> d = NoDimensions.
Proof.
  intros [a b c d e f g h]. unfold is_no_dimensions, NoDimensions. cbn [Length Mass Time Current Temperature Amount LuminousIntensity Angle]. rewrite !andb_true_iff, !Z.eqb_eq.
  split; [intros K; f_equal; tauto | intros K; injection K; intros; subst; tauto].
Qed.
Lemma not_none : forall d, d <> NoDimensions -> canonical (Quantity d).
Proof.
  intros d N. cbn. apply Classical_Prop.NNPP. intros K. apply N, factor_faithful. intros u P. rewrite factor_none.
  apply Classical_Prop.NNPP. intros L. apply K. exists u. split; assumption.
Qed.
Lemma collapse_ok : forall u d, factor_of_type u (Collapse (Quantity d)) = factor u d /\ canonical (Collapse (Quantity d)).
Proof.
  intros u d. cbn [Collapse]. destruct (is_no_dimensions d) eqn:E.
  - apply is_none in E. subst. rewrite factor_none. split; [reflexivity | exact I].
  - split; [reflexivity |]. apply not_none. intros K. apply is_none in K. congruence.
Qed.
Theorem product_type : forall u l r t, positive u -> canonical l -> canonical r -> Product l r = Some t -> factor_of_type u t = factor_of_type u l * factor_of_type u r /\ canonical t.
Proof.
  intros u [|l] [|r] t P L R H; try discriminate; injection H as <-.
  - cbn [factor_of_type]. split; [ring | exact R].
  - cbn [factor_of_type]. split; [ring | exact L].
  - change (if is_no_dimensions (DimensionsProduct l r) then Double else Quantity (DimensionsProduct l r)) with (Collapse (Quantity (DimensionsProduct l r))).
    destruct (collapse_ok u (DimensionsProduct l r)) as [A B]. rewrite A. cbn [factor_of_type]. rewrite factor_product by exact P. split; [reflexivity | exact B].
Qed.
Theorem quotient_type : forall u l r, positive u -> canonical l -> canonical r -> factor_of_type u (Quotient l r) = factor_of_type u l / factor_of_type u r /\ canonical (Quotient l r).
Proof.
  intros u [|l] [|r] P L R; unfold Quotient.
  - cbn. split; [field | exact I].
  - destruct (collapse_ok u (DimensionsQuotient NoDimensions r)) as [A B]. rewrite A, factor_quotient, factor_none by exact P. split; [reflexivity | exact B].
  - cbn [factor_of_type]. split; [field | exact L].
  - destruct (collapse_ok u (DimensionsQuotient l r)) as [A B]. rewrite A, factor_quotient by exact P. split; [reflexivity | exact B].
Qed.
Theorem root_type : forall u q n t, positive u -> NthRoot q n = Some t -> powerRZ (factor_of_type u t) n = factor_of_type u q /\ canonical t.
Proof.
  intros u [|d] n t P; unfold NthRoot.
  - intros H. injection H as <-. cbn. split; [apply power_1 | exact I].
  - destruct (DimensionsNthRoot d n) as [r |] eqn:E; [| discriminate]. intros H. injection H as <-. apply root_power in E. destruct E as [_ <-].
    change (if is_no_dimensions r then Double else Quantity r) with (Collapse (Quantity r)).
    destruct (collapse_ok u r) as [A B]. rewrite A. split; [symmetry; apply factor_power; exact P | exact B].
Qed.
