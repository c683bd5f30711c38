From Coq Require Import ZArith Bool List Ascii Lia QArith Lqa.
From Verif Require Import Date_Model Date_Proofs DateText_Model DateText_Proofs.
Import ListNotations.
Local Open Scope char_scope.
Open Scope Z_scope.
Ltac Zify.zify_post_hook ::= Z.div_mod_to_equations.

(** ** Specification *)
(** A decimal number without sign, with possibly no digits before or after the point. *)
Inductive decimal : nat -> list ascii -> Q -> Prop :=
| whole a i : fits a i -> decimal a (numeral a i) (inject_Z i)
| pointed a b i f : fits a i -> fits b f ->
    decimal (a + b) (numeral a i ++ ["."] ++ numeral b f) (inject_Z i + inject_Z f / inject_Z (10 ^ Z.of_nat b))%Q.
(** The days since J2000, which is JD 2451545 and MJD 51544.5. *)
Inductive era := JulianEra | ModifiedEra.
Definition era_text (e : era) : list ascii := match e with JulianEra => ["J"; "D"] | ModifiedEra => ["M"; "J"; "D"] end.
Definition J2000 (e : era) : Q := match e with JulianEra => inject_Z 2451545 | ModifiedEra => inject_Z 51544 + (1 # 2) end%Q.
Definition days_since_J2000 (j : julian_date) : Q :=
  (inject_Z (julian_day j) + inject_Z (fraction_numerator j) / inject_Z (fraction_denominator j))%Q.

(** ** Proofs *)
Definition is_point (c : ascii) := Ascii.eqb c ".".
Lemma digit_point c : is_digit c = true -> is_point c = false.
Proof. intros H. destruct (digit_cases c H) as (k & K & -> & _). apply digit_neq; [exact K|reflexivity]. Qed.
Lemma read_julian_sound s : forall i v n m mi r, read_julian s i v n m mi = Ok r ->
  Forall (fun c => is_point c = true \/ is_digit c = true) s /\ (length (positions is_point s i) + (if m then 1 else 0) <= 1)%nat /\
  r = (value s v, n + count_digits s, nth 0 (positions is_point s i) mi).
Proof.
  induction s as [|c s IH]; intros i v n m mi r H.
  - cbn in H. injection H as <-. split; [constructor|]. split; [destruct m; cbn; lia|]. unfold count_digits. cbn. rewrite Z.add_0_r. reflexivity.
  - cbn [read_julian positions] in *. fold (is_point c) in H. destruct (is_point c) eqn:P.
    + destruct m; [discriminate|]. apply IH in H. destruct H as (A & L & ->). cbn [length] in *. 
      assert (D : is_digit c = false) by (destruct (is_digit c) eqn:D; [rewrite (digit_point c D) in P; discriminate|reflexivity]).
      split; [constructor; [left; exact P|exact A]|]. split; [lia|].
      unfold value, count_digits, value_step. cbn [fold_left filter]. rewrite D. 
      destruct (positions is_point s (i + 1)); [reflexivity|cbn [length] in L; lia].
    + destruct (is_digit c) eqn:D; [|discriminate]. destruct (_ <=? _); [|discriminate]. apply IH in H. destruct H as (A & L & ->).
      split; [constructor; [right; exact D|exact A]|]. split; [exact L|].
      unfold value, count_digits, value_step. cbn [fold_left filter]. rewrite D. cbn [length]. do 2 f_equal. lia.
Qed.
Lemma read_julian_complete s : forall i v n (m : bool) mi, Forall (fun c => is_point c = true \/ is_digit c = true) s ->
  (length (positions is_point s i) + (if m then 1 else 0) <= 1)%nat ->
  0 <= v -> v < 10 ^ (18 - count_digits s) -> count_digits s <= 18 ->
  read_julian s i v n m mi = Ok (value s v, n + count_digits s, nth 0 (positions is_point s i) mi).
Proof.
  induction s as [|c s IH]; intros i v n m mi A L V0 V C.
  - cbn. unfold count_digits. cbn. rewrite Z.add_0_r. reflexivity.
  - apply Forall_cons_iff in A. destruct A as [A0 A]. cbn [read_julian positions] in *. fold (is_point c).
    assert (CC : count_digits (c :: s) = (if is_digit c then 1 else 0) + count_digits s).
    { unfold count_digits. cbn [filter]. destruct (is_digit c); cbn [length]; lia. }
    assert (C0 : 0 <= count_digits s) by (unfold count_digits; lia).
    rewrite CC in V, C |- *. unfold value at 1. cbn [fold_left]. fold (value s (value_step v c)). unfold value_step.
    destruct (is_point c) eqn:P.
    + assert (D : is_digit c = false) by (destruct (is_digit c) eqn:D; [rewrite (digit_point c D) in P; discriminate|reflexivity]).
      rewrite D in *. destruct m; [cbn [length] in L; lia|]. cbn [length] in L. rewrite Z.add_0_l in *.
      rewrite IH; [|exact A|lia|exact V0|exact V|exact C]. destruct (positions is_point s (i + 1)); [reflexivity|cbn [length] in L; lia].
    + destruct A0 as [A0|D]; [congruence|]. rewrite D in *.
      assert (V' : v < 10 ^ 17). { apply Z.lt_le_trans with (1 := V). apply Z.pow_le_mono_r; lia. }
      change (10 ^ 17) with 100000000000000000 in V'. change (int64_max / 10 - 9) with 922337203685477571.
      destruct (Z.leb_spec v 922337203685477571); [|lia]. destruct (digit_cases c D) as (k & K & _ & E). rewrite E.
      rewrite IH; [do 3 f_equal; lia|exact A|exact L|lia| |lia].
      replace (18 - count_digits s) with (Z.succ (18 - (1 + count_digits s))) by lia. rewrite Z.pow_succ_r by lia. lia.
Qed.
Lemma shift_left_nat_sound c : forall x r, shift_left_nat x c = Ok r -> r = x * 10 ^ Z.of_nat c.
Proof.
  induction c as [|c IH]; intros x r H.
  - injection H as <-. change (10 ^ Z.of_nat 0) with 1. lia.
  - cbn [shift_left_nat] in H. destruct (_ <=? _); [|discriminate]. apply IH in H. rewrite Nat2Z.inj_succ, Z.pow_succ_r by lia. lia.
Qed.
Lemma shift_left_sound x c r : shift_left x (Z.of_nat c) = Ok r -> r = x * 10 ^ Z.of_nat c.
Proof. unfold shift_left. destruct (_ <? _); [discriminate|]. rewrite Nat2Z.id. apply shift_left_nat_sound. Qed.

Lemma decimal_sound s r : read_julian s 0 0 0 false (-1) = Ok r ->
  exists a b i f, fits a i /\ fits b f /\ decimal (a + b) s (inject_Z i + inject_Z f / inject_Z (10 ^ Z.of_nat b))%Q /\
    r = (i * 10 ^ Z.of_nat b + f, Z.of_nat (a + b), if existsb is_point s then Z.of_nat a else -1) /\ (existsb is_point s = false -> b = O).
Proof.
  intros H. apply read_julian_sound in H. destruct H as (A & L & ->). destruct (positions is_point s 0) as [|j q] eqn:P.
  - apply positions_nil in P. assert (D : all_digits s).
    { unfold all_digits. rewrite Forall_forall in *. intros c I. specialize (A c I). specialize (P c I). destruct A; congruence. }
    assert (E : existsb is_point s = false).
    { clear -P. induction P as [|c s C _ IH]; [reflexivity|]. cbn. rewrite C. exact IH. }
    rewrite E. rewrite (count_all s D).
    destruct (as_numeral (length s) s D eq_refl) as (i & Es & F). exists (length s), O, i, 0. rewrite Nat.add_0_r. split; [exact F|]. split; [unfold fits; cbn; lia|].
    change (10 ^ Z.of_nat 0) with 1. rewrite Z.mul_1_r, !Z.add_0_r, !Z.add_0_l.
    set (n := length s) in *. clearbody n. subst s. split.
    + assert (Q0 : (inject_Z i + inject_Z 0 / inject_Z 1)%Q = inject_Z i) by (unfold inject_Z, Qdiv, Qmult, Qinv, Qplus; cbn; f_equal; lia).
      rewrite Q0. constructor. exact F.
    + split; [|reflexivity]. rewrite numeral_value by exact F. reflexivity.
  - assert (q = []) as -> by (destruct q; [reflexivity|cbn [length] in L; lia]).
    destruct (positions_cons _ _ _ _ _ P) as (a & c & b & -> & Pc & Ej & Fa & Pb). apply positions_nil in Pb. cbn [nth].
    rewrite existsb_app. cbn [existsb]. rewrite Pc, orb_true_r. apply Ascii.eqb_eq in Pc. subst c.
    apply Forall_app in A. destruct A as [Aa A]. apply Forall_cons_iff in A. destruct A as [_ Ab].
    assert (Da : all_digits a).
    { unfold all_digits. rewrite Forall_forall in *. intros c I. specialize (Aa c I). specialize (Fa c I). destruct Aa; congruence. }
    assert (Db : all_digits b).
    { unfold all_digits. rewrite Forall_forall in *. intros c I. specialize (Ab c I). specialize (Pb c I). destruct Ab; congruence. }
    destruct (as_numeral (length a) a Da eq_refl) as (i & Ea & Fi). destruct (as_numeral (length b) b Db eq_refl) as (f & Eb & Ff).
    exists (length a), (length b), i, f. split; [exact Fi|]. split; [exact Ff|]. split; [|split; [|discriminate]].
    + rewrite Ea at 2. rewrite Eb at 2. exact (pointed (length a) (length b) i f Fi Ff).
    + change (a ++ "." :: b) with (a ++ ["."] ++ b). rewrite !count_app, (count_all a Da), (count_all b Db).
      rewrite value_app. change (value (["."] ++ b)) with (value b). 
      rewrite Ea at 1. rewrite Eb at 1. rewrite !numeral_value by assumption. change (count_digits ["."]) with 0. rewrite Ej. repeat f_equal; lia.
Qed.
Lemma range_high i f a b : fits a i -> fits b f -> digit_range (i * 10 ^ Z.of_nat b + f) b (a + b) = Ok i.
Proof.
  unfold fits. intros I F. pose proof (pow10_pos b). assert (0 <= i * 10 ^ Z.of_nat b) by nia. rewrite digit_range_ok by lia.
  replace (a + b - b)%nat with a by lia. rewrite Z.add_comm, Z.div_add, Z.div_small, Z.add_0_l, Z.mod_small by lia. reflexivity.
Qed.
Lemma range_low i f b : 0 <= i -> fits b f -> digit_range (i * 10 ^ Z.of_nat b + f) 0 b = Ok f.
Proof.
  unfold fits. intros I F. pose proof (pow10_pos b). assert (0 <= i * 10 ^ Z.of_nat b) by nia. rewrite digit_range_ok by lia.
  rewrite Nat.sub_0_r. change (10 ^ Z.of_nat 0) with 1. rewrite Z.div_1_r, Z.add_comm, Z.mod_add, Z.mod_small by lia. reflexivity.
Qed.
Definition convert (e : era) := match e with JulianEra => JulianDate_JD | ModifiedEra => JulianDate_MJD end.
Lemma even_power b : (0 < b)%nat -> exists h, 10 ^ Z.of_nat b = 2 * h /\ 0 < h.
Proof.
  intros B. destruct b as [|b]; [lia|]. exists (5 * 10 ^ Z.of_nat b). pose proof (pow10_pos b). rewrite Nat2Z.inj_succ, Z.pow_succ_r by lia. lia.
Qed.
Lemma convert_ok e a b i f r : fits a i -> fits b f -> shift_left 1 (Z.of_nat b) = Ok r ->
  exists j, convert e (i * 10 ^ Z.of_nat b + f) (a + b)%nat b = Ok j /\
    (days_since_J2000 j == inject_Z i + inject_Z f / inject_Z (10 ^ Z.of_nat b) - J2000 e)%Q /\
    0 <= fraction_numerator j < fraction_denominator j.
Proof.
  intros I F S. pose proof (shift_left_sound 1 b r S) as E. rewrite Z.mul_1_l in E. pose proof (pow10_pos b) as P. rewrite <- E in *.
  assert (I0 : 0 <= i) by (apply I). assert (F' : 0 <= f < r) by (unfold fits in F; rewrite <- E in F; exact F).
  assert (QR : ~ (inject_Z r == 0)%Q) by (unfold Qeq, inject_Z; cbn; lia).
  assert (H1 : digit_range (i * r + f) b (a + b) = Ok i) by (rewrite E; apply range_high; assumption).
  assert (H2 : digit_range (i * r + f) 0 b = Ok f) by (rewrite E; apply range_low; assumption).
  destruct e; cbn [convert].
  - unfold JulianDate_JD. rewrite H1. cbn [bind]. rewrite H2. cbn [bind]. rewrite S. cbn [bind]. unfold JulianDate.
    destruct (Z.leb_spec 0 f); [|lia]. destruct (Z.ltb_spec f r); [|lia]. cbn [andb]. eexists. split; [reflexivity|].
    unfold days_since_J2000, J2000. cbn [julian_day fraction_numerator fraction_denominator]. split; [|lia].
    unfold Z.sub. rewrite inject_Z_plus, inject_Z_opp. ring.
  - unfold JulianDate_MJD. rewrite H1. cbn [bind]. rewrite H2. cbn [bind]. rewrite S. cbn [bind]. destruct (Z.eqb_spec r 1) as [R1|R1].
    + assert (f = 0) by lia. subst f r. cbn [Z.eqb]. unfold JulianDate. cbn [Z.leb Z.ltb Z.compare andb Pos.compare Pos.compare_cont]. rewrite R1. eexists. split; [reflexivity|].
      unfold days_since_J2000, J2000. cbn [julian_day fraction_numerator fraction_denominator]. split; [|lia].
      unfold Z.sub. rewrite !inject_Z_plus, !inject_Z_opp. change (inject_Z 5 / inject_Z 10)%Q with (5 # 10)%Q. change (inject_Z 0 / inject_Z 1)%Q with (0 # 1)%Q. unfold inject_Z. lra.
    + assert (B : (0 < b)%nat). { destruct b; [|lia]. change (10 ^ Z.of_nat 0) with 1 in E. lia. }
      destruct (even_power b B) as (h & Eh & Hh). rewrite <- E in Eh.
      assert (QU : Z.quot r 2 = h) by (rewrite Eh, Z.mul_comm; apply Z.quot_mul; lia). rewrite QU.
      assert (QH : (inject_Z h == inject_Z r / inject_Z 2)%Q) by (rewrite Eh, inject_Z_mult; field).
      destruct (Z.leb_spec h f).
      * unfold JulianDate. destruct (Z.leb_spec 0 (f - h)); [|lia]. destruct (Z.ltb_spec (f - h) r); [|lia]. cbn [andb]. eexists. split; [reflexivity|].
        unfold days_since_J2000, J2000. cbn [julian_day fraction_numerator fraction_denominator]. split; [|lia].
        unfold Z.sub. rewrite !inject_Z_plus, !inject_Z_opp, QH. 
        assert (EE : (forall x y : Q, ((x + - (y / inject_Z 2)) / y == x / y - (1 # 2)) \/ y == 0)%Q).
        { intros x y. destruct (Qeq_dec y 0); [right; assumption|left]. unfold inject_Z. field. assumption. }
        destruct (EE (inject_Z f) (inject_Z r)) as [E1|E1]; [|contradiction]. rewrite E1. unfold inject_Z. ring.
      * unfold JulianDate. destruct (Z.leb_spec 0 (f + h)); [|lia]. destruct (Z.ltb_spec (f + h) r); [|lia]. cbn [andb]. eexists. split; [reflexivity|].
        unfold days_since_J2000, J2000. cbn [julian_day fraction_numerator fraction_denominator]. split; [|lia].
        unfold Z.sub. rewrite !inject_Z_plus, !inject_Z_opp, QH. 
        assert (EE : (forall x y : Q, ((x + (y / inject_Z 2)) / y == x / y + (1 # 2)) \/ y == 0)%Q).
        { intros x y. destruct (Qeq_dec y 0); [right; assumption|left]. unfold inject_Z. field. assumption. }
        destruct (EE (inject_Z f) (inject_Z r)) as [E1|E1]; [|contradiction]. rewrite E1. unfold inject_Z. ring.
Qed.
Lemma parse_julian_unfold e t : ParseJulian (era_text e ++ t) = to_julian (convert e) t.
Proof. destruct e, t; reflexivity. Qed.
Lemma starts_with_sound p : forall s, starts_with s p = true -> exists t, s = p ++ t.
Proof.
  induction p as [|c p IH]; intros s H; [exists s; reflexivity|]. destruct s as [|d s]; [discriminate|]. cbn in H.
  apply andb_true_iff in H. destruct H as [E H]. apply Ascii.eqb_eq in E. subst. destruct (IH _ H) as (t & ->). exists t. reflexivity.
Qed.
Lemma parse_julian_era s j : ParseJulian s = Ok j -> exists e t, s = era_text e ++ t.
Proof.
  unfold ParseJulian. destruct s as [|c s]; [discriminate|]. destruct (starts_with _ ["J"; "D"]) eqn:H.
  - intros _. exists JulianEra. exact (starts_with_sound _ _ H).
  - destruct (starts_with _ ["M"; "J"; "D"]) eqn:H'; [|discriminate]. intros _. exists ModifiedEra. exact (starts_with_sound _ _ H').
Qed.
Lemma julian_sound s j : ParseJulian s = Ok j -> exists e n t q, s = era_text e ++ t /\ decimal n t q /\
  (days_since_J2000 j == q - J2000 e)%Q /\ 0 <= fraction_numerator j < fraction_denominator j.
Proof.
  intros H. destruct (parse_julian_era s j H) as (e & t & ->). rewrite parse_julian_unfold in H. unfold to_julian in H.
  destruct (read_julian t 0 0 0 false (-1)) as [r| |] eqn:R; try discriminate. cbn [bind] in H.
  destruct (decimal_sound t r R) as (a & b & i & f & Fi & Ff & D & -> & NB). rewrite Nat2Z.id in H.
  assert (K : (if (if existsb is_point t then Z.of_nat a else -1) <? 0 then O else Z.to_nat (Z.of_nat (a + b) - (if existsb is_point t then Z.of_nat a else -1))) = b).
  { destruct (existsb is_point t). - destruct (Z.ltb_spec (Z.of_nat a) 0); lia. - rewrite NB by reflexivity. reflexivity. }
  rewrite K in H. destruct (shift_left 1 (Z.of_nat b)) as [r| |] eqn:S.
  - destruct (convert_ok e a b i f r Fi Ff S) as (j' & E & V & B). rewrite E in H. injection H as <-.
    exists e, (a + b)%nat, t, (inject_Z i + inject_Z f / inject_Z (10 ^ Z.of_nat b))%Q. repeat split; try assumption; apply B.
  - exfalso. destruct e; cbn [convert] in H; unfold JulianDate_JD, JulianDate_MJD in H; 
      rewrite range_high in H by assumption; cbn [bind] in H; rewrite range_low in H by (apply Fi || assumption); cbn [bind] in H; rewrite S in H; discriminate.
  - exfalso. destruct e; cbn [convert] in H; unfold JulianDate_JD, JulianDate_MJD in H; 
      rewrite range_high in H by assumption; cbn [bind] in H; rewrite range_low in H by (apply Fi || assumption); cbn [bind] in H; rewrite S in H; discriminate.
Qed.
Lemma julian_complete e n t q : decimal n t q -> (n <= 18)%nat -> exists j, ParseJulian (era_text e ++ t) = Ok j /\
  (days_since_J2000 j == q - J2000 e)%Q /\ 0 <= fraction_numerator j < fraction_denominator j.
Proof.
  intros D N. rewrite parse_julian_unfold. unfold to_julian.
  assert (S18 : forall b, (b <= 18)%nat -> exists r, shift_left 1 (Z.of_nat b) = Ok r).
  { intros b B. eexists. apply shift_left_ok; [lia|lia|]. rewrite Z.mul_1_l. apply Z.le_trans with (10 ^ 18); [apply Z.pow_le_mono_r; lia|].
    apply Z.leb_le. reflexivity. }
  assert (PN : forall n v, Forall (fun c => is_point c = false) (numeral n v)).
  { intros m v. pose proof (numeral_digits m v) as X. revert X. apply Forall_impl. exact digit_point. }
  assert (AN : forall n v, Forall (fun c => is_point c = true \/ is_digit c = true) (numeral n v)).
  { intros m v. pose proof (numeral_digits m v) as X. revert X. apply Forall_impl. intros; right; assumption. }
  destruct D as [a i Fi|a b i f Fi Ff].
  - rewrite read_julian_complete; [|apply AN|rewrite positions_none by apply PN; cbn; lia|lia|apply Z.pow_pos_nonneg; [lia|rewrite count_all by apply numeral_digits; rewrite numeral_length; lia]
      |rewrite count_all by apply numeral_digits; rewrite numeral_length; lia].
    cbn [bind]. rewrite (positions_none is_point) by apply PN. rewrite (count_all (numeral a i)) by apply numeral_digits. rewrite numeral_length, numeral_value by exact Fi.
    cbn [nth]. change (-1 <? 0) with true. cbv iota. replace (Z.to_nat (0 + Z.of_nat a)) with a by lia. destruct (S18 0%nat) as (r & S); [lia|].
    assert (F0 : fits 0 0) by (unfold fits; cbn; lia). destruct (convert_ok e a 0 i 0 r Fi F0 S) as (j & E & V & B). exists j.
    change (10 ^ Z.of_nat 0) with 1 in *. rewrite Nat.add_0_r in E.
    split; [replace (0 * 10 ^ Z.of_nat a + i) with (i * 1 + 0) by lia; exact E|]. split; [|exact B]. rewrite V. change (inject_Z 0 / inject_Z 1)%Q with 0%Q. ring.
  - assert (C : count_digits (numeral a i ++ ["."] ++ numeral b f) = Z.of_nat (a + b)).
    { rewrite !count_app, !(count_all (numeral _ _)) by apply numeral_digits. rewrite !numeral_length. change (count_digits ["."]) with 0. lia. }
    assert (P : positions is_point (numeral a i ++ ["."] ++ numeral b f) 0 = [Z.of_nat a]).
    { rewrite !positions_app, !(positions_none is_point (numeral _ _)) by apply PN. rewrite numeral_length. reflexivity. }
    rewrite read_julian_complete; [|apply Forall_app; split; [apply AN|constructor; [left; reflexivity|apply AN]]|rewrite P; cbn; lia|lia|apply Z.pow_pos_nonneg; lia|lia].
    rewrite P, C. cbn [bind nth]. destruct (Z.ltb_spec (Z.of_nat a) 0); [lia|]. rewrite Z.add_0_l, Nat2Z.id.
    replace (Z.to_nat (Z.of_nat (a + b) - Z.of_nat a)) with b by lia.
    rewrite value_app. change (value (["."] ++ numeral b f)) with (value (numeral b f)). rewrite !numeral_value by assumption.
    destruct (S18 b) as (r & S); [lia|]. destruct (convert_ok e a b i f r Fi Ff S) as (j & E & V & B). exists j.
    rewrite Z.mul_0_l, Z.add_0_l. split; [exact E|]. split; [exact V|exact B].
Qed.
