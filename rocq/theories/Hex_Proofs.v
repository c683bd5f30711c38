From Coq Require Import ZArith List Lia Bool String Ascii.
From Verif Require Import Hex_Model.
Import ListNotations.
Open Scope bool_scope.
Open Scope Z_scope.
Ltac Zify.zify_post_hook ::= Z.div_mod_to_equations.

(** Independent specification of upper-case hexadecimal. *)
Definition digit (d : Z) : Z := if d <? 10 then 48 + d else 55 + d.
Definition hex_of_bytes (l : list Z) : list Z := flat_map (fun b => [digit (b / 16); digit (b mod 16)]) l.
(** Value of a character: digits, upper-case and lower-case letters; anything else counts as 0. *)
Definition value (c : Z) : Z :=
  if (48 <=? c) && (c <=? 57) then c - 48
  else if (65 <=? c) && (c <=? 70) then c - 55
  else if (97 <=? c) && (c <=? 102) then c - 87
  else 0.
Fixpoint bytes_of_hex (l : list Z) : list Z :=
  match l with
  | a :: b :: l' => 16 * value a + value b :: bytes_of_hex l'
  | _ => []
  end.
Definition is_byte (b : Z) : Prop := 0 <= b < 256.

(** Exhaustive check over the 256 byte values, lifted by [forall_range]. *)
Lemma forall_range (P : Z -> bool) (n : nat) :
  forallb (fun k => P (Z.of_nat k)) (seq 0 n) = true ->
  forall z, 0 <= z < Z.of_nat n -> P z = true.
Proof.
  intros H z Hz. rewrite forallb_forall in H.
  specialize (H (Z.to_nat z)). rewrite Z2Nat.id in H by lia. apply H. apply in_seq. lia.
Qed.

Lemma table_digits b : is_byte b ->
  nth (Z.to_nat (Z.shiftl b 1)) byte_to_hexadecimal_digits 0 = digit (b / 16) /\
  nth (Z.to_nat (Z.shiftl b 1 + 1)) byte_to_hexadecimal_digits 0 = digit (b mod 16).
Proof.
  intros Hb.
  pose proof (forall_range (fun b =>
     (nth (Z.to_nat (Z.shiftl b 1)) byte_to_hexadecimal_digits 0 =? digit (b / 16)) &&
     (nth (Z.to_nat (Z.shiftl b 1 + 1)) byte_to_hexadecimal_digits 0 =? digit (b mod 16)))%bool 256) as H.
  specialize (H ltac:(vm_compute; reflexivity) b Hb).
  apply andb_prop in H as [H1 H2]. apply Z.eqb_eq in H1, H2. auto.
Qed.

Lemma table_nibble c : 0 <= c < 128 -> nibble_of_char c = Some (value c).
Proof.
  intros Hc.
  pose proof (forall_range (fun c => match nibble_of_char c with Some v => v =? value c | None => false end) 128) as H.
  specialize (H ltac:(vm_compute; reflexivity) c Hc). cbv beta in H.
  destruct (nibble_of_char c); [|discriminate]. apply Z.eqb_eq in H. congruence.
Qed.

Lemma nibble_signed c : 128 <= c < 256 -> nibble_of_char c = None.
Proof.
  intros Hc. unfold nibble_of_char. destruct (Z.ltb_spec c 128); [lia|].
  replace ((c - 256) mod 2 ^ 64) with (c - 256 + 2 ^ 64).
  2:{ apply Z.mod_unique with (q := -1); lia. }
  destruct (Z.ltb_spec (c - 256 + 2 ^ 64) 256); [lia|reflexivity].
Qed.

Lemma value_range c : 0 <= value c < 16.
Proof. unfold value. repeat match goal with |- context [?a <=? ?b] => destruct (Z.leb_spec a b) end; cbn [andb]; lia. Qed.

Lemma value_digit d : 0 <= d < 16 -> value (digit d) = d.
Proof.
  intros H. unfold digit. destruct (Z.ltb_spec d 10); unfold value;
  repeat match goal with |- context [?a <=? ?b] => destruct (Z.leb_spec a b) end; cbn [andb]; lia.
Qed.

Lemma digit_ascii d : 0 <= d < 16 -> 48 <= digit d < 128.
Proof. intros; unfold digit; destruct (d <? 10) eqn:?; lia. Qed.

Lemma upd_same m a v : upd m a v a = v.
Proof. unfold upd. rewrite Z.eqb_refl. reflexivity. Qed.
Lemma upd_other m a v x : x <> a -> upd m a v x = m x.
Proof. intros. unfold upd. destruct (Z.eqb_spec x a); congruence. Qed.

(** Correctness of the backward loop: no write happens on input bytes still to be read. *)
Lemma encode_loop_spec : forall (k : nat) i o m,
  (i <= o + 1 \/ o + 2 * Z.of_nat k <= i) ->
  (forall j, (j < k)%nat -> is_byte (m (i + Z.of_nat j))) ->
  forall x,
    encode_loop k i o m x =
    if (o <=? x) && (x <? o + 2 * Z.of_nat k)
    then let b := m (i + (x - o) / 2) in digit (if (x - o) mod 2 =? 0 then b / 16 else b mod 16)
    else m x.
Proof.
  induction k as [|k IH]; intros i o m Hov Hb x.
  - cbn [encode_loop]. destruct (Z.leb_spec o x), (Z.ltb_spec x (o + 2 * Z.of_nat 0)); cbn; try reflexivity; lia.
  - cbn [encode_loop].
    destruct (table_digits (m (i + Z.of_nat k))) as [E0 E1]; [apply Hb; lia|].
    rewrite E0, E1. clear E0 E1.
    set (b := m (i + Z.of_nat k)).
    set (m' := upd (upd m (o + 2 * Z.of_nat k) (digit (b / 16))) (o + 2 * Z.of_nat k + 1) (digit (b mod 16))).
    assert (Hm' : forall j, 0 <= j < Z.of_nat k -> m' (i + j) = m (i + j)).
    { intros j Hj. unfold m'. rewrite !upd_other; [reflexivity| lia | lia]. }
    rewrite IH.
    2: lia.
    2:{ intros j Hj. rewrite Hm' by lia. apply Hb; lia. }
    destruct (Z.leb_spec o x); destruct (Z.ltb_spec x (o + 2 * Z.of_nat k));
      destruct (Z.ltb_spec x (o + 2 * Z.of_nat (S k))); cbn [andb]; try lia.
    + rewrite Hm' by lia. reflexivity.
    + assert (x = o + 2 * Z.of_nat k \/ x = o + 2 * Z.of_nat k + 1) as [-> | ->] by lia.
      * unfold m'. rewrite upd_other by lia. rewrite upd_same.
        replace ((o + 2 * Z.of_nat k - o) / 2) with (Z.of_nat k) by lia.
        replace ((o + 2 * Z.of_nat k - o) mod 2) with 0 by lia. reflexivity.
      * unfold m'. rewrite upd_same.
        replace ((o + 2 * Z.of_nat k + 1 - o) / 2) with (Z.of_nat k) by lia.
        replace ((o + 2 * Z.of_nat k + 1 - o) mod 2) with 1 by lia. reflexivity.
    + unfold m'; rewrite !upd_other by lia; reflexivity.
    + unfold m'; rewrite !upd_other by lia; reflexivity.
Qed.

Lemma read_length m a n : List.length (read m a n) = n.
Proof. unfold read. rewrite map_length, seq_length. reflexivity. Qed.

Lemma read_S m a n : read m a (S n) = m a :: read m (a + 1) n.
Proof.
  unfold read. cbn [seq map]. rewrite Z.add_0_r. f_equal.
  rewrite <- seq_shift, map_map. apply map_ext. intros k. f_equal. lia.
Qed.

Lemma read_app m a n p : read m a (n + p) = read m a n ++ read m (a + Z.of_nat n) p.
Proof.
  revert a. induction n as [|n IH]; intros a.
  - rewrite Z.add_0_r. reflexivity.
  - cbn [Nat.add]. rewrite !read_S, IH. cbn. do 3 f_equal. lia.
Qed.

Lemma read_ext m m' a n : (forall x, a <= x < a + Z.of_nat n -> m x = m' x) -> read m a n = read m' a n.
Proof.
  intros H. unfold read. apply map_ext_in. intros k Hk. apply in_seq in Hk. apply H. lia.
Qed.

Lemma read_hex (m m' : mem) i o : forall n,
  (forall x, o <= x < o + 2 * Z.of_nat n ->
     m' x = let b := m (i + (x - o) / 2) in digit (if (x - o) mod 2 =? 0 then b / 16 else b mod 16)) ->
  read m' o (2 * n) = hex_of_bytes (read m i n).
Proof.
  intros n; revert i o. induction n as [|n IH]; intros i o H; [reflexivity|].
  replace (2 * S n)%nat with (S (S (2 * n))) by lia.
  rewrite !read_S. cbn [hex_of_bytes flat_map List.app].
  rewrite (H o), (H (o + 1)) by lia.
  replace ((o - o) / 2) with 0 by lia. replace ((o - o) mod 2) with 0 by lia.
  replace ((o + 1 - o) / 2) with 0 by lia. replace ((o + 1 - o) mod 2) with 1 by lia.
  rewrite Z.add_0_r. cbn [Z.eqb]. do 2 f_equal.
  replace (o + 1 + 1) with (o + 2) by lia. apply IH.
  intros x Hx. rewrite H by lia.
  replace ((x - o) / 2) with (1 + (x - (o + 2)) / 2) by lia.
  replace ((x - o) mod 2) with ((x - (o + 2)) mod 2) by lia.
  rewrite Z.add_assoc. reflexivity.
Qed.

Lemma encode_correct : forall (nt : bool) i n o osize m,
  (forall x, i <= x < i + Z.of_nat n -> is_byte (m x)) ->
  (i <= o + 1 \/ o + 2 * Z.of_nat n + (if nt then 1 else 0) <= i) ->
  EncodedLength nt (Z.of_nat n) <= osize ->
  exists m', Encode nt i n o osize m = Some m' /\
    read m' o (2 * n) = hex_of_bytes (read m i n) /\
    (nt = true -> m' (o + 2 * Z.of_nat n) = 0) /\
    (forall x, ~ (o <= x < o + EncodedLength nt (Z.of_nat n)) -> m' x = m x).
Proof.
  intros nt i n o osize m Hb Hov Hs. unfold Encode.
  assert (EL : EncodedLength nt (Z.of_nat n) = 2 * Z.of_nat n + if nt then 1 else 0)
    by (unfold EncodedLength; rewrite Z.shiftl_mul_pow2 by lia; destruct nt; lia).
  replace (negb _) with false.
  2:{ symmetry. apply Bool.negb_false_iff, Bool.orb_true_iff. rewrite !Z.leb_le, Z.shiftl_mul_pow2 by lia.
      destruct nt; lia. }
  destruct (Z.ltb_spec osize (EncodedLength nt (Z.of_nat n))); [lia|].
  rewrite !Z.shiftl_mul_pow2 by lia. change (2 ^ 1) with 2.
  set (m1 := if nt then upd m (o + (Z.of_nat n - 1) * 2 + 2) 0 else m).
  assert (Hm1 : forall x, i <= x < i + Z.of_nat n -> m1 x = m x).
  { intros x Hx. unfold m1. destruct nt; [|reflexivity]. apply upd_other. lia. }
  assert (Hspec := encode_loop_spec n i o m1).
  specialize (Hspec ltac:(destruct nt; lia)).
  specialize (Hspec ltac:(intros j Hj; rewrite Hm1 by lia; apply Hb; lia)).
  exists (encode_loop n i o m1); split; [reflexivity|]. split; [|split].
  - rewrite (read_hex m1 _ i).
    + f_equal. apply read_ext. exact Hm1.
    + intros x Hx. rewrite Hspec.
      destruct (Z.leb_spec o x), (Z.ltb_spec x (o + 2 * Z.of_nat n)); try lia. reflexivity.
  - intros ->. rewrite Hspec.
    destruct (Z.leb_spec o (o + 2 * Z.of_nat n)), (Z.ltb_spec (o + 2 * Z.of_nat n) (o + 2 * Z.of_nat n)); try lia.
    cbn [andb]. unfold m1. replace (o + (Z.of_nat n - 1) * 2 + 2) with (o + 2 * Z.of_nat n) by lia.
    apply upd_same.
  - intros x Hx. rewrite Hspec. rewrite EL in Hx.
    destruct (Z.leb_spec o x), (Z.ltb_spec x (o + 2 * Z.of_nat n)); cbn [andb]; destruct nt; try lia;
      unfold m1; try (rewrite upd_other by lia); reflexivity.
Qed.

Lemma lor_nibbles h l : 0 <= h < 16 -> 0 <= l < 16 -> Z.lor (Z.shiftl h 4) l mod 256 = 16 * h + l.
Proof.
  intros Hh Hl.
  pose proof (forall_range (fun h => forallb (fun k => Z.lor (Z.shiftl h 4) (Z.of_nat k) mod 256 =? 16 * h + Z.of_nat k) (seq 0 16)) 16) as H.
  specialize (H ltac:(vm_compute; reflexivity) h Hh). cbv beta in H.
  rewrite forallb_forall in H. specialize (H (Z.to_nat l)). rewrite Z2Nat.id in H by lia.
  apply Z.eqb_eq, H, in_seq. lia.
Qed.

Lemma decode_loop_spec : forall (k : nat) i o m,
  (o <= i + 1 \/ i + 2 * Z.of_nat k <= o) ->
  (forall x, i <= x < i + 2 * Z.of_nat k -> 0 <= m x < 128) ->
  exists m', decode_loop k i o m = Some m' /\
    read m' o k = bytes_of_hex (read m i (2 * k)) /\
    (forall x, ~ (o <= x < o + Z.of_nat k) -> m' x = m x).
Proof.
  induction k as [|k IH]; intros i o m Hov Hb.
  - exists m. repeat split; auto.
  - cbn [decode_loop]. rewrite !table_nibble by (apply Hb; lia).
    rewrite lor_nibbles by apply value_range.
    set (m1 := upd m o _).
    assert (Hm1 : forall x, i + 2 <= x < i + 2 + 2 * Z.of_nat k -> m1 x = m x).
    { intros x Hx. unfold m1. apply upd_other. lia. }
    destruct (IH (i + 2) (o + 1) m1) as (m' & Hd & Hr & Hf).
    { lia. }
    { intros x Hx. rewrite Hm1 by lia. apply Hb; lia. }
    exists m'. split; [exact Hd|]. split.
    + replace (2 * S k)%nat with (S (S (2 * k))) by lia. rewrite !read_S. cbn [bytes_of_hex].
      rewrite Hf by lia. unfold m1 at 1. rewrite upd_same. f_equal.
      rewrite Hr. f_equal. replace (i + 1 + 1) with (i + 2) by lia. apply read_ext.
      intros; apply Hm1; lia.
    + intros x Hx. rewrite Hf by lia. unfold m1. apply upd_other. lia.
Qed.

Lemma div2_SS n : (S (S n) / 2 = S (n / 2))%nat.
Proof. replace (S (S n)) with (n + 1 * 2)%nat by lia. rewrite Nat.div_add by lia. lia. Qed.

Lemma div2_bound n : (2 * (n / 2) <= n)%nat.
Proof. apply Nat.mul_div_le. lia. Qed.

Lemma bytes_of_hex_even m i n : bytes_of_hex (read m i (2 * (n / 2))) = bytes_of_hex (read m i n).
Proof.
  revert i. induction n as [n IH] using lt_wf_ind; intros i.
  destruct n as [|[|n]]; [reflexivity | reflexivity |].
  rewrite div2_SS.
  replace (2 * S (n / 2))%nat with (S (S (2 * (n / 2)))) by lia.
  rewrite !read_S. cbn [bytes_of_hex]. f_equal. apply IH. lia.
Qed.

Lemma decode_correct : forall i n o osize m,
  (forall x, i <= x < i + Z.of_nat n -> 0 <= m x < 128) ->
  (o <= i + 1 \/ i + 2 * Z.of_nat (n / 2) <= o) ->
  Z.of_nat (n / 2) <= osize ->
  exists m', Decode i n o osize m = Some m' /\
    read m' o (n / 2) = bytes_of_hex (read m i n) /\
    (forall x, ~ (o <= x < o + Z.of_nat (n / 2)) -> m' x = m x).
Proof.
  intros i n o osize m Hb Hov Hs. unfold Decode. pose proof (div2_bound n) as Hd2.
  replace (2 * (n / 2) / 2)%nat with (n / 2)%nat by (rewrite Nat.mul_comm, Nat.div_mul; lia).
  replace (negb _) with false.
  2:{ symmetry. apply Bool.negb_false_iff, Bool.orb_true_iff. rewrite !Z.leb_le. lia. }
  destruct (Z.ltb_spec osize (Z.of_nat (2 * (n / 2)) / 2)); [lia|].
  destruct (decode_loop_spec (n / 2) i o m) as (m' & Hd & Hr & Hf).
  { lia. } { intros x Hx. apply Hb. lia. }
  exists m'. split; [exact Hd|]. split; [|exact Hf]. rewrite Hr. apply bytes_of_hex_even.
Qed.

(** Pure round trip. *)
Lemma round_trip l : Forall is_byte l -> bytes_of_hex (hex_of_bytes l) = l.
Proof.
  induction 1 as [|b l Hb Hl IH]; [reflexivity|]. cbn [hex_of_bytes flat_map List.app].
  cbn [bytes_of_hex]. fold (hex_of_bytes l). rewrite IH.
  rewrite !value_digit by (unfold is_byte in Hb; lia). f_equal. lia.
Qed.

Lemma hex_length l : List.length (hex_of_bytes l) = (2 * List.length l)%nat.
Proof. unfold hex_of_bytes. induction l; cbn; lia. Qed.

Lemma hex_alphabet l : Forall is_byte l -> Forall (fun c => 48 <= c <= 57 \/ 65 <= c <= 70) (hex_of_bytes l).
Proof.
  induction 1 as [|b l Hb Hl IH]; cbn; [constructor|]. unfold is_byte in Hb.
  constructor; [|constructor; [|exact IH]]; unfold digit; destruct (Z.ltb_spec (b / 16) 10), (Z.ltb_spec (b mod 16) 10); lia.
Qed.

Lemma nth_read m n : forall a k, (k < n)%nat -> nth k (read m a n) 0 = m (a + Z.of_nat k).
Proof.
  induction n as [|n IH]; intros a k Hk; [lia|].
  rewrite read_S. destruct k as [|k]; cbn [nth].
  - f_equal; lia.
  - rewrite IH by lia. f_equal. lia.
Qed.

Lemma read_place junk a l : read (place junk a l) a (List.length l) = l.
Proof.
  apply nth_ext with (d := 0) (d' := 0); rewrite read_length; [reflexivity|].
  intros k Hk. rewrite nth_read by assumption. unfold place.
  destruct (Z.leb_spec a (a + Z.of_nat k)), (Z.ltb_spec (a + Z.of_nat k) (a + Z.of_nat (List.length l))); try lia.
  cbn [andb]. f_equal. lia.
Qed.

Lemma place_in junk a l x : a <= x < a + Z.of_nat (List.length l) -> In (place junk a l x) l.
Proof.
  intros Hx. unfold place.
  destruct (Z.leb_spec a x), (Z.ltb_spec x (a + Z.of_nat (List.length l))); try lia.
  cbn [andb]. apply nth_In. lia.
Qed.

Lemma encode_new_correct nt junk l : Forall is_byte l ->
  EncodeNew nt junk l = Some (hex_of_bytes l ++ (if nt then [0] else [])).
Proof.
  intros Hl. unfold EncodeNew.
  assert (EL : EncodedLength nt (Z.of_nat (List.length l)) = 2 * Z.of_nat (List.length l) + if nt then 1 else 0)
    by (unfold EncodedLength; rewrite Z.shiftl_mul_pow2 by lia; destruct nt; lia).
  set (n := List.length l) in *.
  destruct (Z.ltb_spec 0 (EncodedLength nt (Z.of_nat n))).
  - destruct (encode_correct nt 1 n (1 + Z.of_nat n) (EncodedLength nt (Z.of_nat n)) (place junk 1 l))
      as (m' & -> & Hr & H0 & _).
    { intros x Hx. rewrite Forall_forall in Hl. apply Hl, place_in. exact Hx. }
    { lia. } { lia. }
    f_equal. rewrite EL.
    replace (Z.to_nat (2 * Z.of_nat n + (if nt then 1 else 0))) with (2 * n + (if nt then 1 else 0))%nat
      by (destruct nt; lia).
    rewrite read_app, Hr. unfold n at 1. rewrite read_place. f_equal.
    destruct nt; [|reflexivity]. rewrite read_S. change (read m' (1 + Z.of_nat n + Z.of_nat (2 * n) + 1) 0) with (@nil Z). f_equal.
    rewrite <- (H0 eq_refl). f_equal. lia.
  - rewrite EL in H. destruct nt; [lia|]. destruct l; [reflexivity|]. subst n. cbn [List.length] in H. lia.
Qed.

Lemma decode_new_correct junk l : Forall (fun c => 0 <= c < 128) l ->
  DecodeNew junk l = Some (bytes_of_hex l).
Proof.
  intros Hl. unfold DecodeNew, DecodedLength. set (n := List.length l). pose proof (div2_bound n) as Hd2.
  assert (E2 : (2 * (n / 2) / 2)%nat = (n / 2)%nat) by (rewrite Nat.mul_comm, Nat.div_mul; lia).
  destruct (Nat.ltb_spec 0 (n / 2)).
  - destruct (decode_correct 1 (2 * (n / 2)) (1 + Z.of_nat n) (Z.of_nat (n / 2)) (place junk 1 l))
      as (m' & -> & Hr & _).
    { intros x Hx. rewrite Forall_forall in Hl. apply Hl, place_in. fold n. lia. }
    { rewrite E2. lia. } { rewrite E2. lia. }
    f_equal. rewrite E2 in Hr.
    rewrite Hr, bytes_of_hex_even. unfold n. rewrite read_place. reflexivity.
  - destruct l as [|a [|b l]]; [reflexivity | reflexivity |].
    exfalso. subst n. cbn [List.length] in *. rewrite div2_SS in *. lia.
Qed.

Lemma hex_round_trip_new nt junk junk' l enc : Forall is_byte l ->
  EncodeNew nt junk l = Some enc -> DecodeNew junk' enc = Some l.
Proof.
  intros Hl He. rewrite encode_new_correct in He by assumption. injection He as <-.
  pose proof (hex_alphabet l Hl) as Ha.
  rewrite decode_new_correct.
  - f_equal. rewrite <- (round_trip l Hl) at 2.
    assert (Happ : forall e x, Nat.even (List.length e) = true -> bytes_of_hex (e ++ [x]) = bytes_of_hex e).
    { clear. intros e x. remember (List.length e) as n eqn:En. revert e En.
      induction n as [n IH] using lt_wf_ind; intros e En He.
      destruct e as [|a [|b e]]; cbn in En; subst n; [reflexivity | discriminate |].
      cbn. f_equal. apply (IH (List.length e)); auto. }
    destruct nt; [|rewrite app_nil_r; reflexivity].
    apply Happ. rewrite hex_length. rewrite Nat.even_mul. reflexivity.
  - apply Forall_app; split.
    + eapply Forall_impl; [|exact Ha]. cbn; lia.
    + destruct nt; repeat constructor; lia.
Qed.

(** Case-insensitivity. *)
Definition lower (c : Z) : Z := if (65 <=? c) && (c <=? 90) then c + 32 else c.
Lemma decode_case l : bytes_of_hex (map lower l) = bytes_of_hex l.
Proof.
  assert (Hv : forall c, value (lower c) = value c).
  { intros c. unfold lower. destruct (Z.leb_spec 65 c), (Z.leb_spec c 90); cbn [andb]; try reflexivity.
    unfold value.
    repeat match goal with |- context [?a <=? ?b] => destruct (Z.leb_spec a b) end; cbn [andb]; lia. }
  remember (List.length l) as n eqn:En. revert l En.
  induction n as [n IH] using lt_wf_ind; intros l En.
  destruct l as [|a [|b l]]; cbn in *; [reflexivity | reflexivity |].
  rewrite !Hv. f_equal. apply (IH (List.length l)); lia.
Qed.

(** The adjacent null-terminated case admitted by the precondition. *)
Lemma encode_adjacent_null_wrong :
  exists i n o osize m m',
    (forall x, is_byte (m x)) /\
    Encode true i n o osize m = Some m' /\
    read m' o (2 * n) <> hex_of_bytes (read m i n).
Proof.
  (* One byte 0xAB at address 3, output at address 1: the terminator goes to address 3. *)
  exists 3, 1%nat, 1, 3, (fun _ => 0xAB). eexists. split; [|split].
  - intros; unfold is_byte; lia.
  - reflexivity.
  - vm_compute. discriminate.
Qed.

Lemma decode_char_ub : forall junk c d, 128 <= c < 256 -> DecodeNew junk [c; d] = None.
Proof.
  intros junk c d Hc. unfold DecodeNew, DecodedLength, Decode. cbn [List.length].
  cbn -[place decode_loop Z.of_nat]. cbn [decode_loop].
  replace (place junk 1 [c; d] 1) with c by reflexivity.
  rewrite nibble_signed by assumption. reflexivity.
Qed.

(** Whenever the checks pass, the result is right, except for the terminator case of [encode_adjacent_null_wrong]. *)
Lemma encode_checked : forall (nt : bool) i n o osize m m',
  (forall x, i <= x < i + Z.of_nat n -> is_byte (m x)) ->
  (nt = true -> (0 < n)%nat -> o + 2 * Z.of_nat n <> i) ->
  Encode nt i n o osize m = Some m' ->
  read m' o (2 * n) = hex_of_bytes (read m i n).
Proof.
  intros nt i n o osize m m' Hb Hne H.
  assert (Hn : n = 0%nat \/ (0 < n)%nat) by lia. destruct Hn as [->|Hn]; [reflexivity|].
  assert (Hc : (i <= o + 1 \/ o + 2 * Z.of_nat n + (if nt then 1 else 0) <= i) /\ EncodedLength nt (Z.of_nat n) <= osize).
  { unfold Encode in H.
    destruct (negb ((i <=? o + 1) || (o + Z.shiftl (Z.of_nat n) 1 <=? i))%bool) eqn:E1; [discriminate|].
    destruct (Z.ltb_spec osize (EncodedLength nt (Z.of_nat n))); [discriminate|]. split; [|assumption].
    apply Bool.negb_false_iff, Bool.orb_true_iff in E1. rewrite !Z.leb_le, Z.shiftl_mul_pow2 in E1 by lia.
    destruct nt; [specialize (Hne eq_refl Hn)|]; lia. }
  destruct Hc as [H1 H2]. destruct (encode_correct nt i n o osize m Hb H1 H2) as (m2 & E & Hr & _).
  congruence.
Qed.

Lemma decode_checked : forall i n o osize m m',
  (forall x, i <= x < i + Z.of_nat n -> 0 <= m x < 128) ->
  Decode i n o osize m = Some m' ->
  read m' o (n / 2) = bytes_of_hex (read m i n).
Proof.
  intros i n o osize m m' Hb H. pose proof (div2_bound n) as Hd2.
  assert (Hc : (o <= i + 1 \/ i + 2 * Z.of_nat (n / 2) <= o) /\ Z.of_nat (n / 2) <= osize).
  { unfold Decode in H.
    destruct (negb ((o <=? i + 1) || (i + Z.of_nat (2 * (n / 2)) <=? o))%bool) eqn:E1; [discriminate|].
    destruct (Z.ltb_spec osize (Z.of_nat (2 * (n / 2)) / 2)) as [|Hs]; [discriminate|].
    apply Bool.negb_false_iff, Bool.orb_true_iff in E1. rewrite !Z.leb_le in E1.
    rewrite Nat2Z.inj_mul, Z.mul_comm, Z.div_mul in Hs by lia. lia. }
  destruct Hc as [H1 H2]. destruct (decode_correct i n o osize m Hb H1 H2) as (m2 & E & Hr & _).
  congruence.
Qed.
