From Coq Require Import ZArith List Lia Bool.
From Verif Require Import Base32768_Tables Base32768_Model.
Import ListNotations.
Open Scope bool_scope.
Open Scope Z_scope.
Ltac Zify.zify_post_hook ::= Z.div_mod_to_equations.

Definition is_byte (b : Z) : Prop := 0 <= b < 256.

(** Repertoires: decoding undoes encoding whenever the constructor's assertions hold. *)
Lemma blocks_ok_ge b bs : blocks_ok (b :: bs) = true -> forall x, In x bs -> b + 32 <= x.
Proof.
  revert b. induction bs as [|b' bs IH]; intros b H x Hx; [destruct Hx|].
  cbn [blocks_ok] in H. apply andb_prop in H as [H H2]. apply andb_prop in H as [H0 H1].
  apply Z.leb_le in H1. unfold block_size in *.
  destruct Hx as [<- | Hx]; [lia|]. specialize (IH b' H2 x Hx). lia.
Qed.

Lemma rep_decode_after block bs cp acc :
  (forall x, In x bs -> cp < x) -> rep_decode_from block bs cp acc = acc.
Proof.
  revert block acc. induction bs as [|b bs IH]; intros block acc H; [reflexivity|].
  cbn [rep_decode_from]. rewrite IH by (intros; apply H; right; assumption).
  specialize (H b (or_introl eq_refl)). destruct (Z.leb_spec b cp); [lia|reflexivity].
Qed.

Lemma rep_decode_nth bs : forall block j off acc,
  blocks_ok bs = true -> (j < length bs)%nat -> 0 <= off < 32 ->
  rep_decode_from block bs (nth j bs 0 + off) acc = 32 * (block + Z.of_nat j) + off.
Proof.
  induction bs as [|b bs IH]; intros block j off acc Hok Hj Hoff; [cbn in Hj; lia|].
  cbn [rep_decode_from]. destruct j as [|j]; cbn [nth].
  - rewrite rep_decode_after.
    + unfold block_size.
      destruct (Z.leb_spec b (b + off)), (Z.ltb_spec (b + off) (b + 32)); try lia; cbn [andb]; lia.
    + intros x Hx. pose proof (blocks_ok_ge b bs Hok x Hx). lia.
  - cbn in Hj. rewrite IH; [lia | | lia | assumption].
    cbn [blocks_ok] in Hok. destruct bs as [|b' bs]; [reflexivity|].
    apply andb_prop in Hok as [_ Hok]. exact Hok.
Qed.

Lemma fifteen_ok : blocks_ok fifteen_blocks = true. Proof. vm_compute. reflexivity. Qed.
Lemma seven_ok : blocks_ok seven_blocks = true. Proof. vm_compute. reflexivity. Qed.

(** Facts about the literal tables, by computation. *)
Lemma fifteen_facts :
  length fifteen_blocks = 1024%nat /\
  forall x, In x fifteen_blocks -> 0 < x /\ x + 32 < 65535 /\ x mod 32 = 0 /\ ~ In x seven_blocks.
Proof.
  split; [vm_compute; reflexivity|].
  assert (H : forallb (fun x => (0 <? x) && (x + 32 <? 65535) && (x mod 32 =? 0) &&
                      negb (existsb (Z.eqb x) seven_blocks)) fifteen_blocks = true)
    by (vm_compute; reflexivity).
  rewrite forallb_forall in H. intros x Hx. specialize (H x Hx).
  apply andb_prop in H as [H H4]. apply andb_prop in H as [H H3]. apply andb_prop in H as [H1 H2].
  apply Z.ltb_lt in H1, H2. apply Z.eqb_eq in H3. repeat split; try assumption.
  intros Hin. apply negb_true_iff in H4.
  assert (existsb (Z.eqb x) seven_blocks = true)
    by (apply existsb_exists; exists x; split; [assumption | apply Z.eqb_refl]).
  congruence.
Qed.

Lemma seven_facts :
  length seven_blocks = 4%nat /\
  forall x, In x seven_blocks -> 0 < x /\ x + 32 < 65535 /\ x mod 32 = 0.
Proof.
  split; [reflexivity|]. intros x Hx. cbn in Hx.
  repeat (destruct Hx as [<-|Hx]; [repeat split; reflexivity|]). destruct Hx.
Qed.

Lemma in_nth_block bs k n : length bs = n -> 0 <= k < 32 * Z.of_nat n ->
  In (nth (Z.to_nat (k / 32)) bs 0) bs.
Proof. intros Hl Hk. apply nth_In. rewrite Hl. lia. Qed.

Lemma rep_round_trip bs n k : blocks_ok bs = true -> length bs = n ->
  (forall x, In x bs -> x + 32 < 65535) ->
  0 <= k < 32 * Z.of_nat n -> rep_decode bs (rep_encode bs k) = Some k.
Proof.
  intros Hok Hl Hhi Hk. unfold rep_decode, rep_encode, block_size.
  pose proof (Hhi _ (in_nth_block bs k n Hl Hk)).
  destruct (Z.ltb_spec (nth (Z.to_nat (k / 32)) bs 0 + k mod 32) 65535); [|lia].
  f_equal. rewrite rep_decode_nth; [| assumption | lia | lia ]. lia.
Qed.

Lemma rep15 k : 0 <= k < 32768 -> rep_decode fifteen_blocks (rep_encode fifteen_blocks k) = Some k.
Proof.
  destruct fifteen_facts as [Hl Hf]. intros. apply rep_round_trip with (n := 1024%nat);
    [apply fifteen_ok | exact Hl | intros x Hx; apply Hf; exact Hx | lia].
Qed.
Lemma rep7 k : 0 <= k < 128 -> rep_decode seven_blocks (rep_encode seven_blocks k) = Some k.
Proof.
  destruct seven_facts as [Hl Hf]. intros. apply rep_round_trip with (n := 4%nat);
    [apply seven_ok | exact Hl | intros x Hx; apply Hf; exact Hx | lia].
Qed.

Lemma can_encode_iff bs k n : length bs = n -> (forall x, In x bs -> x mod 32 = 0) ->
  0 <= k < 32 * Z.of_nat n ->
  rep_encode bs k - rep_encode bs k mod 32 = nth (Z.to_nat (k / 32)) bs 0.
Proof.
  intros Hl Hm Hk. unfold rep_encode, block_size.
  pose proof (Hm _ (in_nth_block bs k n Hl Hk)). lia.
Qed.

Lemma can15 k : 0 <= k < 32768 -> CanEncode seven_blocks (rep_encode fifteen_blocks k) = false.
Proof.
  intros Hk. unfold CanEncode, block_size. destruct fifteen_facts as [Hl Hf].
  rewrite (can_encode_iff _ k 1024) by (try exact Hl; try lia; intros; apply Hf; assumption).
  destruct (existsb _ _) eqn:E; [|reflexivity].
  apply existsb_exists in E as (x & Hx & Heq). apply Z.eqb_eq in Heq. subst x.
  exfalso. eapply Hf; [|exact Hx]. apply (in_nth_block _ k 1024); [exact Hl | lia].
Qed.
Lemma can7 k : 0 <= k < 128 -> CanEncode seven_blocks (rep_encode seven_blocks k) = true.
Proof.
  intros Hk. unfold CanEncode, block_size. destruct seven_facts as [Hl Hf].
  rewrite (can_encode_iff _ k 4) by (try exact Hl; try lia; intros; apply Hf; assumption).
  apply existsb_exists. eexists; split; [|apply Z.eqb_refl]. apply (in_nth_block _ k 4); [exact Hl | lia].
Qed.

(** Bit manipulation in arithmetic form. *)
Lemma window data w s : 0 <= w -> 0 <= s ->
  Z.shiftr (Z.land data (Z.shiftl (Z.shiftl 1 w - 1) s)) s = (data / 2 ^ s) mod 2 ^ w.
Proof.
  intros Hw Hs. rewrite Z.shiftr_land, Z.shiftr_shiftl_l, Z.sub_diag, Z.shiftl_0_r by lia.
  rewrite Z.shiftl_1_l.
  replace (2 ^ w - 1) with (Z.ones w) by (rewrite Z.ones_equiv; lia).
  rewrite Z.land_ones by lia. rewrite Z.shiftr_div_pow2 by lia. reflexivity.
Qed.

Lemma lor_add a b k : 0 <= k -> 0 <= b < 2 ^ k -> a mod 2 ^ k = 0 -> Z.lor a b = a + b.
Proof.
  intros Hk Hb Ha. rewrite Z.lor_comm.
  enough (E : Z.land b a = 0)
    by (rewrite <- Z.lxor_lor by exact E; rewrite <- Z.add_nocarry_lxor by exact E; lia).
  apply Z.bits_inj'. intros i Hi. rewrite Z.land_spec, Z.bits_0.
  destruct (Z.lt_ge_cases i k).
  - rewrite <- (Z.mod_pow2_bits_low a k i) by lia. rewrite Ha, Z.bits_0. apply andb_false_r.
  - replace (Z.testbit b i) with false; [reflexivity|]. symmetry.
    destruct (Z.eq_dec b 0) as [->|Hb0]; [apply Z.bits_0|].
    apply Z.bits_above_log2; [lia|].
    apply Z.lt_le_trans with k; [|lia]. apply Z.log2_lt_pow2; lia.
Qed.

Lemma land_255 x : Z.land x (Z.shiftl 1 8 - 1) = x mod 256.
Proof. change (Z.shiftl 1 8 - 1) with (Z.ones 8). rewrite Z.land_ones by lia. reflexivity. Qed.

Lemma data3 b0 b1 b2 : is_byte b0 -> is_byte b1 -> is_byte b2 ->
  Z.lor (Z.lor (Z.shiftl b0 (2 * 8)) (Z.shiftl b1 8)) b2 = 65536 * b0 + 256 * b1 + b2.
Proof.
  unfold is_byte; intros. rewrite !Z.shiftl_mul_pow2 by lia.
  rewrite (lor_add (b0 * _) _ 16) by lia. rewrite (lor_add _ _ 8) by lia. lia.
Qed.
Lemma data2 b0 b1 : is_byte b0 -> is_byte b1 ->
  Z.lor (Z.lor (Z.shiftl b0 (2 * 8)) (Z.shiftl b1 8)) (Z.shiftl 1 8 - 1) = 65536 * b0 + 256 * b1 + 255.
Proof. intros. apply data3; try assumption. unfold is_byte; cbn; lia. Qed.
Lemma data1 b0 : is_byte b0 ->
  Z.lor (Z.shiftl b0 (2 * 8)) (Z.shiftl 1 (2 * 8) - 1) = 65536 * b0 + 65535.
Proof.
  unfold is_byte; intros. rewrite Z.shiftl_mul_pow2 by lia.
  change (Z.shiftl 1 (2 * 8) - 1) with 65535. rewrite (lor_add _ _ 16) by lia. lia.
Qed.

(** The 24-bit window from which a step of the encoder extracts its code point. *)
Definition window24 (s : list Z) : Z :=
  match s with
  | b0 :: b1 :: b2 :: _ => 65536 * b0 + 256 * b1 + b2
  | [b0; b1] => 65536 * b0 + 256 * b1 + 255
  | [b0] => 65536 * b0 + 65535
  | [] => 0
  end.
Definition is_final (s : list Z) (idx : Z) : bool :=
  match s with [_] => 0 <? idx | _ => false end.
Definition code15 (s : list Z) (idx : Z) : Z := (window24 s / 2 ^ (9 - idx)) mod 32768.
Definition code7 (s : list Z) (idx : Z) : Z := (window24 s / 2 ^ (17 - idx)) mod 128.

Lemma encode_step fuel s idx : s <> [] -> Forall is_byte s -> 0 <= idx < 8 ->
  encode_loop (S fuel) s idx =
  match encode_loop fuel (skipn (Z.to_nat ((idx + 15) / 8)) s) ((idx + 15) mod 8) with
  | Some l => Some ((if is_final s idx then rep_encode seven_blocks (code7 s idx)
                     else rep_encode fifteen_blocks (code15 s idx)) :: l)
  | None => None
  end.
Proof.
  intros Hne Hs Hidx. destruct s as [|b0 tl]; [congruence|].
  inversion Hs as [|? ? Hb0 Htl]; subst.
  assert (Hc15 : forall d, negb ((0 <=? (d / 2 ^ (9 - idx)) mod 2 ^ 15) &&
                          ((d / 2 ^ (9 - idx)) mod 2 ^ 15 <? Z.shiftl 1 15)) = false).
  { intros d. apply negb_false_iff, andb_true_iff. rewrite Z.leb_le, Z.ltb_lt, Z.shiftl_1_l.
    apply Z.mod_pos_bound. reflexivity. }
  assert (Hc7 : forall d, negb ((0 <=? (d / 2 ^ (17 - idx)) mod 2 ^ 7) &&
                          ((d / 2 ^ (17 - idx)) mod 2 ^ 7 <? Z.shiftl 1 15)) = false).
  { intros d. apply negb_false_iff, andb_true_iff. rewrite Z.leb_le, Z.ltb_lt, Z.shiftl_1_l.
    assert (0 <= (d / 2 ^ (17 - idx)) mod 2 ^ 7 < 2 ^ 7) by (apply Z.mod_pos_bound; reflexivity).
    assert (2 ^ 7 < 2 ^ 15) by reflexivity. lia. }
  cbn [encode_loop]. unfold bytes_per_code_point, bits_per_byte, bits_per_code_point, bits_per_final_code_point.
  replace (3 * 8 - 15 - idx) with (9 - idx) by lia. replace (3 * 8 - 7 - idx) with (17 - idx) by lia.
  unfold is_final, code15, code7.
  destruct tl as [|b1 [|b2 tl]].
  - rewrite data1 by assumption. destruct (0 <? idx).
    + rewrite window by lia. rewrite Hc7. reflexivity.
    + rewrite window by lia. rewrite Hc15. reflexivity.
  - inversion Htl; subst. rewrite data2 by assumption.
    rewrite window by lia. rewrite Hc15. reflexivity.
  - inversion Htl as [|? ? ? Htl']; subst. inversion Htl'; subst. rewrite data3 by assumption.
    rewrite window by lia. rewrite Hc15. reflexivity.
Qed.

Definition decode_store (shift data : Z) (idx : Z) (o0 : Z) (tl : list Z) : list Z :=
  ((if idx =? 0 then data / 65536 else Z.lor o0 (data / 65536)) mod 256) ::
  (if shift <? 16 then
     match tl with
     | [] => []
     | _ :: tl2 => (data / 256) mod 256 ::
        (if shift <? 8 then match tl2 with [] => [] | _ :: tl3 => data mod 256 :: tl3 end else tl2)
     end
   else tl).

Lemma decode_step15 k codes idx o0 tl : 0 <= k < 32768 -> 0 <= idx < 8 ->
  decode_loop (rep_encode fifteen_blocks k :: codes) idx (o0 :: tl) =
  let out := decode_store (9 - idx) (k * 2 ^ (9 - idx)) idx o0 tl in
  match decode_loop codes ((idx + 15) mod 8) (skipn (Z.to_nat ((idx + 15) / 8)) out) with
  | Some r => Some (firstn (Z.to_nat ((idx + 15) / 8)) out ++ r)
  | None => None
  end.
Proof.
  intros Hk Hidx. cbn [decode_loop]. rewrite can15 by assumption. rewrite andb_false_r.
  rewrite rep15 by assumption.
  unfold bytes_per_code_point, bits_per_byte, bits_per_code_point, bits_per_final_code_point.
  replace (3 * 8 - 15 - idx) with (9 - idx) by lia.
  change (2 * 8) with 16. rewrite !land_255.
  rewrite (Z.shiftl_mul_pow2 k) by lia. rewrite !Z.shiftr_div_pow2 by lia. reflexivity.
Qed.

Lemma decode_step7 k idx o0 tl : 0 <= k < 128 -> 0 <= idx < 8 ->
  decode_loop [rep_encode seven_blocks k] idx (o0 :: tl) =
  Some (decode_store (17 - idx) (k * 2 ^ (17 - idx)) idx o0 tl).
Proof.
  intros Hk Hidx. cbn [decode_loop]. rewrite can7 by assumption. cbn [andb].
  rewrite rep7 by assumption.
  unfold bytes_per_code_point, bits_per_byte, bits_per_code_point, bits_per_final_code_point.
  replace (3 * 8 - 7 - idx) with (17 - idx) by lia.
  change (2 * 8) with 16. rewrite !land_255.
  rewrite (Z.shiftl_mul_pow2 k) by lia. rewrite !Z.shiftr_div_pow2 by lia.
  rewrite firstn_skipn. reflexivity.
Qed.

(** The bits of the first byte that the encoder has already consumed, as found in the output. *)
Definition top_bits (idx b : Z) : Z := b / 2 ^ (8 - idx) * 2 ^ (8 - idx).

Lemma window24_range s : Forall is_byte s -> 0 <= window24 s < 16777216.
Proof.
  unfold is_byte. intros Hs. destruct s as [|b0 [|b1 [|b2 s]]]; cbn [window24];
  repeat match goal with H : Forall _ (_ :: _) |- _ => inversion H; clear H; subst end; lia.
Qed.

Ltac idx_cases idx :=
  let H := fresh in
  assert (idx = 0 \/ idx = 1 \/ idx = 2 \/ idx = 3 \/ idx = 4 \/ idx = 5 \/ idx = 6 \/ idx = 7) as H by lia;
  destruct H as [->|[->|[->|[->|[->|[->|[->| ->]]]]]]].

(** First byte of the output after a 15-bit step. *)
Lemma first_byte s b0 tl idx o0 : s = b0 :: tl -> Forall is_byte s -> 0 <= idx < 8 ->
  (0 < idx -> o0 = top_bits idx b0) -> is_final s idx = false ->
  (if idx =? 0 then code15 s idx * 2 ^ (9 - idx) / 65536
   else Z.lor o0 (code15 s idx * 2 ^ (9 - idx) / 65536)) mod 256 = b0.
Proof.
  intros E Hs Hidx Ho Hfin. subst s.
  assert (Hw : window24 (b0 :: tl) / 65536 = b0 /\ 0 <= b0 < 256 /\ 0 <= window24 (b0 :: tl)).
  { pose proof (window24_range _ Hs).
    destruct tl as [|b1 [|b2 tl]]; cbn [window24] in *;
    repeat match goal with H : Forall _ (_ :: _) |- _ => inversion H; clear H; subst end;
    unfold is_byte in *; lia. }
  destruct Hw as (Hw & Hb & Hw0). unfold code15. set (w := window24 (b0 :: tl)) in *. clearbody w.
  unfold top_bits in Ho.
  idx_cases idx; cbn [Z.eqb]; try specialize (Ho ltac:(lia));
  match goal with |- context [2 ^ (9 - ?i)] => let v := eval compute in (2 ^ (9 - i)) in change (2 ^ (9 - i)) with v end;
  try (rewrite Ho;
  match goal with |- context [2 ^ (8 - ?i)] => let v := eval compute in (2 ^ (8 - i)) in change (2 ^ (8 - i)) with v end).
  - lia.
  - rewrite (lor_add _ _ 7) by lia. lia.
  - rewrite (lor_add _ _ 6) by lia. lia.
  - rewrite (lor_add _ _ 5) by lia. lia.
  - rewrite (lor_add _ _ 4) by lia. lia.
  - rewrite (lor_add _ _ 3) by lia. lia.
  - rewrite (lor_add _ _ 2) by lia. lia.
  - rewrite (lor_add _ _ 1) by lia. lia.
Qed.

Lemma first_byte7 b0 idx o0 : is_byte b0 -> 0 < idx < 8 -> o0 = top_bits idx b0 ->
  Z.lor o0 (code7 [b0] idx * 2 ^ (17 - idx) / 65536) mod 256 = b0.
Proof.
  intros Hb Hidx Ho. unfold code7, top_bits, is_byte in *. cbn [window24]. subst o0.
  idx_cases idx; try lia;
  match goal with |- context [2 ^ (17 - ?i)] => let v := eval compute in (2 ^ (17 - i)) in change (2 ^ (17 - i)) with v end;
  match goal with |- context [2 ^ (8 - ?i)] => let v := eval compute in (2 ^ (8 - i)) in change (2 ^ (8 - i)) with v end.
  - rewrite (lor_add _ _ 7) by lia. lia.
  - rewrite (lor_add _ _ 6) by lia. lia.
  - rewrite (lor_add _ _ 5) by lia. lia.
  - rewrite (lor_add _ _ 4) by lia. lia.
  - rewrite (lor_add _ _ 3) by lia. lia.
  - rewrite (lor_add _ _ 2) by lia. lia.
  - rewrite (lor_add _ _ 1) by lia. lia.
Qed.

Lemma code15_range s idx : 0 <= code15 s idx < 32768.
Proof. apply Z.mod_pos_bound. reflexivity. Qed.
Lemma code7_range s idx : 0 <= code7 s idx < 128.
Proof. apply Z.mod_pos_bound. reflexivity. Qed.

(** Second and third bytes. *)
Lemma second_byte s b0 b1 tl idx : s = b0 :: b1 :: tl -> Forall is_byte s -> 0 <= idx < 8 ->
  (code15 s idx * 2 ^ (9 - idx) / 256) mod 256 = if idx =? 0 then top_bits 7 b1 else b1.
Proof.
  intros E Hs Hidx. subst s.
  assert (Hw : (window24 (b0 :: b1 :: tl) / 256) mod 256 = b1 /\ 0 <= b1 < 256 /\ 0 <= window24 (b0 :: b1 :: tl)).
  { pose proof (window24_range _ Hs).
    destruct tl as [|b2 tl]; cbn [window24] in *;
    repeat match goal with H : Forall _ (_ :: _) |- _ => inversion H; clear H; subst end;
    unfold is_byte in *; lia. }
  destruct Hw as (Hw & Hb & Hw0). unfold code15. set (w := window24 (b0 :: b1 :: tl)) in *. clearbody w.
  unfold top_bits. change (2 ^ (8 - 7)) with 2.
  idx_cases idx; cbn [Z.eqb];
  match goal with |- context [2 ^ (9 - ?i)] => let v := eval compute in (2 ^ (9 - i)) in change (2 ^ (9 - i)) with v end; lia.
Qed.

Lemma third_byte s b0 b1 b2 tl idx : s = b0 :: b1 :: b2 :: tl -> Forall is_byte s -> 2 <= idx < 8 ->
  (code15 s idx * 2 ^ (9 - idx)) mod 256 = top_bits (idx - 1) b2.
Proof.
  intros E Hs Hidx. subst s.
  repeat match goal with H : Forall _ (_ :: _) |- _ => inversion H; clear H; subst end.
  unfold code15, window24, top_bits, is_byte in *.
  idx_cases idx; try lia;
  match goal with |- context [2 ^ (9 - ?i)] => let v := eval compute in (2 ^ (9 - i)) in change (2 ^ (9 - i)) with v end;
  match goal with |- context [2 ^ (8 - ?i)] => let v := eval compute in (2 ^ (8 - i)) in change (2 ^ (8 - i)) with v end; lia.
Qed.

Lemma loop_round_trip : forall fuel s idx codes out,
  Forall is_byte s -> 0 <= idx < 8 ->
  encode_loop fuel s idx = Some codes ->
  length out = length s ->
  (0 < idx -> match s, out with b0 :: _, o0 :: _ => o0 = top_bits idx b0 | _, _ => True end) ->
  decode_loop codes idx out = Some s.
Proof.
  induction fuel as [|fuel IH]; intros s idx codes out Hs Hidx He Hlen Hpart.
  - destruct s as [|b0 tl]; cbn in He; [|discriminate]. injection He as <-.
    destruct out; [reflexivity | discriminate].
  - destruct s as [|b0 tl].
    { cbn in He. injection He as <-. destruct out; [reflexivity | discriminate]. }
    rewrite encode_step in He by (try assumption; discriminate).
    destruct out as [|o0 otl]; [discriminate|].
    destruct (encode_loop fuel _ _) as [codes'|] eqn:He'; [|discriminate].
    apply (f_equal (fun o => match o with Some l => l | None => [] end)) in He; cbv beta iota in He; subst codes.
    destruct (is_final (b0 :: tl) idx) eqn:Hfin.
    + destruct tl; [|discriminate]. cbn in Hfin. apply Z.ltb_lt in Hfin.
      destruct otl; [|discriminate].
      assert (codes' = []) as ->.
      { assert (skipn (Z.to_nat ((idx + 15) / 8)) [b0] = []) as E.
          { destruct (Z.to_nat ((idx + 15) / 8)) eqn:?; [lia|]. cbn. apply skipn_nil. }
          rewrite E in He'. destruct fuel; cbn in He'; congruence. }
      rewrite decode_step7 by (try apply code7_range; lia).
      unfold decode_store.
      destruct (Z.eqb_spec idx 0); [lia|].
      rewrite first_byte7; [| inversion Hs; assumption | lia | apply Hpart; lia ].
      destruct (17 - idx <? 16); reflexivity.
    + rewrite decode_step15 by (try apply code15_range; lia).
      cbv zeta. unfold decode_store.
      rewrite (first_byte _ b0 tl idx o0 eq_refl Hs Hidx); [| exact Hpart | exact Hfin].
      destruct (Z.ltb_spec (9 - idx) 16); [|lia].
      destruct tl as [|b1 tl].
      * destruct otl; [|discriminate]. cbn in Hfin. apply Z.ltb_ge in Hfin.
        assert (idx = 0) by lia; subst idx.
        change (Z.to_nat ((0 + 15) / 8)) with 1%nat in *. change ((0 + 15) mod 8) with 7 in *.
        cbn [skipn firstn] in *.
        rewrite (IH [] 7 codes' []); [reflexivity | constructor | lia | exact He' | reflexivity | auto].
      * destruct otl as [|o1 otl]; [discriminate|].
        rewrite (second_byte _ b0 b1 tl idx eq_refl Hs Hidx).
        destruct (Z.eqb_spec idx 0) as [->|Hidx0].
        -- change (Z.to_nat ((0 + 15) / 8)) with 1%nat in *. change ((0 + 15) mod 8) with 7 in *.
           change (9 - 0 <? 8) with false. cbn [skipn firstn] in *. cbv iota.
           rewrite (IH (b1 :: tl) 7 codes' (top_bits 7 b1 :: otl));
             [reflexivity | inversion Hs; assumption | lia | exact He' | cbn in *; lia | auto].
        -- replace (Z.to_nat ((idx + 15) / 8)) with 2%nat in * by lia.
           replace ((idx + 15) mod 8) with (idx - 1) in * by lia.
           assert (Htl : Forall is_byte tl) by (inversion Hs as [|? ? ? Ht]; inversion Ht; assumption).
           destruct (Z.ltb_spec (9 - idx) 8).
           ++ destruct tl as [|b2 tl].
              ** destruct otl; [|discriminate]. cbn [skipn firstn] in *.
                 rewrite (IH [] (idx - 1) codes' []); [reflexivity | constructor | lia | exact He' | reflexivity | auto].
              ** destruct otl as [|o2 otl]; [discriminate|].
                 rewrite (third_byte _ b0 b1 b2 tl idx eq_refl Hs) by lia.
                 cbn [skipn firstn] in *.
                 rewrite (IH (b2 :: tl) (idx - 1) codes' (top_bits (idx - 1) b2 :: otl));
                   [reflexivity | assumption | lia | exact He' | cbn in *; lia | auto].
           ++ assert (idx = 1) by lia; subst idx. cbn [skipn firstn] in *.
              rewrite (IH tl (1 - 1) codes' otl);
                [reflexivity | assumption | lia | exact He' | cbn in *; lia | lia].
Qed.

(** The encoder always succeeds. *)
Lemma encode_total : forall fuel s idx, (length s <= fuel)%nat -> Forall is_byte s -> 0 <= idx < 8 ->
  exists codes, encode_loop fuel s idx = Some codes.
Proof.
  induction fuel as [|fuel IH]; intros s idx Hl Hs Hidx.
  - destruct s; [eexists; reflexivity | cbn in Hl; lia].
  - destruct s as [|b0 tl]; [eexists; reflexivity|].
    rewrite encode_step by (try assumption; discriminate).
    destruct (IH (skipn (Z.to_nat ((idx + 15) / 8)) (b0 :: tl)) ((idx + 15) mod 8)) as [codes' ->].
    + rewrite skipn_length. cbn [length] in *. lia.
    + rewrite Forall_forall in *. intros x Hx. apply Hs.
      rewrite <- (firstn_skipn (Z.to_nat ((idx + 15) / 8))). apply in_or_app. right. exact Hx.
    + lia.
    + eexists; reflexivity.
Qed.

(** Number of bits in a text, as computed by [DecodedLength]. *)
Definition text_bits (codes : list Z) : Z :=
  if (0 <? Z.of_nat (length codes)) && CanEncode seven_blocks (last codes 0)
  then (Z.of_nat (length codes) - 1) * 15 + 7 else Z.of_nat (length codes) * 15.

Lemma text_bits_cons c codes : codes <> [] -> text_bits (c :: codes) = 15 + text_bits codes.
Proof.
  intros H. unfold text_bits. destruct codes as [|c' codes]; [congruence|].
  change (last (c :: c' :: codes) 0) with (last (c' :: codes) 0). cbn [length].
  destruct (Z.ltb_spec 0 (Z.of_nat (S (S (length codes))))), (Z.ltb_spec 0 (Z.of_nat (S (length codes)))); try lia.
  cbn [andb]. destruct (CanEncode _ _); lia.
Qed.

Lemma encode_lengths : forall fuel s idx codes,
  Forall is_byte s -> 0 <= idx < 8 -> encode_loop fuel s idx = Some codes ->
  (s = [] -> codes = []) /\
  (s <> [] -> codes <> [] /\ (idx + text_bits codes) / 8 = Z.of_nat (length s) /\
     Z.of_nat (length codes) = (8 * Z.of_nat (length s) - idx + 14) / 15) /\
  Forall (fun c => (exists k, 0 <= k < 32768 /\ c = rep_encode fifteen_blocks k) \/
                   (exists k, 0 <= k < 128 /\ c = rep_encode seven_blocks k)) codes.
Proof.
  induction fuel as [|fuel IH]; intros s idx codes Hs Hidx He.
  - destruct s as [|b0 tl]; cbn in He; [|discriminate]. injection He as <-.
    repeat split; try congruence. constructor.
  - destruct s as [|b0 tl].
    { cbn in He. injection He as <-. repeat split; try congruence. constructor. }
    split; [discriminate|].
    rewrite encode_step in He by (try assumption; discriminate).
    destruct (encode_loop fuel _ _) as [codes'|] eqn:He'; [|discriminate].
    apply (f_equal (fun o => match o with Some l => l | None => [] end)) in He; cbv beta iota in He; subst codes.
    set (adv := Z.to_nat ((idx + 15) / 8)) in *.
    assert (Hs' : Forall is_byte (skipn adv (b0 :: tl))).
    { rewrite Forall_forall in *. intros x Hx. apply Hs.
      rewrite <- (firstn_skipn adv). apply in_or_app. right. exact Hx. }
    assert (Hi : 0 <= (idx + 15) mod 8 < 8) by lia.
    specialize (IH _ _ _ Hs' Hi He'). destruct IH as (IH0 & IH1 & IH2).
    assert (Hlen : length (skipn adv (b0 :: tl)) = (S (length tl) - adv)%nat) by apply skipn_length.
    split; [|constructor; [|exact IH2]].
    2:{ destruct (is_final _ _); [right | left]; eexists; (split; [|reflexivity]).
        - apply code7_range.
        - apply code15_range. }
    intros _. split; [discriminate|].
    destruct (skipn adv (b0 :: tl)) as [|b' s'] eqn:Esk.
    + rewrite (IH0 eq_refl) in *. cbn [length] in Hlen. subst adv. unfold text_bits. cbn [length last].
      change (0 <? Z.of_nat 1) with true. cbn [andb].
      destruct (is_final (b0 :: tl) idx) eqn:Hfin.
      * rewrite can7 by apply code7_range. destruct tl; [|discriminate]. cbn in Hfin. apply Z.ltb_lt in Hfin.
        cbn [length]. split; lia.
      * rewrite can15 by apply code15_range.
        assert (0 <= idx < 8 /\ (length tl = 1%nat \/ (length tl = 0%nat /\ idx = 0))).
        { split; [lia|]. destruct tl as [|b1 tl].
          - right. cbn in Hfin. apply Z.ltb_ge in Hfin. lia.
          - left. cbn [length] in *. lia. }
        cbn [length]. split; lia.
    + destruct (IH1 ltac:(discriminate)) as (Hne & Hb & Hl).
      assert (Hfin : is_final (b0 :: tl) idx = false).
      { destruct tl; [|reflexivity]. exfalso. cbn [length] in Hlen. subst adv. lia. }
      rewrite Hfin. rewrite text_bits_cons by assumption. cbn [length] in *.
      subst adv. split; lia.
Qed.

Lemma Hz8 : 0 <= 0 < 8. Proof. lia. Qed.

Lemma encode_length_correct nt l codes : Forall is_byte l -> Encode nt l = Some codes ->
  Z.of_nat (length codes) = EncodedLength nt (Z.of_nat (length l)).
Proof.
  intros Hl He. unfold Encode in He. destruct (encode_loop _ _ _) as [c|] eqn:E; [|discriminate].
  injection He as <-. pose proof (encode_lengths _ _ _ _ Hl Hz8 E) as (H0 & H1 & _).
  unfold EncodedLength, bits_per_byte, bits_per_code_point. rewrite app_length.
  destruct l as [|b l].
  - rewrite (H0 eq_refl). destruct nt; reflexivity.
  - destruct (H1 ltac:(discriminate)) as (_ & _ & Hlen).
    destruct nt; cbn [length] in *; lia.
Qed.

Lemma decoded_length_correct l codes : Forall is_byte l -> Encode false l = Some codes ->
  DecodedLength codes = Z.of_nat (length l).
Proof.
  intros Hl He. unfold Encode in He. destruct (encode_loop _ _ _) as [c|] eqn:E; [|discriminate].
  rewrite app_nil_r in He. injection He as <-.
  pose proof (encode_lengths _ _ _ _ Hl Hz8 E) as (H0 & H1 & _).
  unfold DecodedLength, bits_per_byte, bits_per_code_point, bits_per_final_code_point.
  fold (text_bits c).
  destruct l as [|b l].
  - rewrite (H0 eq_refl). reflexivity.
  - destruct (H1 ltac:(discriminate)) as (_ & Hb & _). rewrite <- Hb. f_equal.
Qed.

Lemma encode_succeeds nt l : Forall is_byte l -> exists codes, Encode nt l = Some codes.
Proof.
  intros Hl. destruct (encode_total (length l) l 0) as [c Hc]; try assumption; try lia.
  unfold Encode. rewrite Hc. eexists; reflexivity.
Qed.

Lemma base32768_round_trip junk l codes : Forall is_byte l -> Encode false l = Some codes ->
  Decode junk codes = Some l.
Proof.
  intros Hl He. pose proof (decoded_length_correct l codes Hl He) as Hd.
  unfold Decode. rewrite Hd.
  unfold Encode in He. destruct (encode_loop _ _ _) as [c|] eqn:E; [|discriminate].
  rewrite app_nil_r in He. injection He as <-.
  destruct (Z.ltb_spec 0 (Z.of_nat (length l))).
  - apply (loop_round_trip _ _ _ _ _ Hl Hz8 E).
    + rewrite map_length, seq_length. lia.
    + lia.
  - destruct l; [reflexivity | cbn in *; lia].
Qed.

Definition in_repertoire (c : Z) : Prop :=
  exists b, (In b fifteen_blocks \/ In b seven_blocks) /\ b <= c < b + 32.

Lemma encode_alphabet l codes : Forall is_byte l -> Encode false l = Some codes -> Forall in_repertoire codes.
Proof.
  intros Hl He. unfold Encode in He. destruct (encode_loop _ _ _) as [c|] eqn:E; [|discriminate].
  rewrite app_nil_r in He. injection He as <-.
  pose proof (encode_lengths _ _ _ _ Hl Hz8 E) as (_ & _ & H).
  eapply Forall_impl; [|exact H]. cbv beta. intros x [(k & Hk & ->)|(k & Hk & ->)].
  - exists (nth (Z.to_nat (k / 32)) fifteen_blocks 0). unfold rep_encode, block_size. split; [|lia].
    left. apply (in_nth_block _ k 1024); [apply fifteen_facts | lia].
  - exists (nth (Z.to_nat (k / 32)) seven_blocks 0). unfold rep_encode, block_size. split; [|lia].
    right. apply (in_nth_block _ k 4); [apply seven_facts | lia].
Qed.

Lemma null_terminated_not_round_trip :
  exists l codes, Forall is_byte l /\ Encode true l = Some codes /\
    forall junk, Decode junk codes <> Some l.
Proof.
  exists []. eexists. split; [constructor|]. split; [reflexivity|].
  intros junk. vm_compute. discriminate.
Qed.

(** Malformed text: eight 15-bit code points followed by a 7-bit one write past the end; U+FFFF reads past the
    end of the decoding cache. *)
Lemma malformed_out_of_bounds junk :
  Decode junk (repeat 0x4A0 8 ++ [0x180]) = None /\ Decode junk [0xFFFF] = None.
Proof. split; vm_compute; reflexivity. Qed.
