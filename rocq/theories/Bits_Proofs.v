(** Specifications and proofs for base/bits_body.hpp. *)
From Coq Require Import ZArith List Lia.
From Verif Require Import Bits_Model.
Import ListNotations.
Open Scope Z_scope.
Ltac Zify.zify_post_hook ::= Z.div_mod_to_equations.

(** Independent specification: reversal of the [b] low bits of [n]. *)
Fixpoint rev (b : nat) (n : Z) : Z :=
  match b with
  | O => 0
  | S b' => (n mod 2) * 2 ^ Z.of_nat b' + rev b' (n / 2)
  end.

Lemma pow2_pos (b : nat) : 0 < 2 ^ Z.of_nat b.
Proof. apply Z.pow_pos_nonneg; lia. Qed.

Lemma pow2_S (b : nat) : 2 ^ Z.of_nat (S b) = 2 * 2 ^ Z.of_nat b.
Proof. rewrite Nat2Z.inj_succ, Z.pow_succ_r; lia. Qed.

Lemma rev_range (b : nat) (n : Z) : 0 <= rev b n < 2 ^ Z.of_nat b.
Proof.
  revert n; induction b as [|b IH]; intros n.
  - simpl; lia.
  - cbn [rev]. specialize (IH (n / 2)). rewrite pow2_S. pose proof (pow2_pos b).
    assert (0 <= n mod 2 < 2) by (apply Z.mod_pos_bound; lia). nia.
Qed.

(** Peeling from the top. *)
Lemma rev_top (b : nat) (t n : Z) :
  0 <= n < 2 ^ Z.of_nat b -> (t = 0 \/ t = 1) ->
  rev (S b) (t * 2 ^ Z.of_nat b + n) = t + 2 * rev b n.
Proof.
  revert n; induction b as [|b IH]; intros n Hn Ht.
  - simpl in *. assert (n = 0) by lia; subst n.
    destruct Ht; subst t; reflexivity.
  - rewrite pow2_S in Hn. pose proof (pow2_pos b) as Hp.
    remember (S b) as b1. cbn [rev]. subst b1.
    set (P := 2 ^ Z.of_nat b) in *.
    assert (E1 : (t * 2 ^ Z.of_nat (S b) + n) mod 2 = n mod 2).
    { rewrite pow2_S. replace (t * (2 * 2 ^ Z.of_nat b) + n) with (n + t * 2 ^ Z.of_nat b * 2) by ring.
      apply Z.mod_add; lia. }
    assert (E2 : (t * 2 ^ Z.of_nat (S b) + n) / 2 = t * P + n / 2).
    { rewrite pow2_S. replace (t * (2 * 2 ^ Z.of_nat b) + n) with (n + t * P * 2) by (unfold P; ring).
      rewrite Z.div_add by lia. lia. }
    rewrite E1, E2, IH by (try assumption; lia).
    cbn [rev]. rewrite pow2_S. fold P. ring.
Qed.

Lemma rev_involutive (b : nat) (n : Z) : 0 <= n < 2 ^ Z.of_nat b -> rev b (rev b n) = n.
Proof.
  revert n; induction b as [|b IH]; intros n Hn.
  - simpl in *. lia.
  - rewrite pow2_S in Hn.
    change (rev (S b) n) with ((n mod 2) * 2 ^ Z.of_nat b + rev b (n / 2)).
    rewrite rev_top; [| apply rev_range | lia].
    rewrite IH by (pose proof (pow2_pos b); lia). lia.
Qed.

Lemma lxor_pow2 (j : nat) (x : Z) :
  0 <= x < 2 ^ Z.of_nat (S j) ->
  Z.lxor x (2 ^ Z.of_nat j) = if x <? 2 ^ Z.of_nat j then x + 2 ^ Z.of_nat j else x - 2 ^ Z.of_nat j.
Proof.
  intros Hx. rewrite pow2_S in Hx. pose proof (pow2_pos j) as Hp.
  destruct (Z.ltb_spec x (2 ^ Z.of_nat j)).
  - symmetry; apply Z.add_nocarry_lxor.
    apply Z.bits_inj'; intros k Hk. rewrite Z.land_spec, Z.bits_0.
    destruct (Z.eq_dec k (Z.of_nat j)) as [->|Hne].
    + replace (Z.testbit x (Z.of_nat j)) with false; [reflexivity|].
      symmetry. rewrite Z.testbit_false by lia. rewrite Z.div_small by lia. reflexivity.
    + rewrite Z.pow2_bits_false by lia. apply Bool.andb_false_r.
  - assert (E : x = Z.lxor (x - 2 ^ Z.of_nat j) (2 ^ Z.of_nat j)).
    { rewrite <- Z.add_nocarry_lxor; [lia|].
      apply Z.bits_inj'; intros k Hk. rewrite Z.land_spec, Z.bits_0.
      destruct (Z.eq_dec k (Z.of_nat j)) as [->|Hne].
      + replace (Z.testbit (x - 2 ^ Z.of_nat j) (Z.of_nat j)) with false; [reflexivity|].
        symmetry. rewrite Z.testbit_false by lia. rewrite Z.div_small by lia. reflexivity.
      + rewrite Z.pow2_bits_false by lia. apply Bool.andb_false_r. }
    rewrite E at 1. rewrite Z.lxor_assoc, Z.lxor_nilpotent, Z.lxor_0_r. reflexivity.
Qed.

Lemma shiftr_pow2 (j : nat) : Z.shiftr (2 ^ Z.of_nat (S j)) 1 = 2 ^ Z.of_nat j.
Proof.
  rewrite Z.shiftr_div_pow2 by lia. rewrite pow2_S, Z.pow_1_r, Z.mul_comm, Z.div_mul; lia.
Qed.

(** One full pass: flip bit [j]; if the result is below the mask go on with the loop. *)
Definition pass (j : nat) (x : Z) (fuel : nat) : option Z :=
  let x' := Z.lxor x (2 ^ Z.of_nat j) in
  if x' <? 2 ^ Z.of_nat j then bri_loop fuel (2 ^ Z.of_nat j) x' else Some x'.

Lemma pass_spec (j : nat) : forall x fuel,
  0 <= x < 2 ^ Z.of_nat (S j) -> (S j <= fuel)%nat ->
  exists y, pass j x fuel = Some y /\ 0 <= y < 2 ^ Z.of_nat (S j) /\
            rev (S j) y = (rev (S j) x + 1) mod 2 ^ Z.of_nat (S j).
Proof.
  induction j as [|j IH]; intros x fuel Hx Hf.
  - change (2 ^ Z.of_nat 1) with 2 in *.
    assert (x = 0 \/ x = 1) as [-> | ->] by lia; unfold pass; cbn.
    + eexists; split; [reflexivity|]. cbn; lia.
    + destruct fuel as [|fuel]; [lia|]. cbn. eexists; split; [reflexivity|]. cbn; lia.
  - unfold pass. rewrite lxor_pow2 by assumption.
    set (P := 2 ^ Z.of_nat (S j)) in *.
    assert (HP : 0 < P) by apply pow2_pos.
    rewrite pow2_S in Hx |- *. fold P in Hx |- *.
    assert (Htop : forall t n, 0 <= n < P -> (t = 0 \/ t = 1) ->
              rev (S (S j)) (t * P + n) = t + 2 * rev (S j) n)
      by (intros; unfold P; apply rev_top; assumption).
    destruct (Z.ltb_spec x P) as [Hlt|Hge].
    + destruct (Z.ltb_spec (x + P) P); [lia|].
      exists (x + P); split; [reflexivity|]; split; [lia|].
      replace (x + P) with (1 * P + x) by ring. rewrite Htop by lia.
      replace x with (0 * P + x) at 2 by ring. rewrite Htop by lia.
      pose proof (rev_range (S j) x) as Hr. fold P in Hr.
      rewrite Z.mod_small by lia. lia.
    + destruct (Z.ltb_spec (x - P) P); [|lia].
      destruct fuel as [|fuel]; [lia|].
      cbn [bri_loop]. replace (Z.shiftr P 1) with (2 ^ Z.of_nat j) by (symmetry; apply shiftr_pow2).
      destruct (IH (x - P) fuel) as (y & Hy & Hyr & Hrev); [lia | lia |].
      unfold pass in Hy. exists y. split; [exact Hy|]. fold P in Hyr, Hrev. split; [lia|].
      replace y with (0 * P + y) at 1 by ring. rewrite Htop by lia.
      rewrite Hrev. replace x with (1 * P + (x - P)) at 2 by ring. rewrite Htop by lia.
      set (r := rev (S j) (x - P)).
      replace (1 + 2 * r + 1) with (2 * (r + 1)) by ring.
      rewrite Z.mul_mod_distr_l by lia. lia.
Qed.

(** Reversal of a left-aligned word. *)
Lemma rev_split (c : nat) : forall b h l, 0 <= l < 2 ^ Z.of_nat c ->
  rev (c + b) (h * 2 ^ Z.of_nat c + l) = rev c l * 2 ^ Z.of_nat b + rev b h.
Proof.
  induction c as [|c IH]; intros b h l Hl.
  - simpl in Hl. assert (l = 0) by lia; subst. simpl (0 + b)%nat.
    change (2 ^ Z.of_nat 0) with 1. rewrite Z.mul_1_r, Z.add_0_r. cbn [rev]. lia.
  - rewrite pow2_S in *. pose proof (pow2_pos c) as Hp. cbn [rev Nat.add].
    set (P := 2 ^ Z.of_nat c) in *.
    replace ((h * (2 * P) + l) mod 2) with (l mod 2).
    2:{ replace (h * (2 * P) + l) with (l + h * P * 2) by ring. rewrite Z.mod_add; lia. }
    replace ((h * (2 * P) + l) / 2) with (h * P + l / 2).
    2:{ replace (h * (2 * P) + l) with (l + h * P * 2) by ring. rewrite Z.div_add; lia. }
    unfold P at 2. rewrite IH by (fold P; lia).
    rewrite Nat2Z.inj_add, Z.pow_add_r by lia. fold P. ring.
Qed.

Lemma rev_mod (b : nat) : forall n, rev b (n mod 2 ^ Z.of_nat b) = rev b n.
Proof.
  induction b as [|b IH]; intros n; [reflexivity|].
  cbn [rev]. rewrite pow2_S. pose proof (pow2_pos b).
  set (P := 2 ^ Z.of_nat b) in *.
  assert (E : (n mod (2 * P)) / 2 = (n / 2) mod P).
  { rewrite Z.rem_mul_r by lia.
    replace (n mod 2 + 2 * ((n / 2) mod P)) with (n mod 2 + ((n / 2) mod P) * 2) by ring.
    rewrite Z.div_add by lia. rewrite (Z.div_small (n mod 2) 2) by lia. lia. }
  assert (E2 : (n mod (2 * P)) mod 2 = n mod 2).
  { rewrite Z.rem_mul_r by lia.
    replace (n mod 2 + 2 * ((n / 2) mod P)) with (n mod 2 + ((n / 2) mod P) * 2) by ring.
    rewrite Z.mod_add by lia. rewrite Z.mod_mod; lia. }
  rewrite E, E2. unfold P. rewrite IH. reflexivity.
Qed.

Lemma rev_zero (b : nat) : rev b 0 = 0.
Proof. induction b as [|b IH]; [reflexivity|]. cbn [rev]. rewrite Z.mod_0_l, Z.div_0_l by lia. lia. Qed.

Lemma bri_correct : forall (b : nat) n, (0 < b < 32)%nat -> 0 <= n < 2 ^ Z.of_nat b ->
  exists m, BitReversedIncrement n (Z.of_nat b) = Some m /\ 0 <= m < 2 ^ Z.of_nat b /\
            rev b m = (rev b n + 1) mod 2 ^ Z.of_nat b.
Proof.
  intros b n Hb Hn. unfold BitReversedIncrement.
  destruct (Z.eqb_spec (Z.of_nat b) 0); [lia|].
  rewrite Z.shiftl_mul_pow2 by lia. rewrite Z.mul_1_l.
  replace (negb _) with false
    by (symmetry; apply Bool.negb_false_iff; repeat rewrite Bool.andb_true_iff;
        rewrite Z.leb_le, !Z.ltb_lt; lia).
  set (c := (32 - b)%nat).
  replace (32 - Z.of_nat b) with (Z.of_nat c) by lia.
  rewrite Z.shiftl_mul_pow2 by lia.
  assert (Hcb : (32 = c + b)%nat) by lia.
  assert (HP : 2 ^ 32 = 2 ^ Z.of_nat c * 2 ^ Z.of_nat b).
  { rewrite <- Z.pow_add_r by lia. f_equal. lia. }
  pose proof (pow2_pos c) as Hc. pose proof (pow2_pos b) as Hbp.
  assert (Hx : 0 <= n * 2 ^ Z.of_nat c < 2 ^ 32) by nia.
  unfold u32. rewrite Z.mod_small by assumption.
  set (x := n * 2 ^ Z.of_nat c) in *.
  destruct (pass_spec 31 x 33) as (y & Hy & Hyr & Hrev); [exact Hx | lia |].
  unfold pass in Hy. change (Z.of_nat 31) with 31 in Hy.
  rewrite Hy. exists (Z.shiftr y (Z.of_nat c)). split; [reflexivity|].
  rewrite Z.shiftr_div_pow2 by lia.
  change (2 ^ Z.of_nat 32) with (2 ^ 32) in *.
  assert (Hyd : 0 <= y / 2 ^ Z.of_nat c < 2 ^ Z.of_nat b).
  { split; [apply Z.div_pos; lia|]. apply Z.div_lt_upper_bound; lia. }
  split; [exact Hyd|].
  (* reversal of y *)
  assert (Ey : rev 32 y = rev c (y mod 2 ^ Z.of_nat c) * 2 ^ Z.of_nat b + rev b (y / 2 ^ Z.of_nat c)).
  { rewrite Hcb at 1. rewrite <- rev_split by (apply Z.mod_pos_bound; lia).
    f_equal. rewrite (Z.div_mod y (2 ^ Z.of_nat c)) at 1 by lia. ring. }
  assert (Ex : rev 32 x = rev b n).
  { rewrite Hcb at 1. unfold x. replace (n * 2 ^ Z.of_nat c) with (n * 2 ^ Z.of_nat c + 0) by ring.
    rewrite rev_split by lia. rewrite rev_zero. lia. }
  rewrite Ex in Hrev.
  pose proof (rev_range b n) as Hrn. pose proof (rev_range b (y / 2 ^ Z.of_nat c)) as Hry.
  assert (Emod : rev b (y / 2 ^ Z.of_nat c) = rev 32 y mod 2 ^ Z.of_nat b).
  { rewrite Ey. rewrite Z.add_comm, Z.mod_add by lia. rewrite Z.mod_small; lia. }
  rewrite Emod, Hrev. rewrite HP, Z.mul_comm.
  rewrite Z.rem_mul_r by lia.
  rewrite (Z.mul_comm (2 ^ Z.of_nat b)), Z.mod_add, Z.mod_mod by lia. reflexivity.
Qed.

(** [k]-fold iteration from 0. *)
Fixpoint bri_iter (b : Z) (k : nat) : option Z :=
  match k with
  | O => Some 0
  | S k' => match bri_iter b k' with Some n => BitReversedIncrement n b | None => None end
  end.

Lemma bri_iter_correct : forall (b : nat) k, (0 < b < 32)%nat ->
  bri_iter (Z.of_nat b) k = Some (rev b (Z.of_nat k)).
Proof.
  intros b k Hb. induction k as [|k IH].
  - simpl. rewrite rev_zero. reflexivity.
  - cbn [bri_iter]. rewrite IH.
    destruct (bri_correct b (rev b (Z.of_nat k)) Hb (rev_range _ _)) as (m & Hm & Hmr & Hrev).
    rewrite Hm. f_equal.
    rewrite <- (rev_involutive b m) by assumption. rewrite Hrev.
    pose proof (pow2_pos b).
    rewrite <- (rev_mod b (Z.of_nat k)).
    rewrite rev_involutive by (apply Z.mod_pos_bound; lia).
    rewrite <- (rev_mod b (Z.of_nat (S k))). f_equal.
    rewrite Nat2Z.inj_succ. unfold Z.succ. rewrite Z.add_mod_idemp_l by lia. reflexivity.
Qed.

(** FloorLog2 / PowerOf2Le. *)
Lemma shiftr1 n : Z.shiftr n 1 = n / 2.
Proof. rewrite Z.shiftr_div_pow2 by lia. reflexivity. Qed.

Lemma floor_log2_fuel (f : nat) : forall n, 1 <= n < 2 ^ Z.of_nat f ->
  exists r, FloorLog2_fuel f n = Some r /\ 0 <= r /\ 2 ^ r <= n < 2 ^ (r + 1).
Proof.
  induction f as [|f IH]; intros n Hn.
  - simpl in Hn. lia.
  - rewrite pow2_S in Hn. cbn [FloorLog2_fuel].
    destruct (Z.eqb_spec n 0); [lia|]. destruct (Z.eqb_spec n 1).
    + exists 0; split; [reflexivity|]. subst; simpl; lia.
    + rewrite shiftr1. destruct (IH (n / 2)) as (r & -> & Hr & Hb); [lia|].
      exists (r + 1); split; [reflexivity|]. split; [lia|].
      rewrite Z.pow_add_r in Hb |- * by lia. rewrite (Z.pow_add_r 2 (r + 1) 1) by lia.
      rewrite Z.pow_add_r by lia. change (2 ^ 1) with 2 in *. lia.
Qed.

Lemma power_of_2_le_fuel (f : nat) : forall n, 1 <= n < 2 ^ Z.of_nat f ->
  exists r, PowerOf2Le_fuel f n = Some (2 ^ r) /\ 0 <= r /\ 2 ^ r <= n < 2 ^ (r + 1).
Proof.
  induction f as [|f IH]; intros n Hn.
  - simpl in Hn. lia.
  - rewrite pow2_S in Hn. cbn [PowerOf2Le_fuel].
    destruct (Z.eqb_spec n 0); [lia|]. destruct (Z.eqb_spec n 1).
    + exists 0; split; [reflexivity|]. subst; simpl; lia.
    + rewrite shiftr1. destruct (IH (n / 2)) as (r & -> & Hr & Hb); [lia|].
      exists (r + 1); split; [rewrite Z.shiftl_mul_pow2 by lia; f_equal; rewrite Z.pow_add_r by lia; reflexivity|].
      split; [lia|].
      rewrite Z.pow_add_r in Hb |- * by lia. rewrite (Z.pow_add_r 2 (r + 1) 1) by lia.
      rewrite Z.pow_add_r by lia. change (2 ^ 1) with 2 in *. lia.
Qed.

Lemma visits_every_index_once :
  forall (b : nat) (n : Z), (0 < b < 32)%nat -> 0 <= n < 2 ^ Z.of_nat b ->
  exists! k : nat, Z.of_nat k < 2 ^ Z.of_nat b /\ bri_iter (Z.of_nat b) k = Some n.
Proof.
  intros b n Hb Hn. pose proof (rev_range b n) as Hr.
  exists (Z.to_nat (rev b n)). split.
  - rewrite bri_iter_correct by assumption.
    rewrite Z2Nat.id by lia. rewrite rev_involutive by assumption. split; [lia|reflexivity].
  - intros k [Hk Hi]. rewrite bri_iter_correct in Hi by assumption.
    injection Hi as <-. rewrite rev_involutive by lia. lia.
Qed.

Lemma floor_log2_correct :
  forall n, 1 <= n < 2 ^ 63 ->
  exists r, FloorLog2 n = Some r /\ 0 <= r /\ 2 ^ r <= n < 2 ^ (r + 1).
Proof.
  intros n Hn. apply floor_log2_fuel.
  assert (2 ^ 63 < 2 ^ Z.of_nat 64) by reflexivity. lia.
Qed.

Lemma power_of_2_le_correct :
  forall n, 1 <= n < 2 ^ 63 ->
  exists p, PowerOf2Le n = Some p /\ (exists r, 0 <= r /\ p = 2 ^ r) /\ p <= n /\
            (forall r, 0 <= r -> 2 ^ r <= n -> 2 ^ r <= p).
Proof.
  intros n Hn. destruct (power_of_2_le_fuel 64 n) as (r & Hp & Hr & Hb).
  { assert (2 ^ 63 < 2 ^ Z.of_nat 64) by reflexivity. lia. }
  exists (2 ^ r); split; [exact Hp|]. split; [exists r; auto|]. split; [lia|].
  intros s Hs Hsn. apply Z.pow_le_mono_r; [lia|].
  destruct (Z.le_gt_cases s r); [assumption|].
  assert (2 ^ (r + 1) <= 2 ^ s) by (apply Z.pow_le_mono_r; lia). lia.
Qed.
