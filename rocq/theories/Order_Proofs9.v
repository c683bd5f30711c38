(** The double-precision numbers of the tables, and the accuracy of the coefficients. *)
From Coq Require Import Reals List Bool Arith ZArith QArith Qreals Qabs Lra Lia.
From Verif Require Import OneStep_Model Multistep_Proofs Multistep_Proofs2 Adaptive_Tables Adaptive_Proofs3 Symplectic_Tables OneStep_Proofs OneStep_Proofs2 Order_Proofs Order_Proofs2 Order_Proofs3 Order_Proofs7 Order_Proofs8.
Import ListNotations.
Open Scope Z_scope.

(** * [double_of] *)
Definition exponent (n d : Z) : Z := let e := 53 - (Z.log2 n - Z.log2 d) in if n * 2 ^ e <? d * 2 ^ 53 then e else e - 1.
Definition mantissa (n d : Z) : Z := (2 * (n * 2 ^ exponent n d) + d) / (2 * d).
Lemma exponent_spec : forall n d, 0 < n -> 0 < d -> n < d * 2 ^ 53 -> 0 <= exponent n d /\ d * 2 ^ 52 <= n * 2 ^ exponent n d < d * 2 ^ 53.
Proof.
  intros n d Hn Hd H. unfold exponent. cbv zeta. set (e := 53 - (Z.log2 n - Z.log2 d)).
  pose proof (Z.log2_spec n Hn) as [N1 N2]. pose proof (Z.log2_spec d Hd) as [D1 D2].
  pose proof (Z.log2_nonneg n) as LN. pose proof (Z.log2_nonneg d) as LD.
  assert (E0 : 0 <= e).
  { destruct (Z.le_gt_cases 0 e) as [L|L]; [exact L|]. exfalso. assert (L2 : Z.log2 d + 54 <= Z.log2 n) by lia.
    assert (2 ^ (Z.log2 d + 54) <= 2 ^ Z.log2 n) by (apply Z.pow_le_mono_r; lia). replace (Z.log2 d + 54) with (Z.succ (Z.log2 d) + 53) in H0 by lia.
    rewrite Z.pow_add_r in H0 by lia. nia. }
  assert (P : 0 < 2 ^ e) by (apply Z.pow_pos_nonneg; lia).
  assert (LO : d * 2 ^ 52 < n * 2 ^ e).
  { apply Z.lt_le_trans with (2 ^ Z.succ (Z.log2 d) * 2 ^ 52); [nia|]. rewrite <- Z.pow_add_r by lia. apply Z.le_trans with (2 ^ Z.log2 n * 2 ^ e); [|nia].
    rewrite <- Z.pow_add_r by lia. apply Z.pow_le_mono_r; lia. }
  assert (HI : n * 2 ^ e < d * 2 ^ 54).
  { apply Z.lt_le_trans with (2 ^ Z.succ (Z.log2 n) * 2 ^ e); [nia|]. rewrite <- Z.pow_add_r by lia. apply Z.le_trans with (2 ^ Z.log2 d * 2 ^ 54); [|nia].
    rewrite <- Z.pow_add_r by lia. apply Z.pow_le_mono_r; lia. }
  destruct (Z.ltb_spec (n * 2 ^ e) (d * 2 ^ 53)) as [L|L]; [split; lia|].
  assert (E1 : 1 <= e) by (destruct (Z.eq_dec e 0) as [Z0|]; [rewrite Z0 in L; change (2 ^ 0) with 1 in L; lia|lia]).
  replace (2 ^ e) with (2 ^ (e - 1) * 2) in * by (rewrite Z.mul_comm, <- Z.pow_succ_r by lia; f_equal; lia).
  change (2 ^ 54) with (2 ^ 53 * 2) in HI. change (2 ^ 53) with (2 ^ 52 * 2) in L. split; [lia|]. split; nia.
Qed.
Lemma mantissa_spec : forall n d, 0 < n -> 0 < d -> n < d * 2 ^ 53 ->
  let N := n * 2 ^ exponent n d in 2 ^ 52 <= mantissa n d <= 2 ^ 53 /\ (forall j, Z.abs (mantissa n d * d - N) <= Z.abs (j * d - N)) /\ 2 * Z.abs (mantissa n d * d - N) <= d.
Proof.
  intros n d Hn Hd H N. destruct (exponent_spec n d Hn Hd H) as (E & B). fold N in B. unfold mantissa. fold N. set (m := (2 * N + d) / (2 * d)).
  assert (M : 2 * d * m <= 2 * N + d < 2 * d * m + 2 * d).
  { pose proof (Z.div_mod (2 * N + d) (2 * d) ltac:(lia)). pose proof (Z.mod_pos_bound (2 * N + d) (2 * d) ltac:(lia)). unfold m. lia. }
  assert (A : 2 * Z.abs (m * d - N) <= d) by lia. split; [split; nia|]. split; [|exact A].
  intros j. destruct (Z.eq_dec j m) as [->|J]; [lia|]. assert (d <= Z.abs (j * d - m * d)) by (rewrite <- Z.mul_sub_distr_r, Z.abs_mul; nia). lia.
Qed.
Open Scope R_scope.
Lemma double_of_value : forall x, (Qnum x <> 0)%Z -> (Z.abs (Qnum x) < Z.pos (Qden x) * 2 ^ 53)%Z ->
  let n := Z.abs (Qnum x) in let d := Z.pos (Qden x) in Q2R (double_of x) = IZR (Z.sgn (Qnum x)) * (IZR (mantissa n d) / IZR (2 ^ exponent n d)).
Proof.
  intros x Hx Hb n d. unfold double_of. fold n d. cbv zeta. destruct (Z.eqb_spec n 0) as [Z0|Z0]; [lia|]. fold (exponent n d) (mantissa n d).
  destruct (exponent_spec n d ltac:(lia) ltac:(lia) Hb) as (E & _). change (if (n * 2 ^ (53 - (Z.log2 n - Z.log2 d)) <? d * 2 ^ 53)%Z then _ else _) with (exponent n d).
  unfold Q2R. cbn [Qnum Qden]. rewrite Z2Pos.id by (apply Z.pow_pos_nonneg; lia). rewrite mult_IZR. unfold mantissa, Rdiv. ring.
Qed.
(** The doubles that are neither subnormal nor too large. *)
Definition is_double (r : R) : Prop := exists m e, (Z.abs m <= 2 ^ 53)%Z /\ (r * IZR (2 ^ e) = IZR m /\ (0 <= e)%Z \/ r = IZR (m * 2 ^ e) /\ (0 <= e)%Z).
Lemma double_of_spec : forall x, (Z.abs (Qnum x) < Z.pos (Qden x) * 2 ^ 53)%Z ->
  is_double (Q2R (double_of x)) /\ (forall y, is_double y -> Rabs (Q2R (double_of x) - Q2R x) <= Rabs (y - Q2R x)) /\
  Rabs (Q2R (double_of x) - Q2R x) * IZR (2 ^ 53) <= Rabs (Q2R x).
Proof.
  intros x Hb. destruct (Z.eq_dec (Qnum x) 0) as [Z0|Z0].
  { assert (X : Q2R x = 0) by (unfold Q2R; rewrite Z0; ring). assert (Y : Q2R (double_of x) = 0) by (unfold double_of; rewrite Z0; cbn; apply Q2R_0).
    rewrite X, Y, Rminus_0_r, Rabs_R0. split; [|split; [intros; apply Rabs_pos|lra]]. exists 0%Z, 0%Z. split; [cbn; lia|]. left. split; [cbn; ring|lia]. }
  pose proof (double_of_value x Z0 Hb) as V. cbv zeta in V. set (n := Z.abs (Qnum x)) in *. set (d := Z.pos (Qden x)) in *.
  assert (Pn : (0 < n)%Z) by lia. assert (Pd : (0 < d)%Z) by lia.
  destruct (exponent_spec n d Pn Pd Hb) as (E0 & B). destruct (mantissa_spec n d Pn Pd Hb) as (M1 & M2 & M3). cbv zeta in *.
  set (e := exponent n d) in *. set (m := mantissa n d) in *. clearbody e m.
  assert (P2 : 0 < IZR (2 ^ e)) by (apply IZR_lt, Z.pow_pos_nonneg; lia). assert (Rd : 0 < IZR d) by (apply IZR_lt; exact Pd).
  set (s := Z.sgn (Qnum x)) in *. assert (S : s = 1%Z \/ s = (-1)%Z) by (unfold s; destruct (Qnum x); [congruence|left; reflexivity|right; reflexivity]).
  assert (X : Q2R x = IZR s * (IZR n / IZR d)).
  { unfold Q2R. fold d. replace (Qnum x) with (s * n)%Z by (unfold s, n; rewrite Z.mul_comm; apply Z.abs_sgn). rewrite mult_IZR. unfold Rdiv. ring. }
  assert (S2 : IZR s * IZR s = 1) by (destruct S as [-> | ->]; cbn; ring). assert (SA : Rabs (IZR s) = 1) by (destruct S as [-> | ->]; unfold Rabs; destruct Rcase_abs; lra).
  (* All the distances, in units of 1 / (d 2 ^ e). *)
  set (U := IZR d * IZR (2 ^ e)). assert (PU : 0 < U) by (apply Rmult_lt_0_compat; assumption).
  assert (DX : Rabs (Q2R (double_of x) - Q2R x) * U = IZR (Z.abs (m * d - n * 2 ^ e))).
  { rewrite V, X. rewrite <- (Rabs_pos_eq U) by lra. rewrite <- Rabs_mult.
    replace ((IZR s * (IZR m / IZR (2 ^ e)) - IZR s * (IZR n / IZR d)) * U) with (IZR s * (IZR m * IZR d - IZR n * IZR (2 ^ e))) by (unfold U; field; lra).
    rewrite Rabs_mult, SA, Rmult_1_l, abs_IZR, minus_IZR, !mult_IZR. reflexivity. }
  split; [|split].
  - exists (s * m)%Z, e. split; [rewrite Z.abs_mul; destruct S as [-> | ->]; lia|]. left. split; [|exact E0]. rewrite V, mult_IZR. field. lra.
  - intros y (k & g & K & Hy). apply (Rmult_le_reg_r U); [exact PU|]. rewrite DX.
    assert (G : forall j, y = IZR s * (IZR j / IZR (2 ^ e)) -> IZR (Z.abs (m * d - n * 2 ^ e)) <= Rabs (y - Q2R x) * U).
    { intros j J. rewrite J, X. rewrite <- (Rabs_pos_eq U) by lra. rewrite <- Rabs_mult.
      replace ((IZR s * (IZR j / IZR (2 ^ e)) - IZR s * (IZR n / IZR d)) * U) with (IZR s * (IZR j * IZR d - IZR n * IZR (2 ^ e))) by (unfold U; field; lra).
      rewrite Rabs_mult, SA, Rmult_1_l, <- !mult_IZR, <- minus_IZR, <- abs_IZR. apply IZR_le, M2. }
    destruct Hy as [[Hy G0]|[Hy G0]].
    + destruct (Z.le_gt_cases g e) as [L|L].
      * apply (G (s * k * 2 ^ (e - g))%Z). assert (PG : 0 < IZR (2 ^ g)) by (apply IZR_lt, Z.pow_pos_nonneg; lia).
        replace (2 ^ e)%Z with (2 ^ g * 2 ^ (e - g))%Z by (rewrite <- Z.pow_add_r by lia; f_equal; lia).
        assert (PE : 0 < IZR (2 ^ (e - g))) by (apply IZR_lt, Z.pow_pos_nonneg; lia). rewrite !mult_IZR, <- Hy.
        replace (IZR s * (IZR s * (y * IZR (2 ^ g)) * IZR (2 ^ (e - g)) / (IZR (2 ^ g) * IZR (2 ^ (e - g))))) with ((IZR s * IZR s) * y) by (field; lra). rewrite S2. ring.
      * (* [y] is smaller than all the doubles with the exponent of [x]. *)
        apply Rle_trans with (IZR (Z.abs (2 ^ 52 * d - n * 2 ^ e))); [apply IZR_le, M2|].
        rewrite Z.abs_neq by lia. assert (PG : 0 < IZR (2 ^ g)) by (apply IZR_lt, Z.pow_pos_nonneg; lia).
        assert (Y : Rabs y * IZR (2 ^ e) <= IZR (2 ^ 52)).
        { apply (Rmult_le_reg_r (IZR (2 ^ g))); [exact PG|]. replace (Rabs y * IZR (2 ^ e) * IZR (2 ^ g)) with (Rabs (y * IZR (2 ^ g)) * IZR (2 ^ e)) by (rewrite Rabs_mult, (Rabs_pos_eq (IZR (2 ^ g))) by lra; ring).
          rewrite Hy, <- abs_IZR, <- !mult_IZR. apply IZR_le. replace (2 ^ g)%Z with (2 ^ (g - e - 1) * 2 * 2 ^ e)%Z by (replace (2 ^ (g - e - 1) * 2)%Z with (2 ^ (g - e))%Z by (replace (g - e)%Z with (Z.succ (g - e - 1)) at 1 by lia; rewrite Z.pow_succ_r by lia; ring); rewrite <- Z.pow_add_r by lia; f_equal; lia).
          assert (1 <= 2 ^ (g - e - 1))%Z by (apply (Z.pow_le_mono_r 2 0); lia). assert (0 < 2 ^ e)%Z by (apply Z.pow_pos_nonneg; lia). change (2 ^ 53)%Z with (2 ^ 52 * 2)%Z in K. nia. }
        assert (XX : Rabs (Q2R x) * U = IZR (n * 2 ^ e)) by (rewrite X, Rabs_mult, SA, (Rabs_pos_eq (IZR n / IZR d)) by (apply Rmult_le_pos; [apply IZR_le; lia|left; apply Rinv_0_lt_compat; exact Rd]); rewrite mult_IZR; unfold U; field; lra).
        assert (T : Rabs (Q2R x) - Rabs y <= Rabs (y - Q2R x)) by (rewrite (Rabs_minus_sym y); apply Rabs_triang_inv).
        apply (Rmult_le_compat_r U) in T; [|lra]. eapply Rle_trans; [|exact T]. rewrite Rmult_minus_distr_r, XX, opp_IZR, minus_IZR, (mult_IZR (2 ^ 52)).
        replace (Rabs y * U) with (Rabs y * IZR (2 ^ e) * IZR d) by (unfold U; ring). apply (Rmult_le_compat_r (IZR d)) in Y; lra.
    + apply (G (s * (k * 2 ^ g) * 2 ^ e)%Z). rewrite Hy, (mult_IZR (s * _)), (mult_IZR s).
      replace (IZR s * (IZR s * IZR (k * 2 ^ g) * IZR (2 ^ e) / IZR (2 ^ e))) with ((IZR s * IZR s) * IZR (k * 2 ^ g)) by (field; lra). rewrite S2. ring.
  - apply (Rmult_le_reg_r U); [exact PU|]. replace (Rabs (Q2R (double_of x) - Q2R x) * IZR (2 ^ 53) * U) with (Rabs (Q2R (double_of x) - Q2R x) * U * IZR (2 ^ 53)) by ring. rewrite DX.
    assert (XX : Rabs (Q2R x) * U = IZR (n * 2 ^ e)) by (rewrite X, Rabs_mult, SA, (Rabs_pos_eq (IZR n / IZR d)) by (apply Rmult_le_pos; [apply IZR_le; lia|left; apply Rinv_0_lt_compat; exact Rd]); rewrite mult_IZR; unfold U; field; lra).
    rewrite XX, <- mult_IZR. apply IZR_le. change (2 ^ 53)%Z with (2 * 2 ^ 52)%Z. nia.
Qed.
Definition representable (x : Q) : bool := (Z.abs (Qnum x) <? Z.pos (Qden x) * 2 ^ 53)%Z.
Lemma tables_representable :
  forallb (fun t => forallb representable (p_a t ++ p_b t)) partitioned_tables && forallb (fun t => forallb representable (y_a t ++ y_b t)) nystrom_tables = true.
Proof. vm_compute. reflexivity. Qed.
Lemma partitioned_doubles : forall t x, In t partitioned_tables -> In x (p_a t ++ p_b t) ->
  is_double (Q2R (double_of x)) /\ forall y, is_double y -> Rabs (Q2R (double_of x) - Q2R x) <= Rabs (y - Q2R x).
Proof.
  intros t x Ht Hx. pose proof tables_representable as R. apply andb_prop in R. destruct R as [R _]. rewrite forallb_forall in R. specialize (R t Ht).
  rewrite forallb_forall in R. specialize (R x Hx). apply Z.ltb_lt in R. destruct (double_of_spec x R) as (D1 & D2 & _). split; assumption.
Qed.
Lemma nystrom_doubles : forall t x, In t nystrom_tables -> In x (y_a t ++ y_b t) ->
  is_double (Q2R (double_of x)) /\ forall y, is_double y -> Rabs (Q2R (double_of x) - Q2R x) <= Rabs (y - Q2R x).
Proof.
  intros t x Ht Hx. pose proof tables_representable as R. apply andb_prop in R. destruct R as [_ R]. rewrite forallb_forall in R. specialize (R t Ht).
  rewrite forallb_forall in R. specialize (R x Hx). apply Z.ltb_lt in R. destruct (double_of_spec x R) as (D1 & D2 & _). split; assumption.
Qed.

(** * The coefficients as they are written *)
Definition written (t : SPRKTable) : SRKN := mkSRKN BAB (p_reversible t) (reals (p_a t)) (reals (p_b t)).
Definition moment (m : SRKN) (k : nat) : R := sum_to (stages m) (fun i => b_ m i * c_ m i ^ k).
Fixpoint zmoment (k : Z) (b c : list Z) : Z := match b, c with x :: b, y :: c => (x * y ^ k + zmoment k b c)%Z | _, _ => 0%Z end.
Definition moment_of (D : Z) (t : SPRKTable) (k : Z) : Z := zmoment k (map (scale D) (p_b t)) (prefix 0 (map (scale D) (p_a t))).
Lemma zmoment_spec : forall D k b c (f g : nat -> R), length b = length c -> (forall i, (i < length c)%nat -> f i * IZR D = IZR (nth i b 0%Z) /\ g i * IZR D = IZR (nth i c 0%Z)) ->
  sum_to (length c) (fun i => f i * g i ^ k) * IZR D ^ S k = IZR (zmoment (Z.of_nat k) b c).
Proof.
  intros D k b. induction b as [|x b IH]; intros c f g L H; destruct c as [|y c]; try discriminate; [cbn; ring|]. cbn [length zmoment] in *. rewrite sum_to_S.
  rewrite plus_IZR, mult_IZR, <- pow_IZR. destruct (H 0%nat ltac:(lia)) as [F G]. cbn [nth] in F, G. rewrite <- F, <- G, Rpow_mult_distr.
  rewrite Rmult_plus_distr_r. f_equal; [cbn [pow]; ring|]. apply (IH c (fun i => f (S i)) (fun i => g (S i))); [lia|]. intros i Hi. apply (H (S i)). lia.
Qed.
Lemma moment_spec : forall D t k, (0 < D)%Z -> forallb (divides D) (p_a t) = true -> forallb (divides D) (p_b t) = true -> length (p_b t) = length (p_a t) ->
  moment (written t) k * IZR D ^ S k = IZR (moment_of D t (Z.of_nat k)).
Proof.
  intros D t k PD DA DB L. unfold moment, moment_of. assert (Sn : stages (written t) = length (p_a t)) by (unfold stages, written; cbn; unfold reals; apply map_length).
  rewrite Sn. replace (length (p_a t)) with (length (prefix 0 (map (scale D) (p_a t)))) by (rewrite prefix_length, map_length; reflexivity).
  apply zmoment_spec; [rewrite prefix_length, !map_length; exact L|]. intros i Hi. rewrite prefix_length, map_length in Hi. split.
  - apply scale_nth; assumption.
  - apply (prefix_sums D (p_a t) 0 0%Z i PD DA ltac:(ring)). exact Hi.
Qed.
Definition digits : Z := (10 ^ 24)%Z.
Definition moment_within (E : Z) (t : SPRKTable) : bool := (Z.abs (8 * moment_of digits t 7 - digits ^ 8) * E <=? 8 * digits ^ 8)%Z.
Definition moment_outside (E : Z) (t : SPRKTable) : bool := (8 * digits ^ 8 <? Z.abs (8 * moment_of digits t 7 - digits ^ 8) * E)%Z.
Definition well_formed (t : SPRKTable) : bool := forallb (divides digits) (p_a t) && forallb (divides digits) (p_b t) && Nat.eqb (length (p_b t)) (length (p_a t)).
Lemma moment_error : forall t, well_formed t = true ->
  Rabs (moment (written t) 7 - 1 / 8) * IZR (8 * digits ^ 8) = IZR (Z.abs (8 * moment_of digits t 7 - digits ^ 8)).
Proof.
  intros t W. unfold well_formed in W. apply andb_prop in W. destruct W as [W W3]. apply andb_prop in W. destruct W as [W1 W2]. apply Nat.eqb_eq in W3.
  assert (E8 : IZR (digits ^ 8) = IZR digits ^ 8) by (rewrite pow_IZR; reflexivity).
  pose proof (moment_spec digits t 7 ltac:(reflexivity) W1 W2 W3) as M. change (Z.of_nat 7) with 7%Z in M.
  assert (P : 0 < IZR (8 * digits ^ 8)) by (apply IZR_lt; reflexivity). rewrite <- (Rabs_pos_eq (IZR (8 * digits ^ 8))) by lra. rewrite <- Rabs_mult, abs_IZR. f_equal.
  rewrite minus_IZR, !mult_IZR, <- M. rewrite E8. field.
Qed.
Lemma moment_within_spec : forall E t, (0 < E)%Z -> well_formed t = true -> moment_within E t = true -> Rabs (moment (written t) 7 - 1 / 8) <= / IZR E.
Proof.
  intros E t PE W H. apply Z.leb_le, IZR_le in H. rewrite mult_IZR, <- moment_error in H by exact W. assert (P : 0 < IZR (8 * digits ^ 8)) by (apply IZR_lt; reflexivity).
  set (u := IZR (8 * digits ^ 8)) in *. clearbody u. assert (PE' : 0 < IZR E) by (apply IZR_lt; exact PE).
  apply (Rmult_le_reg_r (u * IZR E)); [apply Rmult_lt_0_compat; assumption|]. replace (/ IZR E * (u * IZR E)) with u by (field; lra). lra.
Qed.
Lemma moment_outside_spec : forall E t, (0 < E)%Z -> well_formed t = true -> moment_outside E t = true -> / IZR E < Rabs (moment (written t) 7 - 1 / 8).
Proof.
  intros E t PE W H. apply Z.ltb_lt, IZR_lt in H. rewrite (mult_IZR (Z.abs _)), <- moment_error in H by exact W. assert (P : 0 < IZR (8 * digits ^ 8)) by (apply IZR_lt; reflexivity).
  set (u := IZR (8 * digits ^ 8)) in *. clearbody u. assert (PE' : 0 < IZR E) by (apply IZR_lt; exact PE).
  apply (Rmult_lt_reg_r (u * IZR E)); [apply Rmult_lt_0_compat; assumption|]. replace (/ IZR E * (u * IZR E)) with u by (field; lra). lra.
Qed.
Lemma yoshida_accurate : Forall (fun t => Rabs (moment (written t) 7 - 1 / 8) <= / IZR (10 ^ 15)) [Yoshida1990Order8A; Yoshida1990Order8B; Yoshida1990Order8E].
Proof. repeat apply Forall_cons; try apply Forall_nil; (apply moment_within_spec; [reflexivity|vm_compute; reflexivity|vm_compute; reflexivity]). Qed.
Lemma yoshida_inaccurate : Forall (fun t => / IZR (10 ^ 13) < Rabs (moment (written t) 7 - 1 / 8)) [Yoshida1990Order8C; Yoshida1990Order8D].
Proof. repeat apply Forall_cons; try apply Forall_nil; (apply moment_outside_spec; [reflexivity|vm_compute; reflexivity|vm_compute; reflexivity]). Qed.

(** * The leapfrog method *)
Lemma small_trees : forall t, allowed true false t -> (order t <= 2)%nat -> t = Root \/ t = Leaf Root.
Proof.
  intros [|t|t u|t u] L H; cbn in *; [left; reflexivity| |destruct L; discriminate|pose proof (order_pos t); pose proof (order_pos u); lia].
  right. destruct t as [|t|t u|t u]; cbn in *; [reflexivity|pose proof (order_pos t); lia|destruct L; discriminate|pose proof (order_pos t); pose proof (order_pos u); lia].
Qed.
Lemma leapfrog_conditions : forall c m, AsSRKN NewtonDelambreStormerVerletLeapfrog c = Some m -> srkn_checks m = true /\ (0 < stages m)%nat /\ srkn_conditions_within 0 m 2.
Proof.
  intros c m H. assert (Z : forall x, x = 0 -> Rabs x <= 0) by (intros x ->; rewrite Rabs_R0; lra).
  assert (K : m = mkSRKN ABA true [1 / 2; 1 / 2] [0; 1] \/ m = mkSRKN BAB true [1; 0] [1 / 2; 1 / 2]) by (destruct c; cbn in H; try discriminate; inversion H; auto).
  destruct K as [-> | ->]; (split; [unfold srkn_checks; cbn; unfold a_, b_; cbn; rewrite !OneStep_Proofs3.Reqb_refl; reflexivity|]); (split; [cbn; lia|]);
    unfold srkn_conditions_within; cbn [stages srkn_a length]; (split; [apply Z; unfold c_; cbn; lra|]); split; intros t L O; destruct (small_trees t L ltac:(lia)) as [-> | ->]; cbn in O; try lia;
    apply Z; unfold sum_to, s_b, b_, c_; cbn; lra.
Qed.
