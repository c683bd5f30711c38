(* Proofs about the recurrence of ground tracks: the constructor and the continued fractions. *)
From Coq Require Import ZArith Znumtheory Bool Reals List Lia Lra Psatz.
From Verif Require Import Recurrence_Model Recurrence_Spec.
Import ListNotations.
Local Open Scope Z_scope.

(* ------------------------------------------------------------ the constructor *)

Lemma mod_int_pos : forall a b, 0 < b -> mod_int a b = a mod b.
Proof.
  intros a b B. unfold mod_int.
  pose proof (Z.rem_bound_abs a b ltac:(lia)) as R. rewrite (Z.abs_eq b) in R by lia.
  rewrite (Z.rem_mod_nonneg (Z.rem a b + b) b) by lia.
  rewrite Z.add_mod, Z_mod_same_full, Z.add_0_r, Z.mod_mod by lia.
  pose proof (Z.quot_rem' a b) as Q.
  replace (Z.rem a b) with (a + (- Z.quot a b) * b) by lia. apply Z.mod_add. lia.
Qed.

Lemma mod_int_opp : forall a b, 0 < b -> mod_int a (- b) = - ((- a) mod b).
Proof.
  intros a b B. rewrite <- mod_int_pos by exact B. unfold mod_int.
  rewrite !Z.rem_opp_r by lia. rewrite Z.rem_opp_l by lia.
  replace (Z.rem a b + - b) with (- (- Z.rem a b + b)) by ring. rewrite Z.rem_opp_l by lia. reflexivity.
Qed.

Lemma mod_one : forall a b, 2 <= b -> (a mod b = 1 <-> (b | a - 1)).
Proof.
  intros a b B. split.
  - intros H. exists (a / b). pose proof (Z_div_mod_eq_full a b). lia.
  - intros [k H]. replace a with (1 + k * b) by lia. rewrite Z.mod_add by lia. apply Z.mod_small. lia.
Qed.

(* The termination condition. *)
Lemma condition : forall a C, 2 <= Z.abs C ->
  ((mod_int a C =? sign C) || (mod_int a (- C) =? - sign C) = true <-> ((C | a - 1) \/ (C | a + 1))).
Proof.
  intros a C H. rewrite orb_true_iff, !Z.eqb_eq. unfold sign. destruct (C <? 0) eqn:S.
  - apply Z.ltb_lt in S. assert (B : 2 <= - C) by lia.
    assert (MC : mod_int a C = - ((- a) mod (- C))) by (rewrite <- mod_int_opp by lia; rewrite Z.opp_involutive; reflexivity).
    rewrite MC. rewrite (mod_int_pos a (- C)) by lia.
    split.
    + intros [E|E].
      * right. assert (M : (- a) mod (- C) = 1) by lia. apply mod_one in M; [|exact B].
        apply (proj1 (Z.divide_opp_l _ _)) in M. replace (a + 1) with (- (- a - 1)) by ring. apply (proj2 (Z.divide_opp_r _ _)). exact M.
      * left. apply mod_one in E; [|exact B]. apply (proj1 (Z.divide_opp_l _ _)) in E. exact E.
    + intros [E|E].
      * right. change (- (-1)) with 1. apply mod_one; [exact B|]. apply (proj2 (Z.divide_opp_l _ _)). exact E.
      * left. assert (M : (- a) mod (- C) = 1); [|lia]. apply mod_one; [exact B|]. apply (proj2 (Z.divide_opp_l _ _)).
        replace (- a - 1) with (- (a + 1)) by ring. apply (proj2 (Z.divide_opp_r _ _)). exact E.
  - apply Z.ltb_ge in S. assert (B : 2 <= C) by lia.
    rewrite mod_int_opp by lia. rewrite (mod_int_pos a C) by lia. split.
    + intros [E|E].
      * left. apply mod_one in E; assumption.
      * right. assert (M : (- a) mod C = 1) by lia. apply mod_one in M; [|exact B].
        replace (a + 1) with (- (- a - 1)) by ring. apply (proj2 (Z.divide_opp_r _ _)). exact M.
    + intros [E|E].
      * left. apply mod_one; assumption.
      * right. assert (M : (- a) mod C = 1); [|lia]. apply mod_one; [exact B|].
        replace (- a - 1) with (- (a + 1)) by ring. apply (proj2 (Z.divide_opp_r _ _)). exact E.
Qed.

Lemma sign_abs : forall C, C <> 0 -> sign C * Z.abs C = C /\ (sign C = 1 \/ sign C = -1) /\ sign C * C = Z.abs C.
Proof. intros C H. unfold sign. destruct (C <? 0) eqn:S; lia. Qed.

(* A solution below half the cycle. *)
Lemma solution : forall D C, 2 <= Z.abs C -> Z.gcd D C = 1 ->
  exists e, 1 <= e /\ 2 * e <= Z.abs C /\ ((C | e * D - 1) \/ (C | e * D + 1)).
Proof.
  intros D C H G.
  destruct (Z.gcd_bezout D C 1 G) as (u & v & B).
  set (c := Z.abs C) in *. assert (Hc : 0 < c) by lia.
  assert (DC : forall x, (C | x) <-> (c | x)) by (intros x; unfold c; apply iff_sym, Z.divide_abs_l).
  set (w := u mod c). assert (W : 0 <= w < c) by (apply Z.mod_pos_bound; lia).
  assert (E1 : (c | w * D - 1)).
  { apply DC. exists (- v - Z.div u c * D * (if C <? 0 then -1 else 1)).
    pose proof (Z_div_mod_eq_full u c) as Q. fold w in Q.
    assert (CC : c = (if C <? 0 then -1 else 1) * C) by (unfold c; destruct (C <? 0) eqn:S; lia).
    replace w with (u - c * (u / c)) by lia. rewrite CC at 1. nia. }
  assert (W0 : w <> 0).
  { intros Z0. rewrite Z0 in E1. destruct E1 as [k K]. assert (c * (- k) = 1) by lia.
    assert (c = 1) by (apply (Z.eq_mul_1_nonneg c (- k)); lia). lia. }
  destruct (Z_le_gt_dec (2 * w) c) as [L|L].
  - exists w. split; [lia|]. split; [exact L|]. left. apply DC. exact E1.
  - exists (c - w). split; [lia|]. split; [lia|]. right. apply DC.
    replace ((c - w) * D + 1) with (D * c - (w * D - 1)) by ring.
    apply Z.divide_sub_r; [exists D; ring|exact E1].
Qed.

Lemma loop_finds : forall fuel D C e E, C <> 0 -> 2 <= Z.abs C -> 2 * Z.abs D <= Z.abs C -> Z.abs C <= 92681 ->
  1 <= e -> 2 * E <= Z.abs C -> ((C | E * D - 1) \/ (C | E * D + 1)) -> e <= E -> (Z.to_nat (E - e) < fuel)%nat ->
  exists k, subcycle_loop fuel (sign C) D C (sign C * e) = Value (sign C * k) /\ e <= k <= E /\
    ((C | k * D - 1) \/ (C | k * D + 1)) /\
    forall j, e <= j < k -> ~ (C | j * D - 1) /\ ~ (C | j * D + 1).
Proof.
  assert (SG : forall C x D, C <> 0 -> ((C | sign C * x * D - 1) \/ (C | sign C * x * D + 1)) <->
    ((C | x * D - 1) \/ (C | x * D + 1))).
  { intros C x D H. destruct (sign_abs C H) as (_ & [S|S] & _); rewrite S.
    - rewrite !Z.mul_1_l. reflexivity.
    - assert (O1 : -1 * x * D - 1 = - (x * D + 1)) by ring. assert (O2 : -1 * x * D + 1 = - (x * D - 1)) by ring.
      rewrite O1, O2, !Z.divide_opp_r. tauto. }
  induction fuel as [|n IH]; intros D C e E H0 H1 H2 H3 He HE S L F; [lia|].
  cbn [subcycle_loop]. destruct (sign_abs C H0) as (_ & SC & _).
  assert (I : is_int (sign C * e * D) = true).
  { unfold is_int, int_lowest, int_max. apply andb_true_iff. rewrite !Z.leb_le.
    assert (Z.abs (sign C * e * D) <= 2147483647).
    { rewrite !Z.abs_mul. replace (Z.abs (sign C)) with 1 by (destruct SC as [-> | ->]; reflexivity).
      rewrite (Z.abs_eq e) by lia. nia. }
    lia. }
  rewrite I. cbn [negb].
  destruct ((mod_int (sign C * e * D) C =? sign C) || (mod_int (sign C * e * D) (- C) =? - sign C)) eqn:Q.
  - exists e. split; [reflexivity|]. split; [lia|]. apply (proj1 (condition _ _ H1)) in Q. apply (proj1 (SG _ _ _ H0)) in Q.
    split; [exact Q|]. intros j J. lia.
  - assert (NE : ~ ((C | e * D - 1) \/ (C | e * D + 1))).
    { intros X. apply (proj2 (SG _ _ _ H0)) in X. apply (proj2 (condition _ _ H1)) in X. congruence. }
    assert (e <> E) by (intros ->; exact (NE S)).
    replace (sign C * e + sign C) with (sign C * (e + 1)) by ring.
    destruct (IH D C (e + 1) E H0 H1 H2 H3 ltac:(lia) HE S ltac:(lia) ltac:(lia)) as (k & K1 & K2 & K3 & K4).
    exists k. split; [exact K1|]. split; [lia|]. split; [exact K3|]. intros j J.
    destruct (Z.eq_dec j e) as [->|NJ]; [tauto|]. apply K4. lia.
Qed.

Lemma constructor_value : forall fuel nu D C, Z.abs C <= 92681 -> (Z.to_nat (Z.abs C) <= fuel)%nat -> valid nu D C ->
  exists E, OrbitRecurrence fuel nu D C = Value (mkRecurrence nu D C E) /\ is_subcycle D C E /\ 2 * Z.abs E <= Z.abs C.
Proof.
  intros fuel nu D C B F (H0 & H1 & H2 & H3). unfold OrbitRecurrence.
  destruct (C =? 0) eqn:Z0; [apply Z.eqb_eq in Z0; contradiction|]. cbv zeta.
  assert (N : negb (nu =? 0) && negb (sign nu =? sign C) = false).
  { destruct (nu =? 0) eqn:Q; [reflexivity|]. apply Z.eqb_neq in Q. specialize (H1 Q). cbn [negb andb].
    apply negb_false_iff, Z.eqb_eq. unfold sign. destruct (nu <? 0) eqn:S1, (C <? 0) eqn:S2; try reflexivity; nia. }
  rewrite N. assert (I : is_int (2 * D) = true).
  { unfold is_int, int_lowest, int_max. apply andb_true_iff. rewrite !Z.leb_le. lia. }
  rewrite I. cbn [negb]. destruct (Z.abs C <? Z.abs (2 * D)) eqn:L; [apply Z.ltb_lt in L; lia|].
  rewrite H3. cbn [Z.eqb negb Pos.eqb]. destruct (D =? 0) eqn:DZ.
  - apply Z.eqb_eq in DZ. exists 0. split; [reflexivity|]. split; [|lia]. split; [reflexivity|]. intros X. contradiction.
  - apply Z.eqb_neq in DZ. destruct (sign_abs C H0) as (S1 & S2 & S3).
    assert (C2 : 2 <= Z.abs C) by lia.
    destruct (solution D C C2 H3) as (e & E1 & E2 & E3).
    destruct (loop_finds fuel D C 1 e H0 C2 ltac:(lia) B ltac:(lia) E2 E3 E1 ltac:(lia)) as (k & K1 & K2 & K3 & K4).
    rewrite Z.mul_1_r in K1. rewrite K1. exists (sign C * k). split; [reflexivity|].
    assert (KA : Z.abs (sign C * k) = k) by (destruct S2 as [-> | ->]; lia).
    split; [|lia]. split; [intros X; contradiction|]. intros _. rewrite KA.
    split; [replace (sign C * k * C) with (sign C * C * k) by ring; rewrite S3; nia|]. split.
    + destruct S2 as [-> | ->].
      * rewrite Z.mul_1_l. exact K3.
      * replace (-1 * k * D - 1) with (- (k * D + 1)) by ring. replace (-1 * k * D + 1) with (- (k * D - 1)) by ring.
        rewrite !Z.divide_opp_r. tauto.
    + intros E' HE'. destruct (Z_le_gt_dec 0 E') as [P|P].
      * apply K4. lia.
      * destruct (K4 (- E') ltac:(lia)) as [X1 X2].
        replace (E' * D - 1) with (- (- E' * D + 1)) by ring. replace (E' * D + 1) with (- (- E' * D - 1)) by ring.
        rewrite !Z.divide_opp_r. tauto.
Qed.

Lemma constructor_check : forall fuel nu D C, is_int (2 * D) = true -> ~ valid nu D C ->
  OrbitRecurrence fuel nu D C = CheckFailed.
Proof.
  intros fuel nu D C I V. unfold OrbitRecurrence. destruct (C =? 0) eqn:Z0; [reflexivity|]. cbv zeta.
  apply Z.eqb_neq in Z0. destruct (negb (nu =? 0) && negb (sign nu =? sign C)) eqn:N; [reflexivity|].
  rewrite I. cbn [negb]. destruct (Z.abs C <? Z.abs (2 * D)) eqn:L; [reflexivity|]. apply Z.ltb_ge in L.
  destruct (Z.gcd D C =? 1) eqn:G; cbn [negb]; [|reflexivity]. apply Z.eqb_eq in G.
  exfalso. apply V. split; [exact Z0|]. split; [|split; [lia|exact G]].
  intros NZ. apply andb_false_iff in N. rewrite !negb_false_iff, !Z.eqb_eq in N. destruct N as [N|N]; [contradiction|].
  unfold sign in N. destruct (nu <? 0) eqn:S1, (C <? 0) eqn:S2; try discriminate; nia.
Qed.

(* ------------------------------------------------------- continued fractions *)

(* The product of the matrices of the partial quotients: the convergent and the one before. *)
Fixpoint matrix (l : list Z) : Z * Z * Z * Z :=
  match l with
  | [] => (1, 0, 0, 1)
  | a :: l' => let '(p, p', q, q') := matrix l' in (a * p + q, a * p' + q', p, p')
  end.

Lemma matrix_det : forall l p p' q q', matrix l = (p, p', q, q') ->
  p * q' - p' * q = (if Nat.even (length l) then 1 else -1).
Proof.
  induction l as [|a l IH]; intros p p' q q' E; cbn [matrix] in E.
  - injection E as <- <- <- <-. reflexivity.
  - destruct (matrix l) as [[[r r'] s] s']. injection E as <- <- <- <-. specialize (IH r r' s s' eq_refl).
    cbn [length]. rewrite Nat.even_succ, <- Nat.negb_even. destruct (Nat.even (length l)); cbn [negb]; lia.
Qed.

Lemma quad : forall (a b c d a' b' c' d' : Z), a = a' -> b = b' -> c = c' -> d = d' -> (a, b, c, d) = (a', b', c', d').
Proof. intros. subst. reflexivity. Qed.

Lemma matrix_app : forall l a p p' q q', matrix l = (p, p', q, q') ->
  matrix (l ++ [a]) = (p * a + p', p, q * a + q', q).
Proof.
  induction l as [|b l IH]; intros a p p' q q' E; cbn [matrix app] in *.
  - injection E as <- <- <- <-. apply quad; ring.
  - destruct (matrix l) as [[[r r'] s] s']. injection E as <- <- <- <-. rewrite (IH a r r' s s' eq_refl).
    apply quad; ring.
Qed.

Lemma matrix_positive : forall l p p' q q', Forall (fun a => 1 <= a) l -> matrix l = (p, p', q, q') ->
  1 <= p /\ 0 <= p' <= p /\ 0 <= q <= p /\ 0 <= q' /\ 1 <= q + q' /\ q' <= Z.max 1 q /\ q' + p' <= p + q.
Proof.
  induction l as [|a l IH]; intros p p' q q' H E; cbn [matrix] in E.
  - injection E as <- <- <- <-. lia.
  - destruct (matrix l) as [[[r r'] s] s']. injection E as <- <- <- <-. inversion_clear H.
    destruct (IH r r' s s' H1 eq_refl) as (P1 & P2 & P3 & P4 & P5 & P6 & P7).
    repeat split; nia.
Qed.

Lemma simple_matrix : forall l p p' q q', simple l -> matrix l = (p, p', q, q') ->
  1 <= q /\ 0 <= q' <= q.
Proof.
  intros [|a l] p p' q q' H E; [contradiction|]. cbn [matrix simple] in *.
  destruct (matrix l) as [[[r r'] s] s'] eqn:M. injection E as <- <- <- <-.
  destruct (matrix_positive l r r' s s' H M). lia.
Qed.

Lemma fraction_cons : forall a l, l <> [] -> fraction (a :: l) = (a + / fraction l)%R.
Proof. intros a [|b l] H; [contradiction|reflexivity]. Qed.

Lemma fraction_positive : forall l x p p' q q', Forall (fun a => 1 <= a) l -> (0 < x)%R -> matrix l = (p, p', q, q') ->
  fraction (map IZR l ++ [x]) = ((IZR p * x + IZR p') / (IZR q * x + IZR q'))%R /\
  (0 < IZR p * x + IZR p')%R /\ (0 < IZR q * x + IZR q')%R.
Proof.
  induction l as [|a l IH]; intros x p p' q q' H X E; cbn [matrix] in E.
  - injection E as <- <- <- <-. cbn. split; [field|lra].
  - pose proof (matrix_positive (a :: l) p p' q q' H) as MP. cbn [matrix] in MP. specialize (MP E).
    destruct (matrix l) as [[[r r'] s] s']. injection E as <- <- <- <-. inversion_clear H.
    destruct (IH x r r' s s' H1 X eq_refl) as (F & F1 & F2).
    cbn [map app]. rewrite fraction_cons by (destruct (map IZR l); discriminate). rewrite F.
    apply IZR_le in H0. rewrite !plus_IZR, !mult_IZR.
    split; [field; split; lra|]. split; [nra|exact F1].
Qed.

Lemma fraction_simple : forall l x p p' q q', simple l -> (0 < x)%R -> matrix l = (p, p', q, q') ->
  fraction (map IZR l ++ [x]) = ((IZR p * x + IZR p') / (IZR q * x + IZR q'))%R /\
  (0 < IZR q * x + IZR q')%R.
Proof.
  intros [|a l] x p p' q q' H X E; [contradiction|]. cbn [matrix simple] in *.
  destruct (matrix l) as [[[r r'] s] s'] eqn:M. injection E as <- <- <- <-.
  destruct (fraction_positive l x r r' s s' H X M) as (F & F1 & F2).
  cbn [map app]. rewrite fraction_cons by (destruct (map IZR l); discriminate). rewrite F.
  rewrite !plus_IZR, !mult_IZR. split; [field; split; lra|exact F1].
Qed.

Lemma snoc : forall (l : list Z), l <> [] -> exists l' a, l = l' ++ [a].
Proof. intros l H. destruct (exists_last H) as (l' & a & E). eauto. Qed.

Lemma simple_snoc : forall l a, simple (l ++ [a]) -> l = [] \/ (simple l /\ 1 <= a).
Proof.
  intros [|b l] a H; [left; reflexivity|right]. cbn [app simple] in *. apply Forall_app in H. destruct H as [H1 H2].
  inversion_clear H2. auto.
Qed.

Lemma fraction_matrix : forall l p p' q q', simple l -> matrix l = (p, p', q, q') ->
  fraction (map IZR l) = (IZR p / IZR q)%R.
Proof.
  intros l p p' q q' H E. destruct (snoc l) as (l0 & a & ->); [destruct l; [contradiction|discriminate]|].
  destruct (simple_snoc l0 a H) as [->|[S A]].
  - cbn in E. injection E as <- <- <- <-. cbn. rewrite Z.mul_1_r, Z.add_0_r. field.
  - destruct (matrix l0) as [[[r r'] s] s'] eqn:M. rewrite (matrix_app l0 a r r' s s' M) in E. injection E as <- <- <- <-.
    rewrite map_app. cbn [map]. destruct (fraction_simple l0 (IZR a) r r' s s' S ltac:(apply IZR_lt; lia) M) as [-> _].
    rewrite !plus_IZR, !mult_IZR. reflexivity.
Qed.

Lemma det_gcd : forall p p' q q', p * q' - p' * q = 1 \/ p * q' - p' * q = -1 -> Z.gcd p q = 1 /\ Z.gcd q q' = 1.
Proof.
  intros p p' q q' H. split; apply Zgcd_1_rel_prime, bezout_rel_prime.
  - destruct H as [H|H]; [apply (Bezout_intro _ _ _ q' (- p'))|apply (Bezout_intro _ _ _ (- q') p')]; lia.
  - destruct H as [H|H]; [apply (Bezout_intro _ _ _ (- p') p)|apply (Bezout_intro _ _ _ p' (- p))]; lia.
Qed.

Lemma matrix_det_or : forall l p p' q q', matrix l = (p, p', q, q') -> p * q' - p' * q = 1 \/ p * q' - p' * q = -1.
Proof. intros l p p' q q' M. rewrite (matrix_det l p p' q q' M). destruct (Nat.even (length l)); auto. Qed.

Lemma reduced_unique : forall p q P Q, 0 < q -> 0 < Q -> Z.gcd p q = 1 -> Z.gcd P Q = 1 ->
  (IZR p / IZR q = IZR P / IZR Q)%R -> p = P /\ q = Q.
Proof.
  intros p q P Q Hq HQ G1 G2 E. assert (C : p * Q = P * q).
  { apply eq_IZR. rewrite !mult_IZR. apply IZR_lt in Hq. apply IZR_lt in HQ.
    apply (f_equal (fun x => x * IZR q * IZR Q)%R) in E. field_simplify in E; lra. }
  assert (D1 : (q | Q)).
  { apply Z.gauss with p; [exists P; lia|rewrite Z.gcd_comm; exact G1]. }
  assert (D2 : (Q | q)).
  { apply Z.gauss with P; [exists p; lia|rewrite Z.gcd_comm; exact G2]. }
  assert (q = Q) by (apply Z.divide_antisym_nonneg; lia || assumption). subst Q. split; [nia|reflexivity].
Qed.

Lemma reduced_matrix : forall l P Q, simple l -> reduced l P Q -> exists p' q', matrix l = (P, p', Q, q').
Proof.
  intros l P Q H (HQ & G & F). destruct (matrix l) as [[[p p'] q] q'] eqn:M.
  rewrite (fraction_matrix l p p' q q' H M) in F.
  destruct (simple_matrix l p p' q q' H M) as [Hq _].
  destruct (det_gcd _ _ _ _ (matrix_det_or l p p' q q' M)) as [Gp _].
  destruct (reduced_unique p q P Q ltac:(lia) HQ Gp G F) as [-> ->]. eauto.
Qed.

Lemma matrix_reduced : forall l p p' q q', simple l -> matrix l = (p, p', q, q') -> reduced l p q.
Proof.
  intros l p p' q q' H M. destruct (simple_matrix l p p' q q' H M) as [Hq _].
  destruct (det_gcd _ _ _ _ (matrix_det_or l p p' q q' M)) as [Gp _].
  split; [lia|]. split; [exact Gp|]. exact (fraction_matrix l p p' q q' H M).
Qed.

(* ------------------------------------------------------------------ Euclid *)

(* An expansion whose last partial quotient is at least 2, unless the number is an integer. *)
Lemma euclid : forall n p q, 0 < q -> (Z.to_nat q <= n)%nat -> Z.gcd p q = 1 ->
  exists l a p' q', simple (l ++ [a]) /\ (q = 1 -> l = []) /\ (q <> 1 -> l <> [] /\ 2 <= a) /\ matrix (l ++ [a]) = (p, p', q, q').
Proof.
  induction n as [|n IH]; intros p q Hq N G; [lia|].
  destruct (Z.eq_dec q 1) as [->|NQ].
  - exists [], p, 1, 0. split; [constructor|]. split; [reflexivity|]. split; [intros X; contradiction|]. cbn.
    rewrite Z.mul_1_r, Z.add_0_r, Z.mul_0_r. reflexivity.
  - set (r := p mod q). assert (R : 0 <= r < q) by (apply Z.mod_pos_bound; lia).
    assert (R0 : r <> 0).
    { intros X. apply Z.mod_divide in X; [|lia]. assert (Z.gcd p q = q); [|lia].
      rewrite Z.gcd_comm. apply Z.divide_gcd_iff; [lia|exact X]. }
    assert (G' : Z.gcd q r = 1) by (unfold r; rewrite Z.gcd_comm, Z.gcd_mod, Z.gcd_comm by lia; exact G).
    destruct (IH q r ltac:(lia) ltac:(lia) G') as (l & a & p' & q' & S & L1 & L2 & M).
    exists ((p / q) :: l), a, (p / q * p' + q'), p'.
    split.
    { cbn [app simple]. destruct l as [|b l].
      - cbn in *. constructor; [|constructor]. injection M as E1 E2 E3 E4. lia.
      - cbn [app simple] in *. constructor; [|exact S].
        cbn [matrix] in M. destruct (matrix (l ++ [a])) as [[[u u'] v] v'] eqn:W. injection M as E1 E2 E3 E4.
        destruct (matrix_positive _ _ _ _ _ S W) as (P1 & P2 & P3 & P4 & P5 & _).
        assert (v < u \/ r = 1 /\ v = 1 \/ v = u) by lia. nia. }
    split; [intros X; contradiction|]. split.
    { intros _. split; [discriminate|]. destruct (Z.eq_dec r 1) as [X|X]; [|apply L2; exact X].
      rewrite (L1 X) in M. cbn in M. injection M as E1 E2 E3 E4. lia. }
    cbn [app matrix]. rewrite M. apply quad; try reflexivity. pose proof (Z_div_mod_eq_full p q). fold r in H. lia.
Qed.

(* Expansions of either parity. *)
Lemma euclid_parity : forall p q b, 0 < q -> Z.gcd p q = 1 ->
  exists l p' q', simple l /\ matrix l = (p, p', q, q') /\ Nat.even (length l) = b.
Proof.
  intros p q b Hq G. destruct (euclid (Z.to_nat q) p q Hq ltac:(lia) G) as (l & a & p' & q' & S & L1 & L2 & M).
  destruct (Bool.bool_dec (Nat.even (length (l ++ [a]))) b) as [E|E].
  - exists (l ++ [a]), p', q'. auto.
  - destruct (matrix l) as [[[r r'] s] s'] eqn:W. rewrite (matrix_app l a r r' s s' W) in M. injection M as E1 E2 E3 E4.
    assert (A1 : l <> [] -> 1 <= a - 1).
    { intros X. destruct (Z.eq_dec q 1) as [Q|Q]; [specialize (L1 Q); contradiction|]. destruct (L2 Q). lia. }
    exists ((l ++ [a - 1]) ++ [1]). eexists. eexists. split; [|split].
    + destruct l as [|b0 l]; cbn [app simple] in *.
      * constructor; [lia|constructor].
      * apply Forall_app in S. destruct S as [S1 S2]. specialize (A1 ltac:(discriminate)).
        apply Forall_app. split; [apply Forall_app; split; [exact S1|]|]; (constructor; [lia|constructor]).
    + rewrite (matrix_app (l ++ [a - 1]) 1 _ _ _ _ (matrix_app l (a - 1) r r' s s' W)).
      replace ((r * (a - 1) + r') * 1 + r) with p by lia. replace ((s * (a - 1) + s') * 1 + s) with q by lia. reflexivity.
    + rewrite !app_length in *. cbn [length] in *. rewrite Nat.add_1_r in *. rewrite !Nat.add_1_r.
      rewrite Nat.even_succ, <- Nat.negb_even. destruct (Nat.even (Datatypes.S (length l))), b; cbn; congruence.
Qed.
