(* The reduction of Lenstra, Lenstra and Lovász: termination, and the length of the
   first vector. *)
From Coq Require Import ZArith QArith Qcanon Qcabs Bool Arith Lia Lqa.
From Verif Require Import Matrix_Model Matrix_Spec Matrix_Proofs.
From Verif Require Import Lattice_Model Lattice_Spec Lattice_Proofs Lattice_Proofs2.
Local Open Scope nat_scope.

(* ---------------------------------------------------- integral multiples *)

Definition star2 (m : nat) (A : matrix) (j : nat) : Qc :=
  inner m (star m A j) (star m A j).

Fixpoint multiple (m : nat) (A : matrix) (j : nat) : Qc :=
  match j with
  | O => 1%Qc
  | S j' =>
    let N := multiple m A j' in
    let t := (N * N * star2 m A j')%Qc in
    if Qc_eq_dec t 0%Qc then N else (N * t)%Qc
  end.
Definition scaled (m : nat) (A : matrix) (j : nat) : Qc :=
  (multiple m A j * multiple m A j * star2 m A j)%Qc.

Lemma Qc_mul_pos : forall a b : Qc, (0 < a)%Qc -> (0 < b)%Qc -> (0 < a * b)%Qc.
Proof. intros a b. toQ. intros. nra. Qed.

Lemma scaled_nonneg : forall m A j, (0 <= scaled m A j)%Qc.
Proof.
  intros m A j. unfold scaled. pose proof (Qc_square (multiple m A j)) as H.
  pose proof (inner_nonneg m (star m A j)) as H'. fold (star2 m A j) in H'.
  revert H H'. generalize (multiple m A j * multiple m A j)%Qc as a.
  generalize (star2 m A j) as b. intros b a. toQ. intros. nra.
Qed.

Lemma multiple_pos : forall m A j, (0 < multiple m A j)%Qc.
Proof.
  intros m A j; induction j as [|j IH]; cbn [multiple].
  - reflexivity.
  - destruct (Qc_eq_dec _ 0) as [Z|N]; [assumption|]. apply Qc_mul_pos; [assumption|].
    pose proof (scaled_nonneg m A j) as H. unfold scaled in H.
    apply Qcle_lt_or_eq in H. destruct H; [assumption|]. congruence.
Qed.

Lemma pos_nonzero : forall a : Qc, (0 < a)%Qc -> a <> 0%Qc.
Proof. intros a H E. apply Qclt_not_eq in H. congruence. Qed.

Lemma multiple_divides : forall m A l d,
  star2 m A l <> 0%Qc ->
  (forall i, l < i <= l + d -> is_int (scaled m A i)) ->
  exists c, is_int c /\ multiple m A (S l + d) = (multiple m A l * scaled m A l * c)%Qc.
Proof.
  intros m A l d NZ; induction d as [|d IH]; intros H.
  - exists 1%Qc. split; [exists 1%Z; symmetry; apply of_Z_1|].
    rewrite Nat.add_0_r. cbn [multiple]. destruct (Qc_eq_dec _ 0) as [Z|N].
    + exfalso. pose proof (multiple_pos m A l) as P. apply pos_nonzero in P.
      apply Qcmult_integral in Z. destruct Z as [Z|Z]; [|contradiction].
      apply Qcmult_integral in Z. tauto.
    + unfold scaled. ring.
  - destruct (IH ltac:(intros; apply H; lia)) as (c & I & E).
    replace (S l + S d) with (S (S l + d)) by lia. cbn [multiple].
    destruct (Qc_eq_dec _ 0) as [Z|N].
    + exists c. split; assumption.
    + exists (c * scaled m A (S l + d))%Qc. split.
      * apply int_mul; [assumption|]. apply H. lia.
      * change (multiple m A (S l + d) * scaled m A (S l + d)
                = multiple m A l * scaled m A l * (c * scaled m A (S l + d)))%Qc.
        rewrite E at 1. ring.
Qed.

Lemma integral : forall m v j,
  is_int (multiple m (to_Qc v) j) /\
  (forall i, is_int (multiple m (to_Qc v) j * star m (to_Qc v) j i)) /\
  is_int (scaled m (to_Qc v) j).
Proof.
  intros m v j. set (A := to_Qc v). induction j as [j IH] using lt_wf_ind.
  assert (AI : forall i c, is_int (A i c)) by (intros; apply int_Z).
  assert (I1 : is_int (multiple m A j)).
  { destruct j as [|j]; [exists 1%Z; symmetry; apply of_Z_1|].
    destruct (IH j ltac:(lia)) as (J1 & _ & J3). cbn [multiple].
    destruct (Qc_eq_dec _ 0); [assumption|]. apply int_mul; assumption. }
  assert (I2 : forall i, is_int (multiple m A j * star m A j i)).
  { intros i. rewrite star_eq.
    replace (multiple m A j * (A i j - sum j (fun l => mu m A l j * star m A l i)))%Qc
      with (multiple m A j * A i j
            - sum j (fun l => multiple m A j * (mu m A l j * star m A l i)))%Qc
      by (rewrite sum_scale; ring).
    apply int_sub; [apply int_mul; [assumption|apply AI]|].
    apply int_sum. intros l Hl.
    destruct (Qc_eq_dec (star2 m A l) 0) as [Z|N].
    - assert (E : mu m A l j = 0%Qc).
      { unfold mu, coef. fold (star2 m A l). destruct (Qc_eq_dec _ 0); [reflexivity|contradiction]. }
      rewrite E. replace (multiple m A j * (0 * star m A l i))%Qc with 0%Qc by ring.
      exists 0%Z. symmetry. apply of_Z_0.
    - destruct (multiple_divides m A l (j - S l) N) as (c & C & E).
      { intros i' Hi'. apply IH. lia. }
      replace (S l + (j - S l)) with j in E by lia. rewrite E.
      destruct (IH l Hl) as (J1 & J2 & _).
      replace (multiple m A l * scaled m A l * c * (mu m A l j * star m A l i))%Qc
        with (c * multiple m A l * (multiple m A l * (mu m A l j * star2 m A l))
              * (multiple m A l * star m A l i))%Qc by (unfold scaled; ring).
      apply int_mul; [apply int_mul; [apply int_mul; assumption|]|apply J2].
      unfold mu, star2. rewrite coef_inner. unfold inner. rewrite <- sum_scale.
      apply int_sum. intros r _.
      replace (multiple m A l * (star m A l r * A r j))%Qc
        with (multiple m A l * star m A l r * A r j)%Qc by ring.
      apply int_mul; [apply J2|apply AI]. }
  split; [exact I1|]. split; [exact I2|].
  unfold scaled, star2, inner. rewrite <- sum_scale. apply int_sum. intros r _.
  replace (multiple m A j * multiple m A j * (star m A j r * star m A j r))%Qc
    with (multiple m A j * star m A j r * (multiple m A j * star m A j r))%Qc by ring.
  apply int_mul; apply I2.
Qed.

Definition measure (m : nat) (v : zmatrix) (j : nat) : nat :=
  Z.to_nat (Qnum (this (scaled m (to_Qc v) j))).

Lemma multiple_ext : forall m A B j,
  (forall c i, c < j -> i < m -> star m A c i = star m B c i) ->
  multiple m A j = multiple m B j.
Proof.
  intros m A B j; induction j as [|j IH]; intros H; [reflexivity|]. cbn [multiple].
  rewrite IH by (intros; apply H; lia).
  assert (E : star2 m A j = star2 m B j)
    by (apply inner_ext; intros; apply H; lia).
  rewrite E. reflexivity.
Qed.

Lemma measure_ext : forall m v v' j,
  (forall c i, c <= j -> i < m -> star m (to_Qc v') c i = star m (to_Qc v) c i) ->
  measure m v' j = measure m v j.
Proof.
  intros m v v' j H. unfold measure, scaled.
  rewrite (multiple_ext m (to_Qc v') (to_Qc v)) by (intros; apply H; lia).
  assert (E : star2 m (to_Qc v') j = star2 m (to_Qc v) j)
    by (apply inner_ext; intros; apply H; lia).
  rewrite E. reflexivity.
Qed.

Lemma measure_lt : forall m v v' j,
  (forall c i, c < j -> i < m -> star m (to_Qc v') c i = star m (to_Qc v) c i) ->
  (star2 m (to_Qc v') j < star2 m (to_Qc v) j)%Qc ->
  measure m v' j < measure m v j.
Proof.
  intros m v v' j H L.
  assert (P : (scaled m (to_Qc v') j < scaled m (to_Qc v) j)%Qc).
  { unfold scaled. rewrite (multiple_ext m (to_Qc v') (to_Qc v)) by assumption.
    pose proof (multiple_pos m (to_Qc v) j) as P.
    pose proof (inner_nonneg m (star m (to_Qc v) j)) as P'.
    fold (star2 m (to_Qc v) j) in P'.
    pose proof (Qc_mul_pos _ _ P P) as P2. revert P' P2 L. clear.
    generalize (multiple m (to_Qc v) j * multiple m (to_Qc v) j)%Qc as N.
    generalize (star2 m (to_Qc v) j) as b. generalize (star2 m (to_Qc v') j) as a.
    intros a b N. toQ. intros H1 H2 H3. nra. }
  unfold measure. pose proof (scaled_nonneg m (to_Qc v') j) as Z.
  destruct (integral m v j) as (_ & _ & [x Ex]).
  destruct (integral m v' j) as (_ & _ & [x' Ex']).
  rewrite Ex, Ex' in P. rewrite Ex' in Z. rewrite Ex, Ex', !of_Z_num.
  apply (proj1 (of_Z_lt _ _)) in P. rewrite <- of_Z_0 in Z.
  apply (proj1 (of_Z_le _ _)) in Z. lia.
Qed.

(* ------------------------------------------------- lexicographic order *)

Definition lexlt (n : nat) (f g : nat -> nat) :=
  exists p, p < n /\ f p < g p /\ forall q, q < p -> f q = g q.

Lemma lex_ind : forall n (P : (nat -> nat) -> Prop),
  (forall f, (forall g, lexlt n g f -> P g) -> P f) -> forall f, P f.
Proof.
  induction n as [|n IH]; intros P H f.
  - apply H. intros g (p & Hp & _). lia.
  - revert f.
    assert (K : forall f h, (forall q, q < n -> h q = f q) -> P h).
    { apply (IH (fun f => forall h, (forall q, q < n -> h q = f q) -> P h)).
      intros f HI h Hh. remember (h n) as x eqn:Ex. revert h Hh Ex.
      induction x as [x IHx] using lt_wf_ind. intros h Hh Ex.
      apply H. intros g (p & Hp & L & E).
      destruct (Nat.eq_dec p n) as [->|N].
      - apply (IHx (g n) ltac:(lia) g); [|reflexivity].
        intros q Hq. rewrite E by assumption. apply Hh. assumption.
      - apply (HI g); [|reflexivity].
        exists p. split; [lia|]. split; [rewrite <- Hh by lia; assumption|].
        intros q Hq. rewrite E by assumption. apply Hh. lia. }
    intros f. apply (K f f). reflexivity.
Qed.

Lemma lll_terminates : forall round junk m n v k, round 0%Qc = 0%Z -> 0 < k ->
  exists fuel v', lll_loop round junk fuel m n k v = Some v'.
Proof.
  intros round junk m n v k R0 Hk.
  cut (forall f v k, 0 < k -> (forall q, q < n -> measure m v q = f q) ->
         exists fuel v', lll_loop round junk fuel m n k v = Some v').
  { intros K. apply (K (measure m v)); [assumption|reflexivity]. }
  clear v k Hk. intros f. pattern f. apply (lex_ind n). clear f. intros f IH v k.
  remember (n - k) as d eqn:Ed. revert v k Ed.
  induction d as [d IHd] using lt_wf_ind. intros v k Ed Hk Hf.
  destruct (le_lt_dec n k) as [L|L].
  { exists 0, v. cbn [lll_loop]. destruct (Nat.ltb_spec k n); [lia|reflexivity]. }
  destruct (lll_step round junk m n k v) as [k' v'] eqn:ES.
  assert (X : exists fuel v'', lll_loop round junk fuel m n k' v' = Some v'').
  { destruct (lll_step_spec round junk m n k v k' v' R0 ltac:(lia) ES)
      as (B & _ & _ & [[E1 E2]|[E1 [E2 E3]]]).
    - apply (IHd (n - k') ltac:(lia)); [reflexivity|lia|].
      intros q Hq. rewrite <- Hf by assumption. apply measure_ext.
      intros; apply E2; assumption.
    - apply (IH (measure m v')); [|lia|reflexivity].
      exists (k - 1). split; [lia|]. split.
      + rewrite <- Hf by lia. apply measure_lt.
        * intros c i Hc Hi. apply E2; assumption.
        * eapply Qclt_le_trans; [exact E3|].
          pose proof (inner_nonneg m (star m (to_Qc v) (k - 1))) as P. revert P.
          unfold star2. generalize (inner m (star m (to_Qc v) (k - 1))
                                      (star m (to_Qc v) (k - 1))) as x.
          intros x. unfold three_quarters. toQ. intros. lra.
      + intros q Hq. rewrite <- Hf by lia. apply measure_ext.
        intros c i Hc Hi. apply E2; [lia|assumption]. }
  destruct X as (fuel & v'' & X). exists (S fuel), v''. cbn [lll_loop].
  destruct (Nat.ltb_spec k n); [|lia]. rewrite ES. exact X.
Qed.

Lemma lll_loop_correct : forall round junk m n fuel k v v',
  round 0%Qc = 0%Z -> 0 < k ->
  lll_loop round junk fuel m n k v = Some v' ->
  same_lattice m n v v' /\
  (rounds round -> k <= n -> lll_reduced m k v -> lll_reduced m n v').
Proof.
  intros round junk m n fuel; induction fuel as [|fuel IH]; intros k v v' R0 Hk E;
    cbn [lll_loop] in E; destruct (Nat.ltb_spec k n) as [L|L]; try discriminate E;
    try (injection E as <-; split; [apply same_lattice_refl|];
         intros _ H H'; replace n with k by lia; exact H').
  destruct (lll_step round junk m n k v) as [k1 v1] eqn:ES.
  destruct (lll_step_spec round junk m n k v k1 v1 R0 ltac:(lia) ES) as (B & S1 & S2 & _).
  destruct (IH k1 v1 v' R0 ltac:(lia) E) as [I1 I2]. split.
  - eapply same_lattice_trans; eassumption.
  - intros HR _ H. apply I2; [exact HR|lia|]. apply S2; assumption.
Qed.

Lemma lll_loop_fuel : forall round junk m n fuel fuel' k v v',
  fuel <= fuel' -> lll_loop round junk fuel m n k v = Some v' ->
  lll_loop round junk fuel' m n k v = Some v'.
Proof.
  intros round junk m n fuel; induction fuel as [|fuel IH]; intros fuel' k v v' H E;
    destruct fuel' as [|fuel']; try lia; cbn [lll_loop] in *;
    destruct (k <? n); try discriminate E; try exact E.
  destruct (lll_step round junk m n k v) as [k1 v1]. apply IH; [lia|exact E].
Qed.

Lemma lll_correct : forall round junk m n fuel L v,
  round 0%Qc = 0%Z -> LenstraLenstraLovasz round junk fuel m n L = Some v ->
  same_lattice m n L v /\ (rounds round -> lll_reduced m n v).
Proof.
  intros round junk m n fuel L v R0 E. unfold LenstraLenstraLovasz in E.
  destruct (lll_loop_correct round junk m n fuel 1 L v R0 ltac:(lia) E) as [S1 S2].
  split; [exact S1|]. intros HR.
  destruct (le_lt_dec 1 n) as [H|H].
  - apply S2; [exact HR|exact H|]. split; intros; lia.
  - split; intros; lia.
Qed.

(* ------------------------------------------------ the first vector *)

Lemma Qcabs_le : forall a b : Qc, (Qcabs a <= b)%Qc -> (a * a <= b * b)%Qc.
Proof.
  intros a b H. apply Qcabs_Qcle_condition in H. destruct H as [H1 H2].
  revert H1 H2. toQ. intros. nra.
Qed.

Lemma star_double : forall m n v j, lll_reduced m n v -> S j < n ->
  (star2 m (to_Qc v) j <= of_Z 2 * star2 m (to_Qc v) (S j))%Qc.
Proof.
  intros m n v j [R1 R2] H.
  pose proof (Qcabs_le _ _ (R1 j (S j) ltac:(lia))) as M.
  pose proof (R2 (S j) ltac:(lia)) as L. replace (S j - 1) with j in L by lia.
  fold (star2 m (to_Qc v) j) (star2 m (to_Qc v) (S j)) in L.
  pose proof (inner_nonneg m (star m (to_Qc v) j)) as P. fold (star2 m (to_Qc v) j) in P.
  revert M L P. generalize (mu m (to_Qc v) j (S j)) as u.
  generalize (star2 m (to_Qc v) j) as a. generalize (star2 m (to_Qc v) (S j)) as b.
  intros b a u. unfold half, three_quarters, of_Z. toQ. intros.
  change (inject_Z 2) with (2#1)%Q. nra.
Qed.

Lemma star_power : forall m n v j, lll_reduced m n v -> j < n ->
  (star2 m (to_Qc v) 0 <= of_Z (2 ^ Z.of_nat j) * star2 m (to_Qc v) j)%Qc.
Proof.
  intros m n v j R; induction j as [|j IH]; intros H.
  - change (of_Z (2 ^ Z.of_nat 0)) with (of_Z 1). rewrite of_Z_1, Qcmult_1_l. apply Qcle_refl.
  - pose proof (IH ltac:(lia)) as I. pose proof (star_double m n v j R H) as D.
    replace (2 ^ Z.of_nat (S j))%Z with (2 ^ Z.of_nat j * 2)%Z
      by (rewrite Nat2Z.inj_succ, Z.pow_succ_r by lia; ring).
    rewrite of_Z_mul. eapply Qcle_trans; [exact I|].
    assert (P : (0 <= of_Z (2 ^ Z.of_nat j))%Qc).
    { rewrite <- of_Z_0. apply of_Z_le. apply Z.pow_nonneg. lia. }
    revert P D. generalize (of_Z (2 ^ Z.of_nat j)) as p. generalize (of_Z 2) as d.
    generalize (star2 m (to_Qc v) j) as a. generalize (star2 m (to_Qc v) (S j)) as b.
    clear. intros b a d p. toQ. intros. nra.
Qed.

Lemma of_Z_zsum : forall n f, of_Z (zsum n f) = sum n (fun i => of_Z (f i)).
Proof.
  induction n as [|n IH]; intros f; cbn [zsum sum]; [apply of_Z_0|].
  rewrite of_Z_add, IH. reflexivity.
Qed.

Lemma of_Z_norm2 : forall m w,
  of_Z (norm2 m w) = inner m (fun i => of_Z (w i)) (fun i => of_Z (w i)).
Proof.
  intros m w. unfold norm2, inner. rewrite of_Z_zsum. apply sum_ext. intros.
  apply of_Z_mul.
Qed.

Lemma last_nonzero : forall n (z : nat -> Z), (exists j, j < n /\ z j <> 0%Z) ->
  exists j, j < n /\ z j <> 0%Z /\ forall l, j < l < n -> z l = 0%Z.
Proof.
  induction n as [|n IH]; intros z (j & Hj & N); [lia|].
  destruct (Z.eq_dec (z n) 0) as [E|E].
  - destruct (IH z) as (p & P1 & P2 & P3).
    + exists j. split; [|assumption]. destruct (Nat.eq_dec j n) as [->|]; [congruence|lia].
    + exists p. split; [lia|]. split; [assumption|]. intros l Hl.
      destruct (Nat.eq_dec l n) as [->|]; [assumption|apply P3; lia].
  - exists n. split; [lia|]. split; [assumption|]. intros; lia.
Qed.

Lemma first_short : forall m n v z, lll_reduced m n v ->
  (exists j, j < n /\ z j <> 0%Z) ->
  (norm2 m (fun i => v i 0%nat) <= 2 ^ (Z.of_nat n - 1) * norm2 m (combination n v z))%Z.
Proof.
  intros m n v z R H. apply last_nonzero in H. destruct H as (j & Hj & Nj & Zj).
  set (A := to_Qc v). set (w := fun i => of_Z (combination n v z i)).
  assert (W : forall i, w i = sum n (fun l => of_Z (z l) * A i l)%Qc).
  { intros i. unfold w, combination. rewrite of_Z_zsum. apply sum_ext. intros.
    rewrite of_Z_mul. reflexivity. }
  assert (I : inner m (star m A j) w = (of_Z (z j) * star2 m A j)%Qc).
  { rewrite (inner_ext m _ (star m A j) _ (fun i => sum n (fun l => of_Z (z l) * A i l)%Qc))
      by (intros; try reflexivity; apply W).
    rewrite (inner_sum_r m (star m A j) n (fun l => of_Z (z l)) (fun l i => A i l)).
    rewrite (sum_single n j); [|assumption|].
    - rewrite (star_diagonal m A j). reflexivity.
    - intros l Hl Nl. destruct (le_lt_dec l j).
      + rewrite star_above by lia. ring.
      + rewrite Zj by lia. rewrite of_Z_0. ring. }
  assert (C : (of_Z (z j) * of_Z (z j) * star2 m A j <= inner m w w)%Qc).
  { pose proof (inner_nonneg m (fun i => w i - of_Z (z j) * star m A j i)%Qc) as P.
    rewrite (inner_minus_r m _ w (fun i => of_Z (z j) * star m A j i)%Qc) in P.
    rewrite inner_scale_r in P.
    rewrite (inner_sym m _ w), (inner_sym m _ (star m A j)) in P.
    rewrite (inner_minus_r m w w (fun i => of_Z (z j) * star m A j i)%Qc) in P.
    rewrite (inner_minus_r m (star m A j) w (fun i => of_Z (z j) * star m A j i)%Qc) in P.
    rewrite !inner_scale_r, (inner_sym m w (star m A j)), I in P.
    fold (star2 m A j) in P. revert P. generalize (of_Z (z j)) as c.
    generalize (star2 m A j) as b. generalize (inner m w w) as a. clear.
    intros a b c. toQ. intros. lra. }
  apply of_Z_le. rewrite of_Z_mul, !of_Z_norm2. fold w.
  assert (E0 : inner m (fun i => of_Z (v i 0%nat)) (fun i => of_Z (v i 0%nat)) = star2 m A 0).
  { apply inner_ext; intros; rewrite star_eq; cbn [sum]; unfold A, to_Qc; ring. }
  rewrite E0. pose proof (star_power m n v j R Hj) as SP. fold A in SP.
  eapply Qcle_trans; [exact SP|].
  assert (P1 : (1 <= of_Z (z j) * of_Z (z j))%Qc).
  { rewrite <- of_Z_mul, <- of_Z_1. apply of_Z_le. nia. }
  assert (P2 : (of_Z (2 ^ Z.of_nat j) <= of_Z (2 ^ (Z.of_nat n - 1)))%Qc).
  { apply of_Z_le. apply Z.pow_le_mono_r; lia. }
  assert (P3 : (0 <= of_Z (2 ^ Z.of_nat j))%Qc).
  { rewrite <- of_Z_0. apply of_Z_le. apply Z.pow_nonneg. lia. }
  pose proof (inner_nonneg m (star m A j)) as P4. fold (star2 m A j) in P4.
  pose proof (inner_nonneg m w) as P5.
  revert C P1 P2 P3 P4 P5. generalize (of_Z (z j) * of_Z (z j))%Qc as c.
  generalize (of_Z (2 ^ Z.of_nat j)) as p. generalize (of_Z (2 ^ (Z.of_nat n - 1))) as q.
  generalize (star2 m A j) as b. generalize (inner m w w) as a. clear.
  intros a b q p c. toQ. intros.
  assert (b <= a)%Q by nra. nra.
Qed.

Lemma norm2_zero : forall m w, (norm2 m w <= 0)%Z -> forall i, i < m -> w i = 0%Z.
Proof.
  unfold norm2. induction m as [|m IH]; intros w H i Hi; [lia|]. cbn [zsum] in H.
  assert (P : forall k, (0 <= zsum k (fun i => w i * w i))%Z).
  { induction k; cbn [zsum]; nia. }
  pose proof (P m). destruct (Nat.eq_dec i m) as [->|]; [nia|]. apply IH; nia.
Qed.

Lemma dependent_zero : forall m n v z, lll_reduced m n v ->
  (exists j, j < n /\ z j <> 0%Z) ->
  (forall i, i < m -> combination n v z i = 0%Z) ->
  forall i, i < m -> v i 0 = 0%Z.
Proof.
  intros m n v z R H C. apply norm2_zero.
  eapply Z.le_trans; [apply (first_short m n v z R H)|].
  assert (E : norm2 m (combination n v z) = 0%Z).
  { unfold norm2. revert C. clear. induction m as [|m IH]; intros C; cbn [zsum]; [reflexivity|].
    rewrite IH, C by (intros; try apply C; lia). reflexivity. }
  rewrite E. lia.
Qed.

(* ------------------------------------------------------------ rounding *)

(* The nearest integer, ties upward. *)
Definition nearest (x : Qc) : Z :=
  ((2 * Qnum (this x) + Zpos (Qden (this x))) / (2 * Zpos (Qden (this x))))%Z.

Lemma nearest_rounds : rounds nearest.
Proof.
  intros x. apply Qcabs_Qcle_condition. unfold nearest, half, of_Z. toQ.
  destruct (this x) as [p q]. cbn [Qnum Qden].
  pose proof (Z.div_mod (2 * p + Zpos q) (2 * Zpos q) ltac:(lia)) as D.
  pose proof (Z.mod_pos_bound (2 * p + Zpos q) (2 * Zpos q) ltac:(lia)) as B.
  set (r := ((2 * p + Zpos q) / (2 * Zpos q))%Z) in *.
  set (s := ((2 * p + Zpos q) mod (2 * Zpos q))%Z) in *.
  unfold Qle, Qminus, Qplus, Qopp, inject_Z; cbn [Qnum Qden].
  split; nia.
Qed.

Lemma nearest_0 : nearest 0%Qc = 0%Z.
Proof. reflexivity. Qed.

Lemma to_bin_float_near : forall num den s e, (0 < num < 2 ^ 167)%Z -> (0 < den)%Z ->
  to_bin_float 168 num den = (s, e) ->
  (e < 0 /\ den < 2 ^ (- e) /\
   - den <= 2 * (s * den) - 2 * (num * 2 ^ (- e)) <= den /\ 0 <= s)%Z.
Proof.
  intros num den s e Hn Hd E. unfold to_bin_float in E.
  set (a := (Z.log2 num - Z.log2 den)%Z) in E.
  match type of E with context [if ?b then (a - 1)%Z else a] =>
    set (a' := (if b then (a - 1)%Z else a)) in E;
    assert (Ha : (a' <= a)%Z) by (unfold a'; destruct b; lia); clearbody a'
  end.
  assert (Hl : (Z.log2 num < 167)%Z) by (apply Z.log2_lt_pow2; lia).
  assert (He : (a' - (168 - 1) < - Z.log2 den)%Z) by (unfold a in Ha; lia).
  pose proof (Z.log2_nonneg den) as Hd0.
  set (e0 := (a' - (168 - 1))%Z) in *.
  assert (Hp : (den < 2 ^ (- e0))%Z).
  { destruct (Z.log2_spec den Hd) as [_ B].
    eapply Z.lt_le_trans; [exact B|]. apply Z.pow_le_mono_r; lia. }
  replace (Z.max 0 (- e0)) with (- e0)%Z in E by lia.
  replace (Z.max 0 e0) with 0%Z in E by lia. rewrite Z.mul_1_r in E.
  set (n := (num * 2 ^ (- e0))%Z) in *.
  assert (n0 : (0 <= n)%Z) by (unfold n; nia).
  pose proof (Z.div_mod n den ltac:(lia)) as D.
  pose proof (Z.mod_pos_bound n den Hd) as B.
  pose proof (Z.div_pos n den n0 Hd) as QP.
  set (q := (n / den)%Z) in *. set (r := (n mod den)%Z) in *.
  pose proof (f_equal fst E) as E1. pose proof (f_equal snd E) as E2.
  cbn [fst snd] in E1, E2. clear E. subst e. fold n.
  split; [lia|]. split; [exact Hp|]. clearbody n q r. clear - D B QP Hd E1.
  destruct (Z.ltb_spec (2 * r) den) as [L|L]; cbn [orb] in E1.
  - subst s. split; nia.
  - destruct (Z.eqb_spec (2 * r) den) as [L'|L']; cbn [andb] in E1.
    + destruct (Z.even q); subst s; split; nia.
    + subst s. split; nia.
Qed.

Lemma Round_near : forall x, (Z.abs (Qnum (this x)) < 2 ^ 167)%Z ->
  (Qcabs (x - of_Z (Round x)) <= half)%Qc.
Proof.
  intros x H. apply Qcabs_Qcle_condition. unfold Round, half, of_Z. toQ.
  destruct (this x) as [p q]. cbn [Qnum Qden] in *.
  destruct (Z.eqb_spec p 0) as [->|N].
  { unfold Qle, Qminus, Qplus, Qopp, inject_Z; cbn [Qnum Qden]. split; lia. }
  destruct (to_bin_float 168 (Z.abs p) (Zpos q)) as [s e] eqn:E.
  destruct (to_bin_float_near (Z.abs p) (Zpos q) s e ltac:(lia) ltac:(lia) E)
    as (E1 & E2 & E3 & E4).
  unfold round_bin_float. destruct (Z.leb_spec 0 e); [lia|].
  set (F := (2 ^ (- e))%Z) in *. set (d := Zpos q) in *.
  pose proof (Z.div_mod (2 * s + F) (2 * F) ltac:(lia)) as D.
  pose proof (Z.mod_pos_bound (2 * s + F) (2 * F) ltac:(lia)) as B.
  set (R := ((2 * s + F) / (2 * F))%Z) in *.
  set (t := ((2 * s + F) mod (2 * F))%Z) in *.
  assert (d0 : (0 < d)%Z) by (unfold d; lia).
  assert (K : (- d <= 2 * Z.abs p - 2 * R * d <= d)%Z).
  { assert (K1 : (F * (2 * Z.abs p - 2 * R * d) < F * (d + 1))%Z) by nia.
    assert (K2 : (F * (- d - 1) < F * (2 * Z.abs p - 2 * R * d))%Z) by nia.
    assert (0 < F)%Z by lia.
    apply Z.mul_lt_mono_pos_l in K1; [|lia]. apply Z.mul_lt_mono_pos_l in K2; [|lia]. lia. }
  unfold Qle, Qminus, Qplus, Qopp, inject_Z; cbn [Qnum Qden].
  rewrite Pos.mul_1_r. fold d.
  destruct (Z.abs_spec p) as [[A1 A2]|[A1 A2]]; rewrite A2 in K.
  - assert (SG : Z.sgn p = 1%Z) by (apply Z.sgn_pos; lia). rewrite SG. split; nia.
  - assert (SG : Z.sgn p = (-1)%Z) by (apply Z.sgn_neg; lia). rewrite SG. split; nia.
Qed.
