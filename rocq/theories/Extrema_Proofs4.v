(* Proofs about the extrema, on doubles. *)
From Coq Require Import Reals List Bool Arith ZArith Lia Lra.
From Flocq Require Import Core IEEE754.BinarySingleNaN IEEE754.Binary IEEE754.Bits Relative.
From Verif Require Import Double_Model Double_Proofs DoubleOrder_Proofs DoubleScale_Proofs DoubleUlp_Proofs.
From Verif Require RootFinders_Model RootFinders_Proofs.
From Verif Require Import Extrema_Model Extrema_Spec Extrema_Proofs Extrema_Proofs3.
Import ListNotations.
Local Open Scope R_scope.

Lemma lt_numbers : forall x y, lt x y = true -> number x /\ number y.
Proof.
  intros x y H. unfold number. destruct x, y; try (split; reflexivity); destruct s; try discriminate H;
    try (destruct s0; discriminate H); discriminate H.
Qed.

Lemma less_rank_doubles : forall x y, less doubles x y = true -> (rank x < rank y)%Z.
Proof. intros x y H. cbn in H. pose proof (lt_numbers x y H) as [Nx Ny]. apply lt_rank; assumption. Qed.

(* ------------------------------------------------- the golden-section search *)

Lemma golden_numbers : forall compare f fuel s s', number (lower s) -> number (upper s) ->
  golden_loop doubles fuel compare f s = Some s' -> number (lower s') /\ number (upper s').
Proof.
  intros compare f. induction fuel as [|n IH]; intros s s' Nl Nu E; [discriminate|]. cbn [golden_loop] in E.
  destruct (golden_continue doubles s) eqn:C; [|injection E as <-; auto].
  unfold golden_continue in C. apply andb_true_iff in C. destruct C as [C C3].
  apply andb_true_iff in C. destruct C as [C1 C2]. cbn in C1, C2, C3.
  apply lt_numbers in C1, C2, C3.
  apply (IH (golden_step doubles compare f s)); [| |exact E]; unfold golden_step; destruct (compare _ _); cbn; tauto.
Qed.

Lemma rank_le_real : forall x y, fin x -> fin y -> ((rank x <= rank y)%Z <-> real x <= real y).
Proof.
  intros x y Fx Fy. pose proof (rank_real y x Fy Fx) as H. split; intros L.
  - apply Rnot_lt_le. intros C. apply H in C. lia.
  - apply Z.nlt_ge. intros C. apply H in C. lra.
Qed.

Lemma golden_returns : forall f compare l u,
  exists n x, forall m, (n <= m)%nat -> GoldenSectionSearch doubles m f l u compare = Some x.
Proof.
  intros f compare l u. set (s := golden_start doubles f l u).
  set (n := Datatypes.S (Z.to_nat (rank (upper s) - rank (lower s)))).
  destruct (loop_terminates doubles rank less_rank_doubles compare f n s ltac:(unfold n; lia)) as (s' & E).
  exists n, (Barycentre2 doubles (lower s') (upper s')). intros m Hm. unfold GoldenSectionSearch. fold s.
  assert (M : forall n m s s', (n <= m)%nat -> golden_loop doubles n compare f s = Some s' ->
    golden_loop doubles m compare f s = Some s').
  { clear. induction n as [|n IH]; intros m s s' L E; [discriminate|]. destruct m as [|m]; [lia|].
    cbn [golden_loop] in *. destruct (golden_continue doubles s); [|exact E]. apply IH; [lia|exact E]. }
  rewrite (M n m s s' Hm E). reflexivity.
Qed.

Lemma golden_within : forall f compare l u n x,
  fin l -> fin u -> Rabs (real l) < pow2 1023 -> Rabs (real u) < pow2 1023 -> real l < real u ->
  GoldenSectionSearch doubles n f l u compare = Some x -> fin x /\ real l <= real x <= real u.
Proof.
  intros f compare l u n x Fl Fu Bl Bu L E. unfold GoldenSectionSearch in E.
  set (s := golden_start doubles f l u) in *.
  destruct (golden_loop doubles n compare f s) as [s'|] eqn:G; [|discriminate]. injection E as <-.
  assert (Nl : number l) by (apply finite_number; exact Fl). assert (Nu : number u) by (apply finite_number; exact Fu).
  destruct (golden_numbers compare f n s s' Nl Nu G) as [Nl' Nu'].
  pose proof (proj2 (rank_real l u Fl Fu) L) as RL.
  destruct (loop_bounds doubles rank less_rank_doubles compare f n s s' G RL) as (B1 & B2 & B3).
  change (lower s) with l in B1. change (upper s) with u in B3.
  apply finite_rank in Fl as Ql; [|exact Nl]. apply finite_rank in Fu as Qu; [|exact Nu].
  assert (Fl' : fin (lower s')) by (apply finite_rank; [exact Nl'|lia]).
  assert (Fu' : fin (upper s')) by (apply finite_rank; [exact Nu'|lia]).
  apply rank_le_real in B1; [|assumption..]. apply rank_le_real in B3; [|assumption..].
  apply rank_real in B2; [|assumption..].
  assert (S1 : RootFinders_Proofs.small (lower s')).
  { split; [exact Fl'|]. apply Rabs_def1; apply Rabs_def2 in Bl, Bu; lra. }
  assert (S2 : RootFinders_Proofs.small (upper s')).
  { split; [exact Fu'|]. apply Rabs_def1; apply Rabs_def2 in Bl, Bu; lra. }
  destruct (RootFinders_Proofs.middle_ok _ _ S1 S2) as [F M].
  split; [exact F|].
  change (real l <= real (RootFinders_Model.Barycentre (lower s') (upper s')) <= real u). rewrite M.
  pose proof (RootFinders_Proofs.middle_within (real (lower s')) (real (upper s'))
    (representable_real _) (representable_real _) ltac:(lra)). lra.
Qed.

(* ------------------------------------------------------------- DoubleBrent *)

Lemma brent_at_zero : forall f greater eps junk n, fin eps ->
  BrentExtremum doubles (Datatypes.S n) f zero zero greater eps junk = Some zero.
Proof.
  intros f greater eps junk n F. unfold BrentExtremum. set (e := if less doubles eps _ then _ else _).
  assert (Fe : fin e) by (unfold e; destruct (less doubles _ _); [reflexivity|exact F]). clearbody e.
  cbn [brent_loop]. unfold brent_start. set (s := mkBrent _ _ _ _ _ _ _ _ _ _).
  change (bx s) with zero.
  replace (brent_stop doubles e s) with true; [reflexivity|]. unfold brent_stop.
  change (ba s) with zero. change (bb s) with zero. change (bx s) with zero.
  destruct e as [[]|[]|? ? ?|[] ? ? ?]; try discriminate Fe; reflexivity.
Qed.

Lemma effective_zero : forall eps, fin eps -> effective doubles eps zero zero zero = true.
Proof. intros eps F. destruct eps as [[]|[]|? ? ?|[] ? ? ?]; try discriminate F; reflexivity. Qed.

Lemma double_brent_forever : forall f eps zf minimum maximum fuel, fin eps ->
  minimum zero zero = Returned zero -> maximum zero zero = Returned zero ->
  DoubleBrent doubles f eps zf minimum maximum fuel zero zero = Running.
Proof.
  intros f eps zf minimum maximum fuel F Mi Ma. induction fuel as [|n IH]; [reflexivity|].
  assert (B : forall z, both doubles (DoubleBrent doubles f eps zf minimum maximum n) z zero zero zero = Running).
  { intros z. unfold both. rewrite IH. reflexivity. }
  cbn [DoubleBrent]. destruct (_ || _).
  - unfold at_bound. rewrite Mi, effective_zero by exact F. apply B.
  - rewrite Bool.eqb_reflx. destruct (negb _); rewrite ?Mi, ?Ma, effective_zero by exact F; apply B.
Qed.

(* The rounding of a number that is not too small. *)
Lemma relative : forall x, pow2 (-1022) <= Rabs x -> Rabs (rounded x - x) <= pow2 (-53) * Rabs x.
Proof.
  intros x H. pose proof (relative_error_N_FLT radix2 (-1074) 53 prec53 (fun n => negb (Z.even n)) x H) as R.
  replace (pow2 (-53)) with (/ 2 * pow2 (- (53) + 1)); [exact R|].
  change (/ 2) with (pow2 (-1)). rewrite <- bpow_plus. reflexivity.
Qed.

Lemma minus_zero : forall x, fin x -> fin (sub x zero) /\ real (sub x zero) = real x.
Proof.
  intros b FB. generalize (Bminus_correct 53 1024 (refl_equal _) (refl_equal _) binop_nan_pl64 mode_NE b zero FB eq_refl).
  change (round radix2 (SpecFloat.fexp 53 1024) (round_mode mode_NE) (B2R 53 1024 b - B2R 53 1024 zero)) with (rounded (real b - real zero)). change (real zero) with 0.
  rewrite Rminus_0_r, rounded_id by apply representable_real. rewrite Rlt_bool_true by apply real_bound.
  intros [R [G _]]. split; [exact G|exact R].
Qed.

(* Positive intervals. *)
Definition positive (a b : double) := fin a /\ fin b /\ pow2 (-900) <= real a <= real b /\ real b <= pow2 1000.

Lemma le_fin_between : forall x y z, fin x -> fin z -> le x y = true -> le y z = true -> fin y.
Proof.
  intros x y z Fx Fz H1 H2. destruct y as [?|s|? ? ?|? ? ? ?]; try reflexivity; exfalso.
  - destruct s.
    + destruct x as [[]|[]|? ? ?|[] ? ? ?]; try discriminate Fx; discriminate H1.
    + destruct z as [[]|[]|? ? ?|[] ? ? ?]; try discriminate Fz; discriminate H2.
  - destruct x as [[]|[]|? ? ?|[] ? ? ?]; discriminate H1.
Qed.

Lemma effective_inside : forall eps a b x, fin eps -> pow2 (-50) <= real eps <= 1 -> positive a b ->
  effective doubles eps a b x = true -> fin x /\ real a < real x < real b.
Proof.
  intros eps a b x FE HE (Fa & Fb & Hab & Hb) E. unfold effective, effective_bounds in E.
  cbn [less_or_equal doubles plus minus times less abs nought] in E.
  destruct (minus_zero a Fa) as [Fa0 Ra0]. destruct (minus_zero b Fb) as [Fb0 Rb0].
  assert (P900 : 0 < pow2 (-900)) by apply bpow_gt_0.
  set (X := RootFinders_Model.Abs (sub a zero)) in E. set (Y := RootFinders_Model.Abs (sub b zero)) in E.
  assert (FX : fin X /\ real X = real a).
  { unfold X. split; [apply RootFinders_Proofs.abs_fin; exact Fa0|].
    rewrite RootFinders_Proofs.abs_real, Ra0, Rabs_pos_eq by lra. reflexivity. }
  assert (FY : fin Y /\ real Y = real b).
  { unfold Y. split; [apply RootFinders_Proofs.abs_fin; exact Fb0|].
    rewrite RootFinders_Proofs.abs_real, Rb0, Rabs_pos_eq by lra. reflexivity. }
  destruct FX as [FX RX]. destruct FY as [FY RY].
  set (M := if lt X Y then Y else X) in E.
  assert (FM : fin M /\ real M = real b).
  { unfold M. destruct (lt X Y) eqn:LT; [auto|]. split; [exact FX|]. rewrite RX.
    destruct (Rle_lt_dec (real b) (real a)); [lra|]. exfalso.
    assert (C : lt X Y = true) by (apply lt_fin; [exact FX|exact FY|lra]). congruence. }
  destruct FM as [FM RM]. clearbody M. clear X Y FX RX FY RY.
  set (t := mul eps M) in E.
  assert (P50 : pow2 (-50) = / 1125899906842624) by reflexivity.
  assert (P51 : pow2 (-51) = / 2251799813685248) by reflexivity.
  assert (P53 : pow2 (-53) = / 9007199254740992) by reflexivity.
  assert (EB : pow2 (-1022) <= real eps * real b).
  { apply Rle_trans with (pow2 (-50) * pow2 (-900)).
    - rewrite <- bpow_plus. apply bpow_le. lia.
    - apply Rmult_le_compat; try apply bpow_ge_0; lra. }
  assert (EP : 0 < real eps * real b) by (pose proof (bpow_gt_0 radix2 (-1022)); lra).
  pose proof (relative (real eps * real b)) as RT. rewrite Rabs_pos_eq in RT by lra. specialize (RT EB).
  apply Rabs_le_inv in RT. rewrite P50 in HE. rewrite P53 in RT.
  assert (T1 : pow2 (-51) * real b <= rounded (real eps * real b)) by (rewrite P51; nra).
  assert (T2 : rounded (real eps * real b) <= real b).
  { rewrite <- (rounded_id (real b)) at 2 by apply representable_real. apply rounded_le. nra. }
  rewrite P51 in T1.
  assert (B1000 : pow2 1000 < pow2 1022) by (apply bpow_lt; lia).
  assert (B1022 : pow2 1023 = 2 * pow2 1022) by (change 2 with (pow2 1); rewrite <- bpow_plus; reflexivity).
  assert (B1023 : pow2 1024 = 2 * pow2 1023) by (change 2 with (pow2 1); rewrite <- bpow_plus; reflexivity).
  destruct (mul_ok eps M FE FM) as (FT & RT' & _).
  { rewrite RM, Rabs_pos_eq by lra. lra. }
  fold t in FT, RT'. rewrite RM in RT'. rewrite <- RT' in T1, T2. clearbody t.
  destruct (add_ok a t Fa FT) as [FA RA]; [rewrite Rabs_pos_eq by lra; lra|].
  destruct (sub_ok b t Fb FT) as [FS RS]; [rewrite Rabs_pos_eq by lra; lra|].
  apply andb_true_iff in E. destruct E as [E1 E2].
  assert (Fx : fin x) by (apply (le_fin_between (add a t) x (sub b t)); assumption).
  apply le_fin in E1; [|assumption..]. apply le_fin in E2; [|assumption..].
  rewrite RA in E1. rewrite RS in E2.
  assert (S900 : pow2 (-1022) <= pow2 (-900) / 2).
  { change (pow2 (-900) / 2) with (pow2 (-900) * pow2 (-1)). rewrite <- bpow_plus. apply bpow_le. lia. }
  split; [exact Fx|]. split.
  - assert (N : pow2 (-1022) <= Rabs (real a + real t)) by (rewrite Rabs_pos_eq by lra; lra).
    apply relative in N. rewrite (Rabs_pos_eq (real a + real t)) in N by lra. apply Rabs_le_inv in N.
    rewrite P53 in N. nra.
  - set (z := real b * (1 - / 2251799813685248)).
    assert (Z : rounded (real b - real t) <= rounded z) by (apply rounded_le; unfold z; lra).
    assert (N : pow2 (-1022) <= Rabs z) by (rewrite Rabs_pos_eq by (unfold z; lra); unfold z; lra).
    apply relative in N. rewrite (Rabs_pos_eq z) in N by (unfold z; lra). apply Rabs_le_inv in N.
    rewrite P53 in N. unfold z in *. lra.
Qed.

Theorem double_brent_terminates : forall f eps zf minimum maximum a b, fin eps -> pow2 (-50) <= real eps <= 1 ->
  (forall s a b, In s [zf; minimum; maximum] -> positive a b -> exists x, s a b = Returned x) ->
  (forall a b c, positive a b -> zf a b = Returned c -> fin c /\ real a <= real c <= real b) ->
  positive a b ->
  exists n, forall m, (n <= m)%nat -> exists l, DoubleBrent doubles f eps zf minimum maximum m a b = Returned l.
Proof.
  intros f eps zf minimum maximum a b FE HE R W H.
  exists (Datatypes.S (Z.to_nat (rank b - rank a))). intros m Hm.
  apply (db_terminates doubles f eps zf minimum maximum positive (fun a b => Z.to_nat (rank b - rank a)));
    [exact R| | |exact H|lia].
  - intros s c d x _ Hcd _ F. destruct (effective_inside eps c d x FE HE Hcd F) as (Fx & X).
    destruct Hcd as (Fc & Fd & Hcd & Hd).
    pose proof (proj2 (rank_real c x Fc Fx) (proj1 X)). pose proof (proj2 (rank_real x d Fx Fd) (proj2 X)).
    unfold positive. repeat split; auto; try lra; lia.
  - intros c d x Hcd Z Q1 Q2. destruct (W c d x Hcd Z) as (Fx & X).
    destruct Hcd as (Fc & Fd & Hcd & Hd). cbn in Q1, Q2.
    assert (N1 : real c <> real x) by (intros C; apply (eq_fin c x Fc Fx) in C; congruence).
    assert (N2 : real d <> real x) by (intros C; apply (eq_fin d x Fd Fx) in C; congruence).
    pose proof (proj2 (rank_real c x Fc Fx) ltac:(lra)). pose proof (proj2 (rank_real x d Fx Fd) ltac:(lra)).
    unfold positive. repeat split; auto; try lra; lia.
Qed.
