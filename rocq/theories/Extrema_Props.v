From Coq Require Import Reals List Bool Arith ZArith Lia Lra Sorted.
From Flocq Require Import Core IEEE754.BinarySingleNaN IEEE754.Binary IEEE754.Bits.
From Verif Require Import Double_Model Double_Proofs DoubleOrder_Proofs DoubleUlp_Proofs.
From Verif Require RootFinders_Model.
From Verif Require Import Extrema_Model Extrema_Spec Extrema_Proofs Extrema_Proofs2 Extrema_Proofs3 Extrema_Proofs4.
Import ListNotations.
Local Open Scope R_scope.

(** * C83 *)

(** ** The golden-section search *)

(** On doubles, it returns, whatever the function, the comparator and the bounds, including NaNs and
    comparators that are not orders. *)
Theorem C83_golden_terminates : forall f compare l u,
  exists n x, forall m, (n <= m)%nat -> GoldenSectionSearch doubles m f l u compare = Some x.
Proof. exact golden_returns. Qed.
Print Assumptions C83_golden_terminates.

(** On doubles, the result is in the interval. *)
Theorem C83_golden_within : forall f compare l u n x,
  fin l -> fin u -> Rabs (real l) < pow2 1023 -> Rabs (real u) < pow2 1023 -> real l < real u ->
  GoldenSectionSearch doubles n f l u compare = Some x -> fin x /\ real l <= real x <= real u.
Proof. exact golden_within. Qed.
Print Assumptions C83_golden_within.

(** In any arithmetic and for any function and any comparator, no value seen during the search is better
    than the best of the four values at the end. *)
Theorem C83_golden_best : forall (T : Type) (A : arithmetic T) (P : T -> Prop) compare f l u n s',
  strict_weak_order P compare -> (forall x, P (f x)) ->
  golden_loop A n compare f (golden_start A f l u) = Some s' ->
  exists k v, s' = Nat.iter k (golden_step A compare f) (golden_start A f l u) /\ In v (values s') /\
    forall i w, (i <= k)%nat -> In w (values (Nat.iter i (golden_step A compare f) (golden_start A f l u))) ->
      compare w v = false.
Proof.
  intros T A P compare f l u n s' SWO Pf E. set (s := golden_start A f l u) in *.
  destruct (loop_iter A n compare f s s' E) as (k & K & _). exists k, (best compare s').
  split; [exact K|]. split; [apply best_in|]. intros i w Hi Hw.
  assert (Ps : all_P P s) by (unfold all_P, s; cbn; auto).
  assert (Pi : all_P P (Nat.iter i (golden_step A compare f) s)) by (apply iter_P; assumption).
  assert (Q : s' = Nat.iter (k - i) (golden_step A compare f) (Nat.iter i (golden_step A compare f) s)).
  { rewrite K. assert (J : forall j, Nat.iter (j + i) (golden_step A compare f) s
        = Nat.iter j (golden_step A compare f) (Nat.iter i (golden_step A compare f) s)).
    { induction j as [|j IH]; [reflexivity|].
      change (golden_step A compare f (Nat.iter (j + i) (golden_step A compare f) s)
        = golden_step A compare f (Nat.iter j (golden_step A compare f) (Nat.iter i (golden_step A compare f) s))).
      rewrite IH. reflexivity. }
    rewrite <- J. f_equal. lia. }
  rewrite Q. exact (iter_best A P compare SWO f Pf (k - i) _ w Pi Hw).
Qed.
Print Assumptions C83_golden_best.

(** In exact arithmetic the extremum of a unimodal function stays between the bounds, the distance of which
    is multiplied by φ - 1 at each iteration. *)
Theorem C83_golden_converges : forall compare f l u m k, strict_weak_order (fun _ => True) compare ->
  unimodal compare f l u m -> l < u ->
  let s := Nat.iter k (golden_step reals compare f) (golden_start reals f l u) in
  lower s <= m <= upper s /\ upper s - lower s = (golden_ratio - 1) ^ k * (u - l) /\
  Rabs (Barycentre2 reals (lower s) (upper s) - m) <= (golden_ratio - 1) ^ k * (u - l) / 2.
Proof.
  intros compare f l u m k SWO UM LU. cbv zeta.
  destruct (iter_contains compare f l u m k SWO UM LU) as (H & _).
  destruct (iter_sectioned compare f k _ (start_sectioned f l u LU)) as (_ & W).
  change (upper (golden_start reals f l u)) with u in W. change (lower (golden_start reals f l u)) with l in W.
  split; [exact H|]. split; [exact W|]. rewrite <- W, middle_reals. unfold Rabs. destruct (Rcase_abs _); lra.
Qed.
Print Assumptions C83_golden_converges.

(** In exact arithmetic the search doesn't return: its termination is due to the rounding. *)
Theorem C83_golden_exact_refuted : forall compare f l u n, l < u ->
  GoldenSectionSearch reals n f l u compare = None.
Proof.
  intros compare f l u n L. unfold GoldenSectionSearch. rewrite (loop_reals n compare f _ (start_sectioned f l u L)). reflexivity.
Qed.
Print Assumptions C83_golden_exact_refuted.

(** ** The method of Brent *)

(** In any arithmetic and for any function, the result is at least as good as all the points where the
    function is evaluated.  It satisfies the stopping criterion for bounds where the function isn't
    better, or that are the bounds of the search. *)
Theorem C83_brent_best : forall (T : Type) (A : arithmetic T) (P : T -> Prop) f l u greater eps junk n x,
  total_preorder P (less_or_equal A) -> (forall y, P (minimized A greater f y)) ->
  BrentExtremum A n f l u greater eps junk = Some x ->
  let g := minimized A greater f in
  let e := if less A eps (two_epsilon A) then two_epsilon A else eps in
  let s := brent_start A g l u junk in
  (forall y, In y (bx s :: evaluated A n e g s) -> less_or_equal A (g x) (g y) = true) /\
  exists s', bx s' = x /\ brent_stop A e s' = true /\
    bound_or_worse A g l x (ba s') /\ bound_or_worse A g u x (bb s').
Proof.
  intros T A P f l u greater eps junk n x TP Pf E. cbv zeta.
  destruct (loop_best A P TP _ Pf _ l u n _ x (start_consistent A _ l u junk) E) as (H & s' & X & S & C).
  split; [exact H|]. exists s'. split; [exact X|]. split; [exact S|]. rewrite <- X.
  destruct C as (_ & _ & _ & Ca & Cb). split; assumption.
Qed.
Print Assumptions C83_brent_best.

(** In exact arithmetic, it returns, whatever the function and the bounds. *)
Theorem C83_brent_terminates : forall f l u greater eps junk,
  exists n x, forall m, (n <= m)%nat -> BrentExtremum reals m f l u greater eps junk = Some x.
Proof.
  intros f l u greater eps junk. unfold BrentExtremum. apply brent_terminates.
  assert (P : 0 < two_epsilon reals) by (change (0 < / 2 ^ 52); apply Rinv_0_lt_compat; apply pow_lt; lra).
  destruct (less reals eps (two_epsilon reals)) eqn:E; [lra|].
  destruct (Rle_lt_dec 0 eps); [assumption|].
  assert (C : less reals eps (two_epsilon reals) = true) by (apply less_reals; lra). congruence.
Qed.
Print Assumptions C83_brent_terminates.

(** In exact arithmetic, for a function that has a single extremum, the result is within 2 (ε |x| + t) of it. *)
Theorem C83_brent_unimodal : forall f l u greater eps junk n x m, l < u ->
  unimodal (less reals) (minimized reals greater f) l u m ->
  BrentExtremum reals n f l u greater eps junk = Some x ->
  l <= x <= u /\ Rabs (x - m) <= 2 * (Rmax eps (/ 2 ^ 52) * Rabs x + / 2 ^ 1074).
Proof.
  intros f l u greater eps junk n x m L UM E. unfold BrentExtremum in E.
  assert (P : 0 < two_epsilon reals) by (change (0 < / 2 ^ 52); apply Rinv_0_lt_compat; apply pow_lt; lra).
  set (e := if less reals eps (two_epsilon reals) then two_epsilon reals else eps) in E.
  assert (Q : e = Rmax eps (two_epsilon reals)).
  { unfold e. destruct (less reals eps (two_epsilon reals)) eqn:Q.
    - apply less_reals in Q. rewrite Rmax_right by lra. reflexivity.
    - rewrite Rmax_left; [reflexivity|]. apply Rnot_lt_le. intros C. apply less_reals in C. congruence. }
  assert (He : 0 <= e) by (rewrite Q; pose proof (Rmax_r eps (two_epsilon reals)); lra).
  destruct (start_gapped (minimized reals greater f) l u junk L) as (g & HG & H).
  destruct (loop_unimodal e _ g l u m n _ x He HG H UM (start_consistent reals _ l u junk)
    ltac:(cbn; lra) ltac:(cbn; lra) ltac:(cbn; apply UM) E) as (X & W).
  split; [exact W|]. change (/ 2 ^ 52) with (two_epsilon reals). rewrite <- Q.
  change (/ 2 ^ 1074) with (smallest reals). unfold tolerance in X.
  change (plus reals (times reals e (abs reals (minus reals x (nought reals)))) (smallest reals))
    with (e * Rabs (x - 0) + smallest reals) in X. rewrite Rminus_0_r in X. exact X.
Qed.
Print Assumptions C83_brent_unimodal.

(** In exact arithmetic, if the last three points are on a parabola, p / q is the displacement to its vertex. *)
Theorem C83_brent_parabola : forall eps s alpha beta m, alpha <> 0 ->
  (forall y fy, In (y, fy) [(bv s, f_v s); (bw s, f_w s); (bx s, f_x s)] -> fy = alpha * (y - m) * (y - m) + beta) ->
  bv s <> bw s -> bv s <> bx s -> bw s <> bx s -> tolerance reals eps (bx s) < Rabs (be s) ->
  let '(p, q) := parabola reals eps s in 0 < q /\ bx s + p / q = m.
Proof. exact parabola_vertex. Qed.
Print Assumptions C83_brent_parabola.
(** The points 0, 1, 3 of the parabola (x - 2)². *)
Example C83_parabola_example :
  let s := mkBrent (-1) 4 0 1 3 1 3 4 1 1 in
  let '(p, q) := parabola reals 0 s in 3 + p / q = 2.
Proof.
  assert (T : tolerance reals 0 3 < 3).
  { unfold tolerance. change (0 * Rabs (3 - 0) + / 2 ^ 1074 < 3). rewrite Rmult_0_l, Rplus_0_l.
    apply Rle_lt_trans with (/ 1); [|lra]. apply Rinv_le_contravar; [lra|]. apply pow_R1_Rle. lra. }
  pose proof (C83_brent_parabola 0 (mkBrent (-1) 4 0 1 3 1 3 4 1 1) 1 0 2) as H. cbv zeta.
  destruct (parabola reals 0 _) as [p q]. apply H; cbn [bv bw bx be f_v f_w f_x]; try lra.
  - intros y fy [E|[E|[E|[]]]]; injection E as <- <-; ring.
  - rewrite Rabs_pos_eq by lra. exact T.
Qed.

(** The doubles that are not NaNs are ordered. *)
Lemma doubles_order : strict_weak_order number (less doubles) /\ total_preorder number (less_or_equal doubles).
Proof.
  assert (LR : forall x y, number x -> number y -> (lt x y = false <-> (rank y <= rank x)%Z)).
  { intros x y Nx Ny. pose proof (lt_rank x y Nx Ny). destruct (lt x y); split; intros; try discriminate; try lia. }
  assert (LE : forall x y, number x -> number y -> (le x y = true <-> (rank x <= rank y)%Z)).
  { intros x y Nx Ny. unfold le. rewrite (compare_rank x y Nx Ny).
    destruct (Z.compare_spec (rank x) (rank y)); split; intros; try discriminate; try lia; reflexivity. }
  split; [split; [|split]|split]; cbn.
  - intros x Nx. apply LR; [assumption..|lia].
  - intros x y z Nx Ny Nz. rewrite !lt_rank by assumption. lia.
  - intros x y z Nx Ny Nz. rewrite !LR by assumption. lia.
  - intros x y Nx Ny. rewrite !LE by assumption. lia.
  - intros x y z Nx Ny Nz. rewrite !LE by assumption. lia.
Qed.

(** ** DoubleBrent *)

(** In any arithmetic, whatever is returned by the searches for extrema: the function is zero at the results, or
    they are a bound returned by the search for a zero of an interval where the function changes sign. *)
Theorem C83_double_brent_sound : forall (T : Type) (A : arithmetic T) f eps zf minimum maximum n a b l y,
  DoubleBrent A f eps zf minimum maximum n a b = Returned l -> In y l ->
  equal A (f y) (nought A) = true \/ crossing A f zf y.
Proof. intros T A. exact (db_sound A). Qed.
Print Assumptions C83_double_brent_sound.

(** The results are in increasing order, without duplicates. *)
Theorem C83_double_brent_ordered : forall (T : Type) (A : arithmetic T) f eps zf minimum maximum n a b l,
  DoubleBrent A f eps zf minimum maximum n a b = Returned l -> Sorted (fun x y => less A x y = true) l.
Proof. intros T A. exact (db_ordered A). Qed.
Print Assumptions C83_double_brent_ordered.

(** They are in the interval, if the results of the searches are. *)
Theorem C83_double_brent_within : forall (T : Type) (A : arithmetic T) f eps zf minimum maximum (P : T -> Prop),
  total_preorder P (less_or_equal A) ->
  (forall s a b x, In s [zf; minimum; maximum] -> P a -> P b -> less_or_equal A a b = true -> s a b = Returned x ->
     P x /\ less_or_equal A a x = true /\ less_or_equal A x b = true) ->
  forall n a b l y, DoubleBrent A f eps zf minimum maximum n a b = Returned l -> P a -> P b ->
  less_or_equal A a b = true -> In y l -> P y /\ less_or_equal A a y = true /\ less_or_equal A y b = true.
Proof. intros T A. exact (db_within A). Qed.
Print Assumptions C83_double_brent_within.

(** A zero at a bound is a result; if the function changes sign between the bounds there is a result. *)
Theorem C83_double_brent_found : forall (T : Type) (A : arithmetic T) f eps zf minimum maximum n a b l,
  DoubleBrent A f eps zf minimum maximum n a b = Returned l ->
  (equal A (f a) (nought A) = true -> less A a a = false -> member A a l) /\
  (equal A (f b) (nought A) = true -> less A b b = false -> member A b l) /\
  (negative A (f a) <> negative A (f b) -> l <> []).
Proof.
  intros T A f eps zf minimum maximum n a b l E.
  destruct (db_bounds A f eps zf minimum maximum n a b l E) as [H1 H2].
  split; [exact H1|]. split; [exact H2|]. exact (db_change A f eps zf minimum maximum n a b l E).
Qed.
Print Assumptions C83_double_brent_found.

(** If it returns, the interval was divided into intervals that don't need to be divided: the extremum that could
    reveal more zeroes is close to their bounds. *)
Theorem C83_double_brent_exhausted : forall (T : Type) (A : arithmetic T) f eps zf minimum maximum n a b l,
  DoubleBrent A f eps zf minimum maximum n a b = Returned l ->
  exists points, subdivided (exhausted A f eps zf minimum maximum) a points b.
Proof. intros T A. exact (db_exhausted A). Qed.
Print Assumptions C83_double_brent_exhausted.

(** On doubles, for intervals of positive numbers, neither minute nor huge, it returns if the searches do and if the
    zeroes are in the interval.  Missing: the other intervals, see [C83_double_brent_zero_refuted]. *)
Theorem C83_double_brent_terminates_partial : forall f eps zf minimum maximum a b,
  fin eps -> pow2 (-50) <= real eps <= 1 ->
  (forall s a b, In s [zf; minimum; maximum] -> positive a b -> exists x, s a b = Returned x) ->
  (forall a b c, positive a b -> zf a b = Returned c -> fin c /\ real a <= real c <= real b) ->
  positive a b ->
  exists n, forall m, (n <= m)%nat -> exists l, DoubleBrent doubles f eps zf minimum maximum m a b = Returned l.
Proof. exact double_brent_terminates. Qed.
Print Assumptions C83_double_brent_terminates_partial.

(** On the interval from 0 to 0 it doesn't return, whatever the function. *)
Theorem C83_double_brent_zero_refuted : forall f eps junk fuel iterations, fin eps ->
  DoubleBrentDoubles fuel (S iterations) f zero zero eps junk = Running.
Proof.
  intros f eps junk fuel iterations F. unfold DoubleBrentDoubles. apply double_brent_forever; [exact F| |];
    unfold extremum_finder; rewrite brent_at_zero by reflexivity; reflexivity.
Qed.
Print Assumptions C83_double_brent_zero_refuted.

(** The comment "find all the zeroes over the interval" (root_finders.hpp:41) is not true: here is the minimum of two
    continuous functions, which has two zeroes, none of which is found. *)
Definition dip (x : double) : double :=
  let y := sub (mul (of_Z 128) (RootFinders_Model.Abs (sub x (of_Z2 15 (-3))))) one in if lt x y then x else y.
Theorem C83_double_brent_all_refuted :
  DoubleBrentDoubles 10 100 dip one (of_Z 2) double_brent_eps zero = Returned [] /\
  eq (dip (of_Z2 239 (-7))) zero = true /\ eq (dip (of_Z2 241 (-7))) zero = true /\
  lt one (of_Z2 239 (-7)) = true /\ lt (of_Z2 239 (-7)) (of_Z2 241 (-7)) = true /\ lt (of_Z2 241 (-7)) (of_Z 2) = true /\
  eq (dip (of_Z2 15 (-3))) (opp one) = true.
Proof. vm_compute. repeat split. Qed.
Print Assumptions C83_double_brent_all_refuted.

(** ** Examples *)

Definition bits_of (r : option double) : option Z := match r with Some x => Some (bits x) | None => None end.
(** The minimum of |x - (1 + 5 ϵ)|, then a function that decreases. *)
Example C83_golden_example :
  bits_of (GoldenSectionSearch doubles 50 (fun x => RootFinders_Model.Abs (sub (of_Z2 4503599627370501 (-52)) x))
    one (of_Z2 4503599627370511 (-52)) lt) = Some (bits one + 5)%Z /\
  bits_of (GoldenSectionSearch doubles 50 (fun x => sub (of_Z2 4503599627370501 (-52)) x)
    one (of_Z2 4503599627370511 (-52)) lt) = Some (bits one + 14)%Z.
Proof. vm_compute. split; reflexivity. Qed.

(** (x - 1)² is unimodal, and so is its opposite, for which the maximum is sought. *)
Example C83_unimodal_example :
  unimodal (less reals) (minimized reals false (fun x => (x - 1) * (x - 1))) (-1) 2 1 /\
  unimodal (less reals) (minimized reals true (fun x => - ((x - 1) * (x - 1)))) (-1) 2 1 /\
  strict_weak_order (fun _ => True) (less reals).
Proof.
  unfold unimodal, minimized, strict_weak_order. cbn. repeat split; try lra; intros;
    repeat match goal with
      | |- context[Rlt_dec ?x ?y] => destruct (Rlt_dec x y)
      | H : context[Rlt_dec ?x ?y] |- _ => destruct (Rlt_dec x y)
      end; try reflexivity; try discriminate; try lra; exfalso; nra.
Qed.

(** The minimum of (x - 1)² and the maximum of - (x - 1)², on doubles. *)
Example C83_brent_example :
  bits_of (BrentExtremum doubles 10 (fun x => mul (sub x one) (sub x one)) (opp one) (of_Z 2) false brent_eps zero) = Some (bits one) /\
  bits_of (BrentExtremum doubles 10 (fun x => opp (mul (sub x one) (sub x one))) (opp one) (of_Z 2) true brent_eps zero) = Some (bits one) /\
  BrentExtremum doubles 2 (fun x => mul (sub x one) (sub x one)) (opp one) (of_Z 2) false brent_eps zero = None.
Proof. vm_compute. repeat split; reflexivity. Qed.

(** The zero of x - 3/2 between 1 and 2. *)
Example C83_double_brent_example :
  (match DoubleBrentDoubles 10 100 (fun x => sub x (of_Z2 3 (-1))) one (of_Z 2) double_brent_eps zero with
   | Returned l => Some (map bits l)
   | _ => None
   end) = Some [bits (of_Z2 3 (-1))].
Proof. vm_compute. reflexivity. Qed.

(** Searches that satisfy the hypotheses of the termination. *)
Example C83_terminates_example :
  exists n, forall m, (n <= m)%nat ->
    exists l, DoubleBrent doubles (fun x => sub x (of_Z2 3 (-1))) double_brent_eps
      (fun a b => Returned a) (fun a b => Returned a) (fun a b => Returned b) m one (of_Z 2) = Returned l.
Proof.
  assert (O : fin one /\ real one = 1) by (exact (real_of_small 1 ltac:(vm_compute; discriminate))).
  destruct (real_of_small 2 ltac:(vm_compute; discriminate)) as [F2 R2]. destruct O as [F1 R1].
  assert (B : exists e, fin e /\ e = double_brent_eps /\ pow2 (-50) <= real e <= 1).
  { exists double_brent_eps. split; [reflexivity|]. split; [reflexivity|].
    assert (F : fin double_brent_eps) by reflexivity. destruct (DoubleScale_Proofs.real_of_pow2 (-50) ltac:(lia)) as [Fp Rp].
    rewrite <- Rp. split.
    - apply (le_fin (of_Z2 1 (-50)) double_brent_eps Fp F). reflexivity.
    - rewrite <- R1. apply (le_fin double_brent_eps one F F1). reflexivity. }
  destruct B as (e & Fe & -> & Be).
  apply C83_double_brent_terminates_partial; [exact Fe|exact Be| | |].
  - intros s a b [<-|[<-|[<-|[]]]] _; eexists; reflexivity.
  - intros a b c (Fa & Fb & H & _) E. injection E as <-. split; [exact Fa|lra].
  - unfold positive. rewrite R1, R2. split; [exact F1|]. split; [exact F2|].
    assert (pow2 (-900) <= 1) by (change 1 with (pow2 0); apply bpow_le; lia).
    assert (2 <= pow2 1000) by (change 2 with (pow2 1) at 1; apply bpow_le; lia). lra.
Qed.
