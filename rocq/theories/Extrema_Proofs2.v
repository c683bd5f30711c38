(* Proofs about the method of Brent for extrema. *)
From Coq Require Import Reals List Bool Arith ZArith Lia Lra.
From Verif Require Import Extrema_Model Extrema_Spec Extrema_Proofs.
Import ListNotations.

(* ------------------------------------------------------------ any arithmetic *)

Section Generic.
Context {T : Type} (A : arithmetic T).
Variable P : T -> Prop.
Hypothesis TP : total_preorder P (less_or_equal A).
Variable f : T -> T.
Hypothesis fP : forall x, P (f x).
Variable eps : T.
Notation le := (less_or_equal A).

Lemma le_refl : forall x, P x -> le x x = true.
Proof. intros x Px. destruct TP as [To _]. destruct (To x x Px Px); assumption. Qed.

Definition consistent (lower upper : T) (s : @brent T) :=
  f_x s = f (bx s) /\ f_v s = f (bv s) /\ f_w s = f (bw s) /\
  bound_or_worse A f lower (bx s) (ba s) /\ bound_or_worse A f upper (bx s) (bb s).

Lemma worse_trans : forall bound x x' y, bound_or_worse A f bound x y -> le (f x') (f x) = true ->
  bound_or_worse A f bound x' y.
Proof.
  intros bound x x' y [H|H] L; [left; exact H|right]. destruct TP as [_ Tr].
  exact (Tr _ _ _ (fP x') (fP x) (fP y) L H).
Qed.

Lemma update_consistent : forall lower upper s d e u, consistent lower upper s ->
  let s' := brent_update A s d e u (f u) in
  consistent lower upper s' /\ le (f (bx s')) (f (bx s)) = true /\ le (f (bx s')) (f u) = true.
Proof.
  intros lower upper s d e u (Hx & Hv & Hw & Ha & Hb). cbv zeta. unfold brent_update. rewrite Hx.
  destruct (le (f u) (f (bx s))) eqn:E.
  - destruct (less A u (bx s)); unfold consistent; cbn.
    + repeat split; auto using le_refl.
      * apply (worse_trans lower (bx s)); assumption.
      * right. exact E.
    + repeat split; auto using le_refl.
      * right. exact E.
      * apply (worse_trans upper (bx s)); assumption.
  - assert (E' : le (f (bx s)) (f u) = true).
    { destruct TP as [To _]. destruct (To (f (bx s)) (f u) (fP _) (fP _)); [assumption|congruence]. }
    assert (R : le (f (bx s)) (f (bx s)) = true) by (apply le_refl; apply fP).
    assert (C : forall a b v w fv fw, fv = f v -> fw = f w ->
      bound_or_worse A f lower (bx s) a -> bound_or_worse A f upper (bx s) b ->
      consistent lower upper (mkBrent a b v w (bx s) d e fv fw (f (bx s)))).
    { intros. unfold consistent; cbn. auto 8. }
    destruct (less A u (bx s)); cbv iota beta;
      destruct (le (f u) (f_w s) || equal A (bw s) (bx s)).
    + split; [|split; assumption]. apply C; auto. right. exact E'.
    + destruct (le (f u) (f_v s) || equal A (bv s) (bx s) || equal A (bv s) (bw s));
        (split; [|split; assumption]); apply C; auto; right; exact E'.
    + split; [|split; assumption]. apply C; auto. right. exact E'.
    + destruct (le (f u) (f_v s) || equal A (bv s) (bx s) || equal A (bv s) (bw s));
        (split; [|split; assumption]); apply C; auto; right; exact E'.
Qed.

Lemma step_consistent : forall lower upper s, consistent lower upper s ->
  let s' := brent_step A eps f s in
  consistent lower upper s' /\ le (f (bx s')) (f (bx s)) = true /\
  le (f (bx s')) (f (brent_point A eps s (fst (brent_move A eps s)))) = true.
Proof.
  intros lower upper s H. cbv zeta. unfold brent_step.
  destruct (brent_move A eps s) as [d e]. apply update_consistent. exact H.
Qed.

Lemma start_consistent : forall lower upper junk, consistent lower upper (brent_start A f lower upper junk).
Proof. intros. unfold consistent, brent_start, bound_or_worse. cbn. auto 8. Qed.

Lemma loop_best : forall lower upper fuel s x, consistent lower upper s ->
  brent_loop A fuel eps f s = Some x ->
  (forall y, In y (bx s :: evaluated A fuel eps f s) -> le (f x) (f y) = true) /\
  exists s', bx s' = x /\ brent_stop A eps s' = true /\ consistent lower upper s'.
Proof.
  intros lower upper. induction fuel as [|n IH]; intros s x C E; [discriminate|].
  cbn [brent_loop evaluated] in *. destruct (brent_stop A eps s) eqn:St.
  - injection E as <-. split.
    + intros y [<-|[]]. apply le_refl. apply fP.
    + exists s. auto.
  - destruct (step_consistent lower upper s C) as (C' & L1 & L2).
    destruct (IH _ x C' E) as (H1 & H2). split; [|exact H2].
    assert (B : le (f x) (f (bx (brent_step A eps f s))) = true) by (apply H1; left; reflexivity).
    destruct TP as [_ Tr].
    intros y [<-|[<-|Hy]].
    + exact (Tr _ _ _ (fP _) (fP _) (fP _) B L1).
    + exact (Tr _ _ _ (fP _) (fP _) (fP _) B L2).
    + apply H1. right. exact Hy.
Qed.

End Generic.

(* --------------------------------------------------------------- the reals *)

Local Open Scope R_scope.
Notation c := (2 - golden_ratio).

Ltac decide_R H := match type of H with
  | (if Rlt_dec ?x ?y then true else false) = _ => destruct (Rlt_dec x y); try discriminate H
  | (if Rle_dec ?x ?y then true else false) = _ => destruct (Rle_dec x y); try discriminate H
  end.

Lemma smallest_pos : 0 < smallest reals.
Proof. change (0 < / 2 ^ 1074). apply Rinv_0_lt_compat. apply pow_lt. lra. Qed.

Lemma tolerance_smallest : forall eps x, 0 <= eps -> smallest reals <= tolerance reals eps x.
Proof.
  intros eps x H. unfold tolerance. set (t := smallest reals). clearbody t. cbn.
  pose proof (Rmult_le_pos eps (Rabs (x - 0)) H (Rabs_pos _)). lra.
Qed.

Lemma middle_reals : forall a b, Barycentre2 reals a b = (a + b) / 2.
Proof. intros. unfold Barycentre2. cbn. field. Qed.

Lemma parabola_nonneg : forall eps s p q, parabola reals eps s = (p, q) -> 0 <= q.
Proof.
  intros eps s p q E. unfold parabola in E. destruct (less reals _ _); [|injection E as _ <-; apply Rle_refl].
  cbv zeta in E. set (q0 := times reals (two reals) _) in E. change (negative reals q0) with
    (if Rlt_dec q0 0 then true else false) in E.
  destruct (Rlt_dec q0 0) as [L|L]; cbn [negb] in E; injection E as _ <-; [|lra].
  change (0 <= - q0). lra.
Qed.

(* Where the function is evaluated. *)
Lemma stop_false : forall eps s, brent_stop reals eps s = false ->
  let tol := tolerance reals eps (bx s) in
  (bx s < (ba s + bb s) / 2 -> 2 * tol < bb s - bx s) /\
  ((ba s + bb s) / 2 <= bx s -> 2 * tol < bx s - ba s).
Proof.
  intros eps s E. cbv zeta. unfold brent_stop in E. rewrite middle_reals in E.
  set (tol := tolerance reals eps (bx s)) in *. clearbody tol. cbn in E. decide_R E.
  split; intros H; revert n; unfold Rabs; destruct (Rcase_abs _); lra.
Qed.

Lemma stop_true : forall eps s, brent_stop reals eps s = true ->
  let tol := tolerance reals eps (bx s) in bb s - bx s <= 2 * tol /\ bx s - ba s <= 2 * tol.
Proof.
  intros eps s E. cbv zeta. unfold brent_stop in E. rewrite middle_reals in E.
  set (tol := tolerance reals eps (bx s)) in *. clearbody tol. cbn in E. decide_R E.
  revert r; unfold Rabs; destruct (Rcase_abs _); lra.
Qed.

Lemma point_reals : forall eps s, 0 <= eps -> ba s <= bx s <= bb s -> brent_stop reals eps s = false ->
  let tol := tolerance reals eps (bx s) in
  let u := brent_point reals eps s (fst (brent_move reals eps s)) in
  tol <= Rabs (u - bx s) /\ ba s + tol <= u <= bb s - tol.
Proof.
  intros eps s HE HX ST. pose proof (stop_false eps s ST) as [SL SU].
  pose proof (tolerance_smallest eps (bx s) HE) as T1. pose proof smallest_pos as T0.
  unfold brent_point, brent_move. cbv zeta in *. rewrite middle_reals.
  set (tol := tolerance reals eps (bx s)) in *. destruct (parabola reals eps s) as [p q] eqn:EP.
  apply parabola_nonneg in EP. cbn [less reals plus minus times over minus1 abs negative half two lower_interior_ratio].
  pose proof golden_bounds as GB.
  (* the displacement towards the larger side *)
  assert (G : forall d, (bx s < (ba s + bb s) / 2 -> 0 < d <= bb s - bx s - tol) ->
                        ((ba s + bb s) / 2 <= bx s -> ba s - bx s + tol <= d < 0) ->
    let u := bx s + (if if Rlt_dec tol (Rabs d) then true else false then d
                     else if if Rlt_dec d 0 then true else false then - tol else tol) in
    tol <= Rabs (u - bx s) /\ ba s + tol <= u <= bb s - tol).
  { intros d D1 D2. cbv zeta. destruct (Rlt_le_dec (bx s) ((ba s + bb s) / 2)) as [X|X].
    - specialize (D1 X). specialize (SL X). rewrite (Rabs_pos_eq d) by lra.
      destruct (Rlt_dec tol d).
      + replace (bx s + d - bx s) with d by ring. rewrite Rabs_pos_eq by lra. lra.
      + destruct (Rlt_dec d 0); [lra|]. replace (bx s + tol - bx s) with tol by ring.
        rewrite Rabs_pos_eq by lra. lra.
    - specialize (D2 X). specialize (SU X). rewrite (Rabs_left d) by lra.
      destruct (Rlt_dec tol (- d)).
      + replace (bx s + d - bx s) with d by ring. rewrite Rabs_left by lra. lra.
      + destruct (Rlt_dec d 0); [|lra]. replace (bx s + - tol - bx s) with (- tol) by ring.
        rewrite Rabs_left by lra. lra. }
  destruct (Rlt_dec (Rabs p) (Rabs (/ 2 * q * be s))) as [C1|C1];
    [destruct (Rlt_dec (q * (ba s - bx s)) p) as [C2|C2];
      [destruct (Rlt_dec p (q * (bb s - bx s))) as [C3|C3]|]|]; cbn [andb].
  - (* A parabolic step. *)
    assert (Q : 0 < q).
    { destruct (Req_dec q 0) as [Z|Z]; [|lra]. exfalso. rewrite Z in C1.
      replace (/ 2 * 0 * be s) with 0 in C1 by ring. rewrite Rabs_R0 in C1. pose proof (Rabs_pos p). lra. }
    set (d := p / q). assert (D : p = q * d) by (unfold d; field; lra).
    assert (D1 : ba s - bx s < d) by (apply (Rmult_lt_reg_l q); lra).
    assert (D2 : d < bb s - bx s) by (apply (Rmult_lt_reg_l q); lra).
    destruct (Rlt_dec (bx s + d - ba s) (2 * tol)) as [L|L];
      [|destruct (Rlt_dec (bb s - (bx s + d)) (2 * tol)) as [U|U]]; cbn [orb fst].
    + apply G; intros X; (destruct (Rlt_dec (bx s) ((ba s + bb s) / 2)); [|try lra]); try lra;
      try specialize (SL X); try specialize (SU X); nra.
    + apply G; intros X; (destruct (Rlt_dec (bx s) ((ba s + bb s) / 2)); [|try lra]); try lra;
      try specialize (SL X); try specialize (SU X); nra.
    + destruct (Rlt_dec tol (Rabs d)) as [V|V].
      * replace (bx s + d - bx s) with d by ring. lra.
      * revert V. destruct (Rlt_dec d 0) as [N|N].
        -- rewrite Rabs_left by lra. intros V. replace (bx s + - tol - bx s) with (- tol) by ring.
           rewrite Rabs_left by lra. lra.
        -- rewrite Rabs_pos_eq by lra. intros V. replace (bx s + tol - bx s) with tol by ring.
           rewrite Rabs_pos_eq by lra. lra.
  - cbn [fst]. apply G; intros X; (destruct (Rlt_dec (bx s) ((ba s + bb s) / 2)); [|try lra]); try lra;
      try specialize (SL X); try specialize (SU X); nra.
  - cbn [fst]. apply G; intros X; (destruct (Rlt_dec (bx s) ((ba s + bb s) / 2)); [|try lra]); try lra;
      try specialize (SL X); try specialize (SU X); nra.
  - cbn [fst]. apply G; intros X; (destruct (Rlt_dec (bx s) ((ba s + bb s) / 2)); [|try lra]); try lra;
      try specialize (SL X); try specialize (SU X); nra.
Qed.

(* The interval after an update. *)
Lemma update_interval : forall s d e u fu,
  let s' := brent_update reals s d e u fu in
  (fu <= f_x s /\ bx s' = u /\
   ((u < bx s /\ ba s' = ba s /\ bb s' = bx s) \/ (bx s <= u /\ ba s' = bx s /\ bb s' = bb s))) \/
  (f_x s < fu /\ bx s' = bx s /\
   ((u < bx s /\ ba s' = u /\ bb s' = bb s) \/ (bx s <= u /\ ba s' = ba s /\ bb s' = u))).
Proof.
  intros s d e u fu. cbv zeta. unfold brent_update. cbn [less_or_equal less equal reals].
  destruct (Rle_dec fu (f_x s)) as [L|L].
  - left. split; [exact L|]. destruct (Rlt_dec u (bx s)); cbn; (split; [reflexivity|]); [left|right];
      repeat split; auto; lra.
  - right. split; [lra|].
    destruct (Rlt_dec u (bx s)); cbv iota beta;
      repeat match goal with |- context[if ?b then mkBrent _ _ _ _ _ _ _ _ _ _ else _] => destruct b end;
      cbn; (split; [reflexivity|]); [left|left|left|right|right|right]; repeat split; auto; lra.
Qed.

(* The gap between the point and the bounds of the interval. *)
Definition gapped (g : R) (s : @brent R) := ba s + g <= bx s <= bb s - g.

Lemma step_gapped : forall eps f g s, 0 <= eps -> 0 < g <= smallest reals -> gapped g s ->
  brent_stop reals eps s = false ->
  let s' := brent_step reals eps f s in
  gapped g s' /\ bb s' - ba s' <= bb s - ba s - g /\ ba s <= ba s' /\ bb s' <= bb s.
Proof.
  intros eps f g s HE HG H ST. unfold gapped in *. cbv zeta. unfold brent_step.
  pose proof (point_reals eps s HE ltac:(lra) ST) as PR. cbv zeta in PR.
  pose proof (tolerance_smallest eps (bx s) HE) as T1.
  set (tol := tolerance reals eps (bx s)) in *.
  destruct (brent_move reals eps s) as [d e]. cbn [fst] in PR. cbv zeta.
  set (u := brent_point reals eps s d) in *. destruct PR as (P1 & P2).
  pose proof (update_interval s d e u (f u)) as I. cbv zeta in I.
  revert P1. unfold Rabs. destruct (Rcase_abs (u - bx s)); intros P1;
  destruct I as [(_ & -> & [(I1 & -> & ->)|(I1 & -> & ->)])|(_ & -> & [(I1 & -> & ->)|(I1 & -> & ->)])]; lra.
Qed.

Lemma loop_gapped : forall eps f g n s, 0 <= eps -> 0 < g <= smallest reals -> gapped g s ->
  bb s - ba s < INR n * g -> exists x, brent_loop reals n eps f s = Some x.
Proof.
  intros eps f g. induction n as [|n IH]; intros s HE HG H W.
  - unfold gapped in H. cbn in W. lra.
  - cbn [brent_loop]. destruct (brent_stop reals eps s) eqn:ST; [eexists; reflexivity|].
    destruct (step_gapped eps f g s HE HG H ST) as (H1 & H2 & _).
    apply IH; try assumption. rewrite S_INR in W. lra.
Qed.

Lemma loop_more : forall (T : Type) (A : arithmetic T) eps f n m s x, (n <= m)%nat ->
  brent_loop A n eps f s = Some x -> brent_loop A m eps f s = Some x.
Proof.
  intros T A eps f. induction n as [|n IH]; intros m s x L E; [discriminate|].
  destruct m as [|m]; [lia|]. cbn [brent_loop] in *. destruct (brent_stop A eps s); [exact E|].
  apply IH; [lia|exact E].
Qed.

Lemma start_stops : forall eps f l u junk, 0 <= eps -> u <= l ->
  brent_stop reals eps (brent_start reals f l u junk) = true.
Proof.
  intros eps f l u junk HE L. unfold brent_stop. rewrite middle_reals.
  set (s := brent_start reals f l u junk). pose proof (tolerance_smallest eps (bx s) HE) as T1.
  pose proof smallest_pos as T0. set (tol := tolerance reals eps (bx s)) in *. clearbody tol.
  change (bx s) with (l + c * (u - l)). change (ba s) with l. change (bb s) with u.
  set (t := smallest reals) in *. clearbody t. cbn.
  destruct (Rle_dec _ _) as [|N]; [reflexivity|]. exfalso. apply N.
  pose proof golden_bounds. unfold Rabs. destruct (Rcase_abs _); nra.
Qed.

Lemma start_gapped : forall f l u junk, l < u ->
  exists g, 0 < g <= smallest reals /\ gapped g (brent_start reals f l u junk).
Proof.
  intros f l u junk L. pose proof golden_bounds as GB. pose proof smallest_pos as T0.
  exists (Rmin (smallest reals) (c * (u - l))).
  assert (X : 0 < c * (u - l)) by (apply Rmult_lt_0_compat; lra).
  split.
  - split; [apply Rmin_pos; assumption|apply Rmin_l].
  - unfold gapped. set (s := brent_start reals f l u junk).
    pose proof (Rmin_r (smallest reals) (c * (u - l))).
    change (bx s) with (l + c * (u - l)). change (ba s) with l. change (bb s) with u. nra.
Qed.

Lemma brent_terminates : forall eps f l u junk, 0 <= eps ->
  exists n x, forall m, (n <= m)%nat -> brent_loop reals m eps f (brent_start reals f l u junk) = Some x.
Proof.
  intros eps f l u junk HE. destruct (Rlt_le_dec l u) as [L|L].
  - destruct (start_gapped f l u junk L) as (g & HG & H).
    set (s := brent_start reals f l u junk) in *.
    set (n := Z.to_nat (up ((u - l) / g))).
    assert (W : u - l < INR n * g).
    { destruct HG as [HG _]. apply (Rmult_lt_reg_r (/ g)); [apply Rinv_0_lt_compat; exact HG|].
      replace (INR n * g * / g) with (INR n) by (field; lra).
      pose proof (archimed ((u - l) / g)) as [AR _].
      assert (0 < (u - l) / g) by (apply Rdiv_lt_0_compat; lra).
      assert (0 < up ((u - l) / g))%Z by (apply lt_IZR; cbn; lra).
      unfold n. rewrite INR_IZR_INZ, Z2Nat.id by lia. exact AR. }
    destruct (loop_gapped eps f g n s HE HG H W) as (x & E).
    exists n, x. intros m Hm. apply (loop_more _ reals eps f n m s x Hm E).
  - exists 1%nat. eexists. intros m Hm. destruct m as [|m]; [lia|]. cbn [brent_loop].
    rewrite start_stops by assumption. reflexivity.
Qed.

(* The minimum of a unimodal function stays in the interval. *)
Lemma step_unimodal : forall eps f g l u m s, 0 <= eps -> 0 < g <= smallest reals -> gapped g s ->
  unimodal (less reals) f l u m -> f_x s = f (bx s) -> l <= ba s -> bb s <= u -> ba s <= m <= bb s ->
  brent_stop reals eps s = false ->
  let s' := brent_step reals eps f s in ba s' <= m <= bb s'.
Proof.
  intros eps f g l u m s HE HG H (B & D & I) FX L U M ST. unfold gapped in H. cbv zeta. unfold brent_step.
  pose proof (point_reals eps s HE ltac:(lra) ST) as PR. cbv zeta in PR.
  pose proof (tolerance_smallest eps (bx s) HE) as T1.
  set (tol := tolerance reals eps (bx s)) in *.
  destruct (brent_move reals eps s) as [d e]. cbn [fst] in PR. cbv zeta.
  set (v := brent_point reals eps s d) in *. destruct PR as (P1 & P2).
  pose proof (update_interval s d e v (f v)) as J. cbv zeta in J. rewrite FX in J.
  assert (NE : v <> bx s).
  { intros Z. rewrite Z in P1. replace (bx s - bx s) with 0 in P1 by ring. rewrite Rabs_R0 in P1. lra. }
  destruct J as [(C & _ & [(I1 & -> & ->)|(I1 & -> & ->)])|(C & _ & [(I1 & -> & ->)|(I1 & -> & ->)])].
  - split; [lra|]. apply Rnot_lt_le. intros X.
    assert (Y : less reals (f (bx s)) (f v) = true) by (apply D; lra). apply less_reals in Y. lra.
  - split; [|lra]. apply Rnot_lt_le. intros X.
    assert (Y : less reals (f (bx s)) (f v) = true) by (apply I; lra). apply less_reals in Y. lra.
  - split; [|lra]. apply Rnot_lt_le. intros X.
    assert (Y : less reals (f v) (f (bx s)) = true) by (apply I; lra). apply less_reals in Y. lra.
  - split; [lra|]. apply Rnot_lt_le. intros X.
    assert (Y : less reals (f v) (f (bx s)) = true) by (apply D; lra). apply less_reals in Y. lra.
Qed.

Lemma reals_preorder : total_preorder (fun _ => True) (less_or_equal reals).
Proof.
  split; cbn.
  - intros x y _ _. destruct (Rle_dec x y); [auto|]. destruct (Rle_dec y x); [auto|lra].
  - intros x y z _ _ _. destruct (Rle_dec x y), (Rle_dec y z), (Rle_dec x z); auto; try discriminate. lra.
Qed.

Lemma loop_unimodal : forall eps f g l u m n s x, 0 <= eps -> 0 < g <= smallest reals -> gapped g s ->
  unimodal (less reals) f l u m -> consistent reals f l u s -> l <= ba s -> bb s <= u -> ba s <= m <= bb s ->
  brent_loop reals n eps f s = Some x ->
  Rabs (x - m) <= 2 * tolerance reals eps x /\ l <= x <= u.
Proof.
  intros eps f g l u m. induction n as [|n IH]; intros s x HE HG H UM C L U M E; [discriminate|].
  cbn [brent_loop] in E. destruct (brent_stop reals eps s) eqn:ST.
  - injection E as <-. apply stop_true in ST. cbv zeta in ST. unfold gapped in H.
    split; [|lra]. unfold Rabs. destruct (Rcase_abs _); lra.
  - pose proof (step_unimodal eps f g l u m s HE HG H UM (proj1 C) L U M ST) as M'. cbv zeta in M'.
    destruct (step_gapped eps f g s HE HG H ST) as (H1 & _ & H3 & H4).
    destruct (step_consistent reals (fun _ => True) reals_preorder f (fun _ => Logic.I) eps l u s C) as (C' & _).
    apply (IH (brent_step reals eps f s) x); try assumption; lra.
Qed.

(* The parabola through three points of a parabola. *)
Lemma parabola_vertex : forall eps s alpha beta m, alpha <> 0 ->
  (forall y fy, In (y, fy) [(bv s, f_v s); (bw s, f_w s); (bx s, f_x s)] -> fy = alpha * (y - m) * (y - m) + beta) ->
  bv s <> bw s -> bv s <> bx s -> bw s <> bx s -> tolerance reals eps (bx s) < Rabs (be s) ->
  let '(p, q) := parabola reals eps s in 0 < q /\ bx s + p / q = m.
Proof.
  intros eps s alpha beta m HA H N1 N2 N3 HE.
  assert (Hv := H (bv s) (f_v s) ltac:(cbn; auto)). assert (Hw := H (bw s) (f_w s) ltac:(cbn; auto)).
  assert (Hx := H (bx s) (f_x s) ltac:(cbn; auto)). unfold parabola.
  replace (less reals (tolerance reals eps (bx s)) (abs reals (be s))) with true by (symmetry; apply less_reals; exact HE).
  cbv zeta. cbn [minus times two reals].
  set (r1 := (bx s - bw s) * (f_x s - f_v s)). set (r2 := (bx s - bv s) * (f_x s - f_w s)).
  set (p0 := (bx s - bv s) * r2 - (bx s - bw s) * r1). set (q0 := 2 * (r2 - r1)).
  assert (Q : q0 = 2 * (alpha * (bx s - bv s) * (bx s - bw s) * (bw s - bv s))).
  { unfold q0, r2, r1. rewrite Hv, Hw, Hx. ring. }
  assert (P0 : p0 = q0 * (bx s - m)).
  { rewrite Q. unfold p0, r2, r1. rewrite Hv, Hw, Hx. ring. }
  assert (Z : q0 <> 0).
  { rewrite Q. repeat apply Rmult_integral_contrapositive_currified; lra. }
  clearbody p0 q0. change (negative reals q0) with (if Rlt_dec q0 0 then true else false).
  destruct (Rlt_dec q0 0) as [L|L]; cbn [negb].
  - cbn [minus1 reals]. split; [lra|]. rewrite P0. field. exact Z.
  - cbn [minus1 reals]. split; [lra|]. rewrite P0. field. exact Z.
Qed.
