(* Proofs about perspectives: the algorithms in exact arithmetic and several spheres. *)
From Coq Require Import Reals List Bool Lra Psatz Arith Lia Permutation.
From Verif Require Import Geometry_Model Hermite_Model.
From Verif Require Import Perspective_Model Perspective_Spec Perspective_Proofs Perspective_Proofs2 Perspective_Proofs3 Perspective_Proofs4.
Import ListNotations.
Local Open Scope R_scope.

Lemma vminus_lift : forall u v, vminus exact (lift u) (lift v) = lift (sub3 u v).
Proof. reflexivity. Qed.
Lemma vplus_lift : forall u v, vplus exact (lift u) (lift v) = lift (add3 u v).
Proof. reflexivity. Qed.
Lemma vscale_lift : forall k v, vscale exact (Fin k) (lift v) = lift (scal3 k v).
Proof. reflexivity. Qed.
Lemma dot_lift : forall u v, dot exact (lift u) (lift v) = Fin (Dot u v).
Proof. reflexivity. Qed.
Lemma norm2_lift : forall v, norm2 exact (lift v) = Fin (Norm2 v).
Proof. reflexivity. Qed.

Lemma hidden_hid : forall K C radius X, hidden K C radius X <-> hid (sub3 C K) (radius * radius) (sub3 X K).
Proof.
  intros K C radius X. unfold hidden, hid.
  assert (E : forall t, sub3 (abscissa K X t) C = sub3 (scal3 t (sub3 X K)) (sub3 C K))
    by (intros t; unfold abscissa; apply eq3; cbn; ring).
  split; intros (t & T & H); exists t; (split; [exact T|]); [rewrite <- E|rewrite E]; exact H.
Qed.

Lemma iteration_exact : forall r2 p q L2 f1 sigma a b KH d st delta, p <> 0 ->
  let g := (r2 - delta * q) / p in
  let PH := add3 (scal3 g a) (scal3 delta b) in
  let tau := ediv (L2 - Dot KH PH - p) f1 in
  let lambda := ediv (- Dot a PH) (Dot d PH) in
  iteration exact (Fin r2) (Fin p) (Fin q) (Fin L2) (Fin f1) sigma (lift a) (lift b) (lift KH) (lift d) st (Fin delta) =
  State (if kept sigma tau lambda then lambdas st ++ [lambda] else lambdas st)
    (lambda_lt_sigma st || elt lambda sigma) (lambda_gt_sigma st || elt sigma lambda) (xtimes PosInf (xminus tau sigma)).
Proof.
  intros r2 p q L2 f1 sigma a b KH d st delta P g PH tau lambda. unfold iteration. cbv zeta.
  cbn [times minus over less less_or_equal opposite infinite exact xtimes xminus]. cbn [xover]. rewrite (ediv_nonzero _ p P). fold g.
  rewrite !vscale_lift, vplus_lift. fold PH. rewrite !dot_lift. cbn [xminus xopp xover]. fold tau lambda. reflexivity.
Qed.

Lemma visible_correct : forall K z f U V C radius,
  let a := sub3 U K in let b := sub3 V K in let c := sub3 C K in
  radius * radius < Norm2 c -> Norm2 (Cross a b) <> 0 -> Dot a c <> 0 ->
  exists l, VisibleSegments exact false (Perspective (lift K) z f) (lift2 (U, V)) (Sphere (lift C) (Fin radius)) = Value (map lift2 l) /\
    correct U V (hidden K C radius) l.
Proof.
  intros K z f U V C radius a b c outside cross pp.
  set (R2 := radius * radius) in *. set (A := Norm2 a). set (B := Norm2 b). set (G := Dot a b). set (D := A * B - G * G).
  assert (DE : Norm2 (Cross a b) = D) by (unfold D, A, B, G, Norm2, Dot, Cross; cbn; ring).
  assert (DD : 0 < D) by (pose proof (norm2_pos (Cross a b)); lra). clear DE cross.
  set (d := sub3 b a). set (h := Norm2 c - R2). assert (hh : 0 < h) by (unfold h; lra).
  assert (HID : forall t, hidden K C radius (abscissa U V t) <-> hid c R2 (add3 a (scal3 t d))).
  { intros t. rewrite hidden_hid. fold c R2. replace (sub3 (abscissa U V t) K) with (add3 a (scal3 t d)); [reflexivity|].
    unfold a, b, d, abscissa. apply eq3; cbn; ring. }
  assert (WHOLE : (forall t, 0 <= t <= 1 -> ~ hid c R2 (add3 a (scal3 t d))) ->
    exists l, Value [lift2 (U, V)] = Value (map lift2 l) /\ correct U V (hidden K C radius) l).
  { intros H. exists [(U, V)]. split; [reflexivity|]. apply correct_whole. intros t T. rewrite HID. apply H, T. }
  assert (dE : sub3 V U = d) by (unfold d, a, b; apply eq3; cbn; ring).
  assert (acE : sub3 C U = sub3 c a) by (unfold c, a; apply eq3; cbn; ring).
  assert (X2p : 0 < Norm2 d) by (apply (X2_pos a b); exact DD).
  set (p := Dot a c) in *. set (q := Dot b c).
  set (alpha := (B * p - G * q) / D). set (beta := (A * q - G * p) / D).
  set (KH := add3 (scal3 alpha a) (scal3 beta b)). set (CH2 := Norm2 (sub3 KH c)).
  set (r2 := R2 - CH2).
  unfold VisibleSegments. cbv zeta. cbn [camera centre fst snd lift2].
  change (radius2 exact (Sphere (lift C) (Fin radius))) with (Fin R2).
  rewrite !vminus_lift. fold a b c. rewrite dE, acE. rewrite !dot_lift, !norm2_lift. fold A B G p q.
  cbn [less_or_equal nought one exact less].
  destruct (ele (Fin (Norm2 c)) (Fin R2)) eqn:E0; [apply (proj1 (ele_fin _ _)) in E0; lra|]. clear E0.
  destruct (ele (Fin p) (Fin 0) && ele (Fin q) (Fin 0)) eqn:E1.
  { apply andb_true_iff in E1. destruct E1 as [E1 E1']. apply (proj1 (ele_fin _ _)) in E1. apply (proj1 (ele_fin _ _)) in E1'.
    apply WHOLE. intros t T. exact (behind_visible a b c R2 hh t T E1 E1'). }
  cbn [times minus over exact xtimes xminus xover]. fold D. rewrite !(ediv_nonzero _ D) by lra. fold alpha beta.
  rewrite !vscale_lift, !vplus_lift. fold KH. rewrite !vminus_lift, !norm2_lift. fold CH2.
  destruct (ele (Fin R2) (Fin CH2)) eqn:E2.
  { apply (proj1 (ele_fin _ _)) in E2. apply WHOLE. intros t T. exact (plane_visible a b c R2 DD t T E2). }
  assert (R0 : 0 < r2).
  { unfold r2. destruct (Rle_dec R2 CH2) as [L|L]; [|lra]. rewrite (proj2 (ele_fin _ _) L) in E2. discriminate. }
  cbn [xminus xtimes xover]. fold r2. rewrite !(ediv_nonzero _ D) by lra.
  match goal with |- context [if ?e then Value [_] else _] => destruct e eqn:E3 end.
  { apply orb_true_iff in E3. destruct E3 as [E3|E3]; apply andb_true_iff in E3; destruct E3 as [E3 E3'];
      apply (proj1 (elt_fin _ _)) in E3; apply (proj1 (ele_fin _ _)) in E3'; apply WHOLE; intros t T.
    - exact (alpha_visible a b c R2 DD t T E3 E3').
    - exact (beta_visible a b c R2 DD t T E3 E3'). }
  clear E2 E3.
  rewrite !dot_lift.
  assert (aKH : Dot a KH = p) by exact (dot_a_KH a b c DD). assert (bKH : Dot b KH = q) by exact (dot_b_KH a b c DD).
  assert (KH2 : Norm2 KH = alpha * p + beta * q) by exact (KH2_value a b c DD).
  assert (CHE : CH2 = Norm2 c - Norm2 KH) by exact (CH2_value a b c DD).
  assert (hE : h = Norm2 KH - r2) by (unfold h, r2; lra).
  set (L2 := Norm2 KH) in *.
  assert (dKH : Dot d KH = q - p) by (rewrite <- aKH, <- bKH; unfold d, Dot, sub3; cbn; ring).
  rewrite aKH, bKH, dKH. fold L2.
  set (a2 := B * p * p - 2 * G * p * q + A * q * q).
  assert (A2E : a2 = D * L2) by (rewrite KH2; unfold a2, alpha, beta; field; lra).
  assert (A2 : 0 < a2) by (rewrite A2E; apply Rmult_lt_0_compat; lra).
  cbn [times minus plus two opposite exact xtimes xminus xplus]. cbn [xopp xtimes].
  fold a2.
  destruct (solve_exact (r2 * (r2 * A - p * p)) (2 * r2 * (G * p - A * q)) a2 A2) as (ds & DS & DR & D2).
  rewrite DS. clear DS.
  destruct D2 as (d1 & d2 & -> & DN).
  { replace (2 * r2 * (G * p - A * q) * (2 * r2 * (G * p - A * q)) - 4 * (r2 * (r2 * A - p * p)) * a2)
      with (4 * r2 * (p * p) * (a2 - D * r2)) by (unfold a2, D; ring).
    rewrite A2E. replace (D * L2 - D * r2) with (D * h) by (rewrite hE; ring).
    assert (0 < p * p) by (apply Rsqr_pos_lt in pp; exact pp).
    apply Rmult_lt_0_compat; [apply Rmult_lt_0_compat; [lra|assumption]|apply Rmult_lt_0_compat; assumption]. }
  cbn [map length Nat.eqb negb].
  assert (R1 := proj1 (DR d1) ltac:(left; reflexivity)). assert (R2' := proj1 (DR d2) ltac:(right; left; reflexivity)). clear DR.
  destruct (solve_exact (Norm2 (sub3 c a) - R2) (- (2) * Dot d (sub3 c a)) (Norm2 d) X2p) as (mus & MS & MR & _).
  rewrite MS. clear MS.
  cbn [fold_left]. cbn [over exact xover]. rewrite !iteration_exact by exact pp. cbv zeta.
  set (g1 := (r2 - d1 * q) / p). set (g2 := (r2 - d2 * q) / p).
  assert (KP : forall g dd, g = (r2 - dd * q) / p -> Dot KH (add3 (scal3 g a) (scal3 dd b)) = r2).
  { intros g dd E. transitivity (g * Dot a KH + dd * Dot b KH); [unfold Dot; cbn; ring|]. rewrite aKH, bKH, E. field. exact pp. }
  rewrite (KP g1 d1 eq_refl), (KP g2 d2 eq_refl). replace (L2 - r2 - p) with (h - p) by lra.
  assert (P1 : forall g dd, Dot a (add3 (scal3 g a) (scal3 dd b)) = g * A + dd * G)
    by (intros g dd; unfold A, G, Norm2, Dot; cbn; ring).
  assert (P2 : forall g dd, Dot d (add3 (scal3 g a) (scal3 dd b)) = g * (G - A) + dd * (B - G))
    by (intros g dd; unfold A, B, G, d, Norm2, Dot; cbn; ring).
  rewrite !P1, !P2.
  set (u1 := g1 * A + d1 * G). set (v1 := g1 * (G - A) + d1 * (B - G)).
  set (u2 := g2 * A + d2 * G). set (v2 := g2 * (G - A) + d2 * (B - G)).
  assert (f1E : Dot d c = q - p) by (unfold d, p, q, Dot, sub3; cbn; ring).
  assert (X1E : Dot a d = G - A) by (unfold d, G, A, Norm2, Dot, sub3; cbn; ring).
  assert (X2E : Norm2 d = A - 2 * G + B) by (unfold d, G, A, B, Norm2, Dot, sub3; cbn; ring).
  destruct (listing p (q - p) A (G - A) (Norm2 d) h (r2 * D / a2) u1 v1 u2 v2 hh) as (LB & LC & LM).
  - apply Rdiv_lt_0_compat; [apply Rmult_lt_0_compat; lra|exact A2].
  - intros l. rewrite <- X1E. exact (X_pos a b DD l).
  - exact X2p.
  - intros l. rewrite X2E, hE.
    replace (L2 - r2) with (a2 / D - r2) by (rewrite A2E; field; lra).
    exact (factors A B G p q r2 d1 d2 l DD pp A2 DN R1 R2').
  - intros E. assert (q = p) by lra. rewrite H in E1. destruct (Rlt_dec 0 p) as [L|L]; [exact L|exfalso].
    rewrite (proj2 (ele_fin p 0)) in E1 by lra. discriminate.
  - cbv zeta in LB, LC, LM. cbn [xopp]. 
    set (sigma := ediv (- p) (q - p)) in *. set (tau := ediv (h - p) (q - p)) in *.
    set (l1 := ediv (- u1) v1) in *. set (l2 := ediv (- u2) v2) in *.
    cbn [lambda_lt_sigma lambda_gt_sigma lambdas infinity app]. cbn [orb].
    fold (both sigma l1 l2).
    assert (RE : (if kept sigma tau l2 then (if kept sigma tau l1 then [l1] else []) ++ [l2]
                  else if kept sigma tau l1 then [l1] else []) = retained sigma tau l1 l2).
    { unfold retained. destruct (kept sigma tau l1); destruct (kept sigma tau l2); reflexivity. }
    rewrite RE.
    replace (both sigma l1 l2 && negb (Nat.leb (length (retained sigma tau l1 l2)) 1)) with false.
    2:{ destruct (both sigma l1 l2); [|reflexivity]. rewrite (proj2 (PeanoNat.Nat.leb_le _ _) (LM eq_refl)). reflexivity. }
    set (inf := xtimes PosInf (xminus tau sigma)) in *.
    replace (if both sigma l1 l2 then retained sigma tau l1 l2 ++ [inf] else retained sigma tau l1 l2)
      with (listed sigma tau l1 l2 inf) by (unfold listed; destruct (both sigma l1 l2); [reflexivity|apply app_nil_r]).
    destruct (span a b c R2 DD hh (listed sigma tau l1 l2 inf) mus) as [NN SP].
    + fold h. fold d. rewrite f1E, X1E. exact LB.
    + fold h. fold d. rewrite f1E, X1E. exact LC.
    + fold d. intros y. rewrite (MR y).
      replace (Norm2 (sub3 c a)) with (Norm2 (sub3 a c)) by (unfold Norm2; cbn; ring). reflexivity.
    + fold d in SP. rewrite <- dE. apply (cut_correct U V (hidden K C radius)).
      * rewrite dE. exact X2p.
      * exact NN.
      * intros t. rewrite HID. apply SP.
Qed.

(* ---------------------------------------------------------- the camera in the sphere *)

Lemma camera_inside : forall K z f U V C radius debug, Norm2 (sub3 C K) <= radius * radius ->
  VisibleSegments exact debug (Perspective (lift K) z f) (lift2 (U, V)) (Sphere (lift C) (Fin radius)) = Value [].
Proof.
  intros K z f U V C radius debug H. unfold VisibleSegments. cbv zeta. cbn [camera centre fst snd lift2].
  rewrite vminus_lift, norm2_lift. change (radius2 exact (Sphere (lift C) (Fin radius))) with (Fin (radius * radius)).
  cbn [less_or_equal exact]. rewrite (proj2 (ele_fin _ _) H). reflexivity.
Qed.

Lemma camera_hidden : forall K C radius X, Norm2 (sub3 C K) < radius * radius -> hidden K C radius X.
Proof.
  intros K C radius X H. exists 0. split; [lra|]. rewrite abscissa_0.
  replace (Norm2 (sub3 K C)) with (Norm2 (sub3 C K)) by (unfold Norm2; cbn; ring). exact H.
Qed.

(* ------------------------------------------------------------------------- points *)

Lemma point_hidden : forall K z f X C radius, radius * radius <= Norm2 (sub3 C K) ->
  IsHiddenBySphere exact (Perspective (lift K) z f) (lift X) (Sphere (lift C) (Fin radius)) = true <-> hidden K C radius X.
Proof.
  intros K z f X C radius H. rewrite hidden_hid, hid_iff by exact H. cbv zeta.
  unfold IsHiddenBySphere. cbv zeta. cbn [camera centre]. rewrite !vminus_lift, !norm2_lift, dot_lift.
  change (radius2 exact (Sphere (lift C) (Fin radius))) with (Fin (radius * radius)).
  cbn [less minus times exact xminus xtimes].
  replace (Norm2 (sub3 (sub3 X K) (sub3 C K))) with (Norm2 (sub3 X C)) by (unfold Norm2; cbn; ring).
  set (h := Norm2 (sub3 C K) - radius * radius). set (F := Dot (sub3 X K) (sub3 C K)). cbn [elt].
  destruct (Rlt_dec (Norm2 (sub3 X C)) (radius * radius)) as [L1|L1]; [intuition|].
  destruct (Rlt_dec (h * Norm2 (sub3 X K)) (F * F)) as [L2|L2]; cbn [negb].
  - destruct (Rlt_dec F h) as [L3|L3]; cbn [negb].
    + split; [discriminate|]. intros [L|L]; lra.
    + split; [|reflexivity]. intros _. right. lra.
  - split; [discriminate|]. intros [L|L]; lra.
Qed.

(* ------------------------------------------------------------------ the focal plane *)

Lemma behind_exact : forall K z f U V,
  let w X := Dot (sub3 X K) z in
  match SegmentBehindFocalPlane exact (Perspective (lift K) (lift z) (Fin f)) (lift2 (U, V)) with
  | None => forall t, 0 <= t <= 1 -> w (abscissa U V t) < f
  | Some s => exists P Q, s = lift2 (P, Q) /\ between U V P /\ between U V Q /\
      forall t, 0 <= t <= 1 -> between P Q (abscissa U V t) <-> f <= w (abscissa U V t)
  end.
Proof.
  intros K z f U V w.
  assert (WL : forall t, w (abscissa U V t) = w U + t * (w V - w U)) by (intros t; unfold w, abscissa, Dot; cbn; ring).
  unfold SegmentBehindFocalPlane. cbv zeta. cbn [camera z_axis focal fst snd lift2]. rewrite !vminus_lift, !dot_lift.
  fold (w U) (w V). cbn [less_or_equal exact minus over xminus xover one ele].
  assert (BC : forall l, barycentre exact (lift U) (lift V) (Fin l) (Fin (1 - l)) = lift (abscissa U V (1 - l))).
  { intros l. unfold barycentre. cbv zeta. rewrite !vscale_lift, vplus_lift. cbn [plus exact xplus].
    replace (l + (1 - l)) with 1 by ring. unfold vdivide, lift. cbn [vx vy vz over exact xover].
    rewrite !ediv_nonzero by lra. unfold abscissa. cbn. f_equal; f_equal; field. }
  assert (N2 : w U <> w V -> 0 < Norm2 (sub3 V U)).
  { intros NE. pose proof (norm2_pos (sub3 V U)) as P. destruct P as [P|P]; [exact P|]. symmetry in P. apply norm2_zero in P.
    exfalso. apply NE. assert (E := f_equal (fun v => Dot v z) P). unfold w. unfold Dot in *. cbn in *. lra. }
  assert (B0 : between U V U) by (exists 0; rewrite abscissa_0; split; [lra|reflexivity]).
  assert (B1 : between U V V) by (exists 1; rewrite abscissa_1; split; [lra|reflexivity]).
  destruct (Rle_dec f (w U)) as [L1|L1]; destruct (Rle_dec f (w V)) as [L2|L2]; cbn [andb negb].
  - exists U, V. split; [reflexivity|]. split; [exact B0|]. split; [exact B1|]. intros t T. rewrite WL. split; [intros _; nra|].
    intros _. exists t. split; [exact T|reflexivity].
  - rewrite (ediv_nonzero _ (w U - w V)) by lra. cbn [xminus]. rewrite BC. set (t0 := 1 - (f - w V) / (w U - w V)).
    assert (T0 : t0 * (w U - w V) = w U - f) by (unfold t0; field; lra).
    assert (T01 : 0 <= t0 <= 1) by (split; nra). specialize (N2 ltac:(lra)).
    exists U, (abscissa U V t0). split; [reflexivity|]. split; [exact B0|]. split; [exists t0; split; [exact T01|reflexivity]|].
    intros t T. rewrite WL. rewrite <- (abscissa_0 U V) at 1. rewrite between_abscissae by (try exact N2; lra). split; intros I; nra.
  - rewrite (ediv_nonzero _ (w U - w V)) by lra. cbn [xminus]. rewrite BC. set (t0 := 1 - (f - w V) / (w U - w V)).
    assert (T0 : t0 * (w U - w V) = w U - f) by (unfold t0; field; lra).
    assert (T01 : 0 <= t0 <= 1) by (split; nra). specialize (N2 ltac:(lra)).
    exists (abscissa U V t0), V. split; [reflexivity|]. split; [exists t0; split; [exact T01|reflexivity]|]. split; [exact B1|].
    intros t T. rewrite WL. rewrite <- (abscissa_1 U V) at 2. rewrite between_abscissae by (try exact N2; lra). split; intros I; nra.
  - intros t T. rewrite WL. destruct T as [[T0|T0] T1]; [|rewrite <- T0; lra].
    assert (0 < t * (f - w V)) by (apply Rmult_lt_0_compat; lra).
    assert (0 <= (1 - t) * (f - w U)) by (apply Rmult_le_pos; lra). lra.
Qed.

(* -------------------------------------------------------------------- several spheres *)

Section Many.
Context {X Y : Type} (visible : X -> Y -> list X).
Hypothesis few : forall x y, (length (visible x y) <= 2)%nat.

Lemma set_nth_app : forall (l : list X) x y l', set_nth (l ++ x :: l') (length l) y = Some (l ++ y :: l').
Proof.
  induction l as [|z l IH]; intros x y l'; [reflexivity|]. cbn. rewrite IH. reflexivity.
Qed.

Lemma pop : forall (x : X) J, exists J' y, x :: J = J' ++ [y] /\ length J' = length J.
Proof.
  intros x J. destruct (exists_last (l := x :: J) ltac:(discriminate)) as (J' & y & E). exists J', y. split; [exact E|].
  assert (L := f_equal (@length X) E). rewrite app_length in L. cbn in L. lia.
Qed.

Lemma hide_by_sphere_ok : forall y M P J O,
  let l := P ++ M ++ J ++ O in
  exists P' O', hide_by_sphere visible (length M) (length P) y l (length P + length M + length J) (length l) =
      Some (P' ++ O', length P', length (P' ++ O')) /\
    Permutation O' (flat_map (fun x => visible x y) M ++ O).
Proof.
  intros y M. induction M as [|x M IH] using rev_ind; intros P J O l.
  - exists (P ++ J), O. cbn [length hide_by_sphere flat_map app]. unfold l. cbn [app].
    rewrite (app_assoc P J O), PeanoNat.Nat.add_0_r, <- app_length. split; reflexivity.
  - rewrite app_length. cbn [length]. rewrite PeanoNat.Nat.add_1_r. cbn [hide_by_sphere].
    assert (LE : l = (P ++ M) ++ x :: J ++ O) by (unfold l; rewrite <- !app_assoc; reflexivity).
    assert (NE : nth_error l (length P + length M) = Some x).
    { rewrite LE, nth_error_app2; rewrite app_length; [|lia]. rewrite PeanoNat.Nat.sub_diag. reflexivity. }
    rewrite NE. clear NE. pose proof (few x y) as FW.
    rewrite flat_map_app. cbn [flat_map]. rewrite app_nil_r.
    destruct (visible x y) as [|first others].
    + destruct (IH P (x :: J) O) as (P' & O' & E & Pm). cbn zeta in E. exists P', O'. split.
      * rewrite <- E. f_equal; [rewrite LE, <- !app_assoc; reflexivity| |].
        -- cbn [length]. lia.
        -- rewrite LE, <- !app_assoc. reflexivity.
      * rewrite app_nil_r. exact Pm.
    + replace (length P + Datatypes.S (length M) + length J)%nat with (Datatypes.S (length P + length M + length J)) by lia.
      destruct (pop x J) as (J' & w & EJ & LJ).
      assert (SN : set_nth l (length P + length M + length J) first = Some (P ++ M ++ J' ++ first :: O)).
      { rewrite LE. change (x :: J ++ O) with ((x :: J) ++ O). rewrite EJ, <- (app_assoc J' [w] O). cbn [app].
        rewrite (app_assoc (P ++ M)).
        replace (length P + length M + length J)%nat with (length ((P ++ M) ++ J')) by (rewrite !app_length; lia).
        rewrite set_nth_app. f_equal. rewrite <- !app_assoc. reflexivity. }
      rewrite SN. clear SN.
      assert (LL : length l = length (P ++ M ++ J' ++ first :: O)).
      { rewrite LE, !app_length. cbn [length]. rewrite !app_length. cbn [length]. lia. }
      destruct others as [|second [|]]; [| |cbn in FW; lia].
      * destruct (IH P J' (first :: O)) as (P' & O' & E & Pm). cbn zeta in E. exists P', O'. split.
        -- rewrite LL, <- LJ. exact E.
        -- etransitivity; [exact Pm|]. rewrite <- app_assoc. reflexivity.
      * destruct (IH P J' (first :: O ++ [second])) as (P' & O' & E & Pm). cbn zeta in E. exists P', O'. split.
        -- rewrite LL, <- LJ.
           replace ((P ++ M ++ J' ++ first :: O) ++ [second]) with (P ++ M ++ J' ++ first :: O ++ [second])
             by (rewrite <- !app_assoc; reflexivity).
           replace (Datatypes.S (length (P ++ M ++ J' ++ first :: O))) with (length (P ++ M ++ J' ++ first :: O ++ [second]))
             by (rewrite !app_length; cbn [length]; rewrite app_length; cbn [length]; lia).
           exact E.
        -- etransitivity; [exact Pm|]. rewrite <- app_assoc. apply Permutation_app_head. cbn [app]. constructor.
           symmetry. apply Permutation_cons_append.
Qed.

Lemma flat_map_permutation : forall (f : X -> list X) l l', Permutation l l' -> Permutation (flat_map f l) (flat_map f l').
Proof.
  intros f l l' H. induction H; cbn.
  - constructor.
  - apply Permutation_app_head. assumption.
  - rewrite !app_assoc. apply Permutation_app_tail. apply Permutation_app_comm.
  - etransitivity; eassumption.
Qed.

Lemma fold_permutation : forall spheres l l', Permutation l l' ->
  Permutation (fold_left (fun segments sphere => flat_map (fun x => visible x sphere) segments) spheres l)
              (fold_left (fun segments sphere => flat_map (fun x => visible x sphere) segments) spheres l').
Proof.
  induction spheres as [|y spheres IH]; intros l l' H; [exact H|]. cbn [fold_left]. apply IH, flat_map_permutation, H.
Qed.

Lemma hide_by_spheres_ok : forall spheres P O, exists P' O',
  hide_by_spheres visible spheres (P ++ O) (length P) (length (P ++ O)) = Some (P' ++ O', length P') /\
  Permutation O' (fold_left (fun segments sphere => flat_map (fun x => visible x sphere) segments) spheres O).
Proof.
  induction spheres as [|y spheres IH]; intros P O.
  - exists P, O. split; reflexivity.
  - cbn [hide_by_spheres fold_left].
    destruct (hide_by_sphere_ok y O P [] []) as (P1 & O1 & E1 & Q1). cbn zeta in E1. cbn [app length] in E1.
    rewrite !app_nil_r in E1. rewrite PeanoNat.Nat.add_0_r in E1.
    replace (length (P ++ O) - length P)%nat with (length O) by (rewrite app_length; lia).
    rewrite (app_length P O). rewrite <- (app_length P O). rewrite app_length in E1. rewrite app_length.
    rewrite E1. destruct (IH P1 O1) as (P2 & O2 & E2 & Q2). exists P2, O2. split; [exact E2|].
    etransitivity; [exact Q2|]. apply fold_permutation. rewrite app_nil_r in Q1. exact Q1.
Qed.

Lemma many_ok : forall s spheres, exists l, VisibleSegmentsMany visible s spheres = Some l /\
  Permutation l (one_by_one visible s spheres).
Proof.
  intros s spheres. unfold VisibleSegmentsMany. destruct (hide_by_spheres_ok spheres [] [s]) as (P & O & E & Q).
  cbn [app length] in E. rewrite E. exists (skipn (length P) (P ++ O)). split; [reflexivity|].
  rewrite skipn_app, skipn_all, PeanoNat.Nat.sub_diag. exact Q.
Qed.
End Many.
