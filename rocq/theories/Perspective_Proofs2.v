(* Proofs about perspectives: the intersections of a line and a cone. *)
From Coq Require Import Reals List Bool Arith Lra Psatz.
From Verif Require Import Geometry_Model Hermite_Model Perspective_Model Perspective_Proofs.
Import ListNotations.
Local Open Scope R_scope.

(* ----------------------------------------------------- comparisons of extended numbers *)

Lemma elt_fin : forall r s, elt (Fin r) (Fin s) = true <-> r < s.
Proof. intros r s. cbn. destruct (Rlt_dec r s); split; intros; try discriminate; auto; contradiction. Qed.
Lemma ele_fin : forall r s, ele (Fin r) (Fin s) = true <-> r <= s.
Proof. intros r s. cbn. destruct (Rle_dec r s); split; intros; try discriminate; auto; contradiction. Qed.
Lemma elt_opp : forall x y, elt (xopp x) (xopp y) = elt y x.
Proof.
  intros [r| | |] [s| | |]; cbn; try reflexivity.
  destruct (Rlt_dec (- r) (- s)), (Rlt_dec s r); try reflexivity; lra.
Qed.
Lemma ele_opp : forall x y, ele (xopp x) (xopp y) = ele y x.
Proof.
  intros [r| | |] [s| | |]; cbn; try reflexivity.
  destruct (Rle_dec (- r) (- s)), (Rle_dec s r); try reflexivity; lra.
Qed.
Lemma xopp_xopp : forall x, xopp (xopp x) = x.
Proof. intros [r| | |]; cbn; try reflexivity. rewrite Ropp_involutive. reflexivity. Qed.

(* The intersections retained by the loop. *)
Definition kept (sigma tau l : extended) : bool := (ele sigma tau && elt tau l) || (ele tau sigma && elt l tau).
Definition both (sigma l1 l2 : extended) : bool := (elt l1 sigma || elt l2 sigma) && (elt sigma l1 || elt sigma l2).
Definition retained (sigma tau l1 l2 : extended) : list extended :=
  (if kept sigma tau l1 then [l1] else []) ++ (if kept sigma tau l2 then [l2] else []).
Definition listed (sigma tau l1 l2 inf : extended) : list extended :=
  retained sigma tau l1 l2 ++ (if both sigma l1 l2 then [inf] else []).

Lemma listed_opp : forall sigma tau l1 l2 inf,
  listed (xopp sigma) (xopp tau) (xopp l1) (xopp l2) (xopp inf) = map xopp (listed sigma tau l1 l2 inf).
Proof.
  intros. unfold listed, retained. rewrite !map_app.
  assert (K : forall l, kept (xopp sigma) (xopp tau) (xopp l) = kept sigma tau l).
  { intros l. unfold kept. rewrite !elt_opp, !ele_opp. apply orb_comm. }
  assert (B : both (xopp sigma) (xopp l1) (xopp l2) = both sigma l1 l2).
  { unfold both. rewrite !elt_opp. apply andb_comm. }
  rewrite !K, B. f_equal; [f_equal|]; match goal with |- context [if ?b then _ else _] => destruct b end; reflexivity.
Qed.

Lemma retained_opp : forall sigma tau l1 l2,
  retained (xopp sigma) (xopp tau) (xopp l1) (xopp l2) = map xopp (retained sigma tau l1 l2).
Proof.
  intros. unfold retained. rewrite !map_app.
  assert (K : forall l, kept (xopp sigma) (xopp tau) (xopp l) = kept sigma tau l).
  { intros l. unfold kept. rewrite !elt_opp, !ele_opp. apply orb_comm. }
  rewrite !K. f_equal; match goal with |- context [if ?b then _ else _] => destruct b end; reflexivity.
Qed.

(* The zero of u + v l, or any infinity. *)
Definition zero_of (u v : R) (l : extended) : Prop :=
  (v <> 0 /\ l = Fin (- u / v)) \/ (v = 0 /\ (l = PosInf \/ l = NegInf)).

Section Listing.
Variables f0 f1 X0 X1 X2 h kappa u1 v1 u2 v2 : R.
Let F l := f0 + f1 * l.
Let Q l := F l * F l - h * (X0 + 2 * X1 * l + X2 * (l * l)).

(* An element of the list bounds the hidden part. *)
Definition on_boundary (e : extended) : Prop :=
  match e with
  | Fin l => Q l = 0 /\ h < F l
  | PosInf => 0 < f1 /\ h * X2 <= f1 * f1
  | NegInf => f1 < 0 /\ h * X2 <= f1 * f1
  | NaN => False
  end.

Definition complete (l : list extended) : Prop :=
  forall x, 0 < Q x -> h < F x ->
    ((exists e, In e l /\ elt e (Fin x) = true) \/ (exists y, y < x /\ F y = h /\ 0 <= Q y)) /\
    ((exists e, In e l /\ elt (Fin x) e = true) \/ (exists y, x < y /\ F y = h /\ 0 <= Q y)).
End Listing.

Section Up.
Variables f0 f1 X0 X1 X2 h kappa u1 v1 u2 v2 : R.
Hypothesis hh : 0 < h.
Hypothesis kk : 0 < kappa.
Hypothesis Xpos : forall l, 0 < X0 + 2 * X1 * l + X2 * (l * l).
Let F l := f0 + f1 * l.
Let Q l := F l * F l - h * (X0 + 2 * X1 * l + X2 * (l * l)).
Hypothesis product : forall l, (u1 + v1 * l) * (u2 + v2 * l) = kappa * Q l.
Variables l1 l2 : extended.
Hypothesis Z1 : zero_of u1 v1 l1.
Hypothesis Z2 : zero_of u2 v2 l2.

Lemma fin_root1 : forall y, l1 = Fin y -> v1 <> 0 /\ u1 = - (v1 * y).
Proof.
  intros y E. destruct Z1 as [[V L]|[V [L|L]]]; rewrite L in E; try discriminate. injection E as <-. split; [exact V|]. field. exact V.
Qed.
Lemma fin_root2 : forall y, l2 = Fin y -> v2 <> 0 /\ u2 = - (v2 * y).
Proof.
  intros y E. destruct Z2 as [[V L]|[V [L|L]]]; rewrite L in E; try discriminate. injection E as <-. split; [exact V|]. field. exact V.
Qed.
Lemma lead : v1 * v2 = kappa * (f1 * f1 - h * X2).
Proof. pose proof (product 0) as P0. pose proof (product 1) as P1. pose proof (product (-1)) as P2. unfold Q, F in *. lra. Qed.

(* A zero of Q is one of the zeroes, if Q doesn't vanish everywhere. *)
Lemma root_in : forall y z, Q z <> 0 -> Q y = 0 -> l1 = Fin y \/ l2 = Fin y.
Proof.
  intros y z QZ QY. pose proof (product y) as P. pose proof (product z) as PZ. rewrite QY, Rmult_0_r in P. apply Rmult_integral in P. destruct P as [P|P].
  - left. destruct Z1 as [[V L]|[V _]].
    + rewrite L. f_equal. apply (Rmult_eq_reg_l v1); [|exact V]. replace (v1 * (- u1 / v1)) with (- u1) by (field; exact V). lra.
    + exfalso. apply QZ. rewrite V in *. assert (U : u1 = 0) by lra. rewrite U in PZ.
      apply (Rmult_eq_reg_l kappa); [lra|lra].
  - right. destruct Z2 as [[V L]|[V _]].
    + rewrite L. f_equal. apply (Rmult_eq_reg_l v2); [|exact V]. replace (v2 * (- u2 / v2)) with (- u2) by (field; exact V). lra.
    + exfalso. apply QZ. rewrite V in *. assert (U : u2 = 0) by lra. rewrite U in PZ.
      apply (Rmult_eq_reg_l kappa); [lra|lra].
Qed.

Lemma root_Q : forall y, l1 = Fin y \/ l2 = Fin y -> Q y = 0.
Proof.
  intros y H. pose proof (product y) as P. apply (Rmult_eq_reg_l kappa); [|lra]. rewrite <- P, Rmult_0_r.
  destruct H as [E|E]; [destruct (fin_root1 y E) as [_ ->]|destruct (fin_root2 y E) as [_ ->]]; ring.
Qed.

Lemma inf_lead : forall l, l = l1 \/ l = l2 -> l = PosInf \/ l = NegInf -> h * X2 = f1 * f1.
Proof.
  intros l H I. pose proof lead as L. assert (V : v1 * v2 = 0).
  { destruct H as [-> | ->].
    - destruct Z1 as [[V E]|[V _]]; [destruct I as [I|I]; rewrite I in E; discriminate|]. rewrite V. ring.
    - destruct Z2 as [[V E]|[V _]]; [destruct I as [I|I]; rewrite I in E; discriminate|]. rewrite V. ring. }
  rewrite V in L. symmetry in L. apply Rmult_integral in L. lra.
Qed.

Lemma not_nan : forall l, l = l1 \/ l = l2 -> l <> NaN.
Proof.
  intros l [-> | ->] E.
  - destruct Z1 as [[_ L]|[_ [L|L]]]; rewrite L in E; discriminate.
  - destruct Z2 as [[_ L]|[_ [L|L]]]; rewrite L in E; discriminate.
Qed.

Hypothesis up : 0 < f1.
Let sigma := - f0 / f1.
Let tau := (h - f0) / f1.

Lemma sigma_tau : sigma < tau.
Proof. unfold sigma, tau. apply Rmult_lt_reg_r with f1; [exact up|]. field_simplify; lra. Qed.
Lemma F_tau : F tau = h.
Proof. unfold F, tau. field. lra. Qed.

Lemma kept_up : forall l, kept (Fin sigma) (Fin tau) l = elt (Fin tau) l.
Proof.
  intros l. unfold kept. pose proof sigma_tau as S.
  assert (E1 : ele (Fin sigma) (Fin tau) = true) by (apply ele_fin; lra).
  assert (E2 : ele (Fin tau) (Fin sigma) = false) by (destruct (ele (Fin tau) (Fin sigma)) eqn:E; [apply ele_fin in E; lra|reflexivity]).
  rewrite E1, E2. cbn [andb]. apply orb_false_r.
Qed.

Lemma in_listed : forall l, l = l1 \/ l = l2 -> elt (Fin tau) l = true -> In l (listed (Fin sigma) (Fin tau) l1 l2 PosInf).
Proof.
  intros l H E. unfold listed, retained. rewrite !in_app_iff. left.
  destruct H as [-> | ->]; [left|right]; rewrite kept_up, E; left; reflexivity.
Qed.

Lemma boundary_up : forall e, In e (listed (Fin sigma) (Fin tau) l1 l2 PosInf) -> on_boundary f0 f1 X0 X1 X2 h e.
Proof.
  intros e H. unfold listed, retained in H. rewrite !in_app_iff in H.
  assert (K : forall l, l = l1 \/ l = l2 -> In e (if kept (Fin sigma) (Fin tau) l then [l] else []) -> on_boundary f0 f1 X0 X1 X2 h e).
  { intros l L I. rewrite kept_up in I. destruct (elt (Fin tau) l) eqn:E; [|destruct I]. destruct I as [<-|[]].
    destruct l as [y| | |]; try discriminate.
    - cbn [on_boundary]. apply elt_fin in E. split.
      + apply root_Q. destruct L as [<- | <-]; auto.
      + pose proof F_tau as FT. unfold F in *. nra.
    - cbn [on_boundary]. split; [exact up|]. rewrite (inf_lead PosInf L); [lra|left; reflexivity]. }
  destruct H as [[H|H]|H]; [exact (K l1 (or_introl eq_refl) H)|exact (K l2 (or_intror eq_refl) H)|].
  destruct (both (Fin sigma) l1 l2) eqn:B; [|destruct H]. destruct H as [<-|[]]. cbn [on_boundary]. split; [exact up|].
  destruct (Rle_lt_dec (h * X2) (f1 * f1)) as [L|L]; [exact L|exfalso].
  pose proof lead as V. assert (VN : v1 * v2 < 0) by nra.
  assert (F1 : exists y, l1 = Fin y) by (destruct Z1 as [[_ E]|[E _]]; [eauto|exfalso; rewrite E in VN; lra]).
  assert (F2 : exists y, l2 = Fin y) by (destruct Z2 as [[_ E]|[E _]]; [eauto|exfalso; rewrite E in VN; lra]).
  destruct F1 as [y1 E1], F2 as [y2 E2]. destruct (fin_root1 y1 E1) as [_ U1]. destruct (fin_root2 y2 E2) as [_ U2].
  unfold both in B. rewrite E1, E2 in B. apply andb_true_iff in B. rewrite !orb_true_iff, !elt_fin in B.
  pose proof (Perspective_Proofs.Q_sigma f0 f1 X0 X1 X2 h hh Xpos up) as QS. cbv zeta in QS. fold sigma in QS.
  change (Q sigma < 0) in QS. pose proof (product sigma) as P. rewrite U1, U2 in P.
  replace ((- (v1 * y1) + v1 * sigma) * (- (v2 * y2) + v2 * sigma)) with (v1 * v2 * ((sigma - y1) * (sigma - y2))) in P by ring.
  assert (N : (sigma - y1) * (sigma - y2) < 0) by (clear - B; destruct B as [[B|B] [C|C]]; nra).
  assert (0 < v1 * v2 * ((sigma - y1) * (sigma - y2))) by nra. assert (kappa * Q sigma < 0) by nra. lra.
Qed.

Lemma complete_up : complete f0 f1 X0 X1 X2 h (listed (Fin sigma) (Fin tau) l1 l2 PosInf).
Proof.
  intros x QX FX. cbv beta zeta in *. change (0 < Q x) in QX. change (h < F x) in FX.
  pose proof (Perspective_Proofs.Q_sigma f0 f1 X0 X1 X2 h hh Xpos up) as QS. cbv zeta in QS. fold sigma in QS.
  change (Q sigma < 0) in QS. pose proof F_tau as FT. pose proof sigma_tau as ST.
  assert (TX : tau < x) by (unfold F in *; nra).
  assert (FIN : forall y, Q y = 0 -> h < F y -> In (Fin y) (listed (Fin sigma) (Fin tau) l1 l2 PosInf)).
  { intros y QY FY. apply in_listed.
    - destruct (root_in y sigma ltac:(lra) QY) as [E|E]; rewrite E; auto.
    - apply elt_fin. unfold F in *. nra. }
  split.
  - destruct (backward f0 f1 X0 X1 X2 h kappa u1 v1 u2 v2 hh kk Xpos product up x QX FX) as [(y & Y1 & _ & Y2 & Y3)|(y & Y)].
    + left. exists (Fin y). split; [apply FIN; assumption|]. apply elt_fin. exact Y1.
    + right. exists y. exact Y.
  - left. destruct (forward f0 f1 X0 X1 X2 h x QX) as [(y & Y1 & Y2)|L].
    + exists (Fin y). split; [|apply elt_fin; exact Y1]. apply FIN; [exact Y2|]. unfold F in *. nra.
    + exists PosInf. split; [|reflexivity].
      assert (BB : both (Fin sigma) l1 l2 = true -> In PosInf (listed (Fin sigma) (Fin tau) l1 l2 PosInf)).
      { intros B. unfold listed. rewrite in_app_iff, B. right. left. reflexivity. }
      pose proof lead as V. pose proof (product sigma) as P. pose proof (product x) as PX.
      assert (PS : kappa * Q sigma < 0) by nra. assert (PP : 0 < kappa * Q x) by nra.
      destruct Z1 as [[V1 E1]|[V1 E1]], Z2 as [[V2 E2]|[V2 E2]].
      * apply BB. destruct (fin_root1 _ E1) as [_ U1]. destruct (fin_root2 _ E2) as [_ U2].
        set (y1 := - u1 / v1) in *. set (y2 := - u2 / v2) in *. clearbody y1 y2. rewrite U1, U2 in P.
        replace ((- (v1 * y1) + v1 * sigma) * (- (v2 * y2) + v2 * sigma)) with (v1 * v2 * ((sigma - y1) * (sigma - y2))) in P by ring.
        assert (VV : 0 <= v1 * v2) by nra. assert (N : (sigma - y1) * (sigma - y2) < 0) by nra.
        unfold both. rewrite E1, E2. apply andb_true_iff. rewrite !orb_true_iff, !elt_fin.
        destruct (Rlt_le_dec y1 sigma) as [A|A]; [assert (sigma < y2) by nra; lra|]. assert (y2 < sigma) by nra. assert (sigma <> y1) by (intros G; rewrite <- G in N; lra). lra.
      * (* The first is finite, the second is infinite. *)
        destruct E2 as [E2|E2].
        { rewrite <- E2 at 1. apply in_listed; [right; reflexivity|]. rewrite E2. reflexivity. }
        apply BB. unfold both. rewrite E1, E2. apply andb_true_iff. split; [apply orb_true_iff; right; reflexivity|].
        apply orb_true_iff. left. apply elt_fin. rewrite V2 in *. set (y1 := - u1 / v1) in *.
        assert (U1 : u1 = - (v1 * y1)) by (unfold y1; field; exact V1). clearbody y1. rewrite U1 in P, PX.
        replace ((- (v1 * y1) + v1 * sigma) * (u2 + 0 * sigma)) with (v1 * u2 * (sigma - y1)) in P by ring.
        replace ((- (v1 * y1) + v1 * x) * (u2 + 0 * x)) with (v1 * u2 * (x - y1)) in PX by ring.
        destruct (Rlt_le_dec sigma y1) as [A|A]; [exact A|exfalso]. nra.
      * destruct E1 as [E1|E1].
        { rewrite <- E1 at 1. apply in_listed; [left; reflexivity|]. rewrite E1. reflexivity. }
        apply BB. unfold both. rewrite E1, E2. apply andb_true_iff. split; [apply orb_true_iff; left; reflexivity|].
        apply orb_true_iff. right. apply elt_fin. rewrite V1 in *. set (y2 := - u2 / v2) in *.
        assert (U2 : u2 = - (v2 * y2)) by (unfold y2; field; exact V2). clearbody y2. rewrite U2 in P, PX.
        replace ((u1 + 0 * sigma) * (- (v2 * y2) + v2 * sigma)) with (v2 * u1 * (sigma - y2)) in P by ring.
        replace ((u1 + 0 * x) * (- (v2 * y2) + v2 * x)) with (v2 * u1 * (x - y2)) in PX by ring.
        destruct (Rlt_le_dec sigma y2) as [A|A]; [exact A|exfalso]. nra.
      * exfalso. rewrite V1, V2 in *. nra.
Qed.

Lemma at_most_one_up : both (Fin sigma) l1 l2 = true -> (length (retained (Fin sigma) (Fin tau) l1 l2) <= 1)%nat.
Proof.
  intros B. unfold retained. rewrite !kept_up. pose proof sigma_tau as ST.
  destruct (elt (Fin tau) l1) eqn:E1, (elt (Fin tau) l2) eqn:E2; cbn; auto. exfalso.
  unfold both in B. apply andb_true_iff in B. rewrite !orb_true_iff in B.
  assert (K : forall l, elt (Fin tau) l = true -> elt l (Fin sigma) = true -> False).
  { intros [y| | |] A1 A2; try discriminate. apply elt_fin in A1. apply elt_fin in A2. lra. }
  destruct B as [[B|B] _]; eauto.
Qed.
End Up.

(* -------------------------------------------------------- the three directions of the line *)

Lemma ediv_nonzero : forall a b, b <> 0 -> ediv a b = Fin (a / b).
Proof. intros a b H. unfold ediv. destruct (Req_EM_T b 0); [contradiction|reflexivity]. Qed.

Lemma zero_of_ediv : forall u v, (u <> 0 \/ v <> 0) -> zero_of u v (ediv (- u) v).
Proof.
  intros u v H. unfold ediv, zero_of. destruct (Req_EM_T v 0) as [E|E].
  - right. split; [exact E|]. destruct H as [H|H]; [|contradiction].
    destruct (Rlt_dec 0 (- u)); [left; reflexivity|]. destruct (Rlt_dec (- u) 0); [right; reflexivity|lra].
  - left. split; [exact E|reflexivity].
Qed.

Lemma zero_of_opp : forall u v l, zero_of u v l -> zero_of u (- v) (xopp l).
Proof.
  intros u v l [[V ->]|[V E]].
  - left. split; [lra|]. cbn. f_equal. field. lra.
  - right. split; [lra|]. destruct E as [-> | ->]; [right|left]; reflexivity.
Qed.

Lemma xtimes_inf : forall r, 0 < r -> xtimes PosInf (Fin r) = PosInf /\ xtimes PosInf (Fin (- r)) = NegInf.
Proof.
  intros r H. cbn. unfold xscale. split.
  - destruct (Req_EM_T r 0); [lra|]. destruct (Rlt_dec r 0); [lra|reflexivity].
  - destruct (Req_EM_T (- r) 0); [lra|]. destruct (Rlt_dec (- r) 0); [reflexivity|lra].
Qed.

Lemma listing : forall f0 f1 X0 X1 X2 h kappa u1 v1 u2 v2, 0 < h -> 0 < kappa ->
  (forall l, 0 < X0 + 2 * X1 * l + X2 * (l * l)) -> 0 < X2 ->
  (forall l, (u1 + v1 * l) * (u2 + v2 * l) =
    kappa * ((f0 + f1 * l) * (f0 + f1 * l) - h * (X0 + 2 * X1 * l + X2 * (l * l)))) ->
  (f1 = 0 -> 0 < f0) ->
  let sigma := ediv (- f0) f1 in
  let tau := ediv (h - f0) f1 in
  let l1 := ediv (- u1) v1 in
  let l2 := ediv (- u2) v2 in
  let inf := xtimes PosInf (xminus tau sigma) in
  let l := listed sigma tau l1 l2 inf in
  (forall e, In e l -> on_boundary f0 f1 X0 X1 X2 h e) /\ complete f0 f1 X0 X1 X2 h l /\
  (both sigma l1 l2 = true -> (length (retained sigma tau l1 l2) <= 1)%nat).
Proof.
  intros f0 f1 X0 X1 X2 h kappa u1 v1 u2 v2 hh kk Xpos X2pos product FZ sigma tau l1 l2 inf l.
  assert (NZ : (u1 <> 0 \/ v1 <> 0) /\ (u2 <> 0 \/ v2 <> 0)).
  { assert (Z : exists z, (f0 + f1 * z) * (f0 + f1 * z) - h * (X0 + 2 * X1 * z + X2 * (z * z)) <> 0).
    { destruct (Req_EM_T f1 0) as [E|E].
      - set (q := fun z => (f0 + f1 * z) * (f0 + f1 * z) - h * (X0 + 2 * X1 * z + X2 * (z * z))).
        destruct (Req_EM_T (q 0) 0) as [Q0|Q0]; [|exists 0; exact Q0].
        destruct (Req_EM_T (q 1) 0) as [Q1|Q1]; [|exists 1; exact Q1].
        destruct (Req_EM_T (q (-1)) 0) as [Q2|Q2]; [|exists (-1); exact Q2].
        exfalso. unfold q in *. rewrite E in *. nra.
      - exists (- f0 / f1). replace (f0 + f1 * (- f0 / f1)) with 0 by (field; exact E).
        pose proof (Xpos (- f0 / f1)). nra. }
    destruct Z as [z Z]. specialize (product z). split.
    - destruct (Req_EM_T u1 0) as [E|E]; [|left; exact E]. destruct (Req_EM_T v1 0) as [E'|E']; [|right; exact E'].
      exfalso. rewrite E, E' in product. apply Z. apply (Rmult_eq_reg_l kappa); lra.
    - destruct (Req_EM_T u2 0) as [E|E]; [|left; exact E]. destruct (Req_EM_T v2 0) as [E'|E']; [|right; exact E'].
      exfalso. rewrite E, E' in product. apply Z. apply (Rmult_eq_reg_l kappa); lra. }
  destruct NZ as [NZ1 NZ2].
  pose proof (zero_of_ediv u1 v1 NZ1) as Z1. pose proof (zero_of_ediv u2 v2 NZ2) as Z2. fold l1 in Z1. fold l2 in Z2.
  destruct (Rtotal_order f1 0) as [N|[E|P]].
  - (* Decreasing: reflection. *)
    assert (S : sigma = xopp (Fin (- f0 / (- f1)))) by (unfold sigma; rewrite ediv_nonzero by lra; cbn; f_equal; field; lra).
    assert (T : tau = xopp (Fin ((h - f0) / (- f1)))) by (unfold tau; rewrite ediv_nonzero by lra; cbn; f_equal; field; lra).
    assert (I : inf = xopp PosInf).
    { unfold inf, sigma, tau. rewrite !ediv_nonzero by lra. cbn [xminus].
      replace ((h - f0) / f1 - - f0 / f1) with (- (h / (- f1))) by (field; lra).
      apply xtimes_inf. apply Rdiv_lt_0_compat; lra. }
    pose proof (zero_of_opp _ _ _ Z1) as Y1. pose proof (zero_of_opp _ _ _ Z2) as Y2.
    assert (E1 : l1 = xopp (xopp l1)) by (symmetry; apply xopp_xopp). assert (E2 : l2 = xopp (xopp l2)) by (symmetry; apply xopp_xopp).
    assert (Xn : forall z, 0 < X0 + 2 * - X1 * z + X2 * (z * z)) by (intros z; specialize (Xpos (- z)); nra).
    assert (Pn : forall z, (u1 + - v1 * z) * (u2 + - v2 * z) =
      kappa * ((f0 + - f1 * z) * (f0 + - f1 * z) - h * (X0 + 2 * - X1 * z + X2 * (z * z)))).
    { intros z. specialize (product (- z)). rewrite <- Ropp_mult_distr_r, Ropp_mult_distr_l in product.
      rewrite (Rmult_comm v2), <- Ropp_mult_distr_l, Rmult_comm in product. nra. }
    pose proof (boundary_up f0 (- f1) X0 (- X1) X2 h kappa u1 (- v1) u2 (- v2) hh kk Xn Pn _ _ Y1 Y2 ltac:(lra)) as BU.
    pose proof (complete_up f0 (- f1) X0 (- X1) X2 h kappa u1 (- v1) u2 (- v2) hh kk Xn Pn _ _ Y1 Y2 ltac:(lra)) as CU.
    pose proof (at_most_one_up f0 (- f1) h hh (xopp l1) (xopp l2) ltac:(lra)) as AU.
    cbv zeta in BU, CU, AU.
    set (m := listed (Fin (- f0 / - f1)) (Fin ((h - f0) / - f1)) (xopp l1) (xopp l2) PosInf) in *.
    assert (LM : l = map xopp m).
    { unfold l, m. rewrite S, T, I. rewrite E1 at 1. rewrite E2 at 1. apply listed_opp. }
    split; [|split].
    + intros e He. rewrite LM in He. apply in_map_iff in He. destruct He as (e' & <- & He). specialize (BU e' He).
      destruct e' as [y| | |]; cbn [on_boundary xopp] in *; [|lra|lra|exact BU].
      destruct BU as [B1 B2]. split; nra.
    + intros x QX FX. cbv beta in *.
      destruct (CU (- x)) as [C1 C2]; [nra|nra|]. cbv beta in *. rewrite LM. split.
      * destruct C2 as [(e & He & L)|(y & Y1' & Y2' & Y3')].
        -- left. exists (xopp e). split; [apply in_map; exact He|]. rewrite <- elt_opp, xopp_xopp. exact L.
        -- right. exists (- y). split; [lra|]. split; nra.
      * destruct C1 as [(e & He & L)|(y & Y1' & Y2' & Y3')].
        -- left. exists (xopp e). split; [apply in_map; exact He|]. rewrite <- elt_opp, xopp_xopp. exact L.
        -- right. exists (- y). split; [lra|]. split; nra.
    + intros B. rewrite S, T, E1, E2, retained_opp, map_length. apply AU.
      unfold both in *. rewrite S in B. rewrite E1, E2 in B. rewrite !elt_opp in B. rewrite andb_comm. exact B.
  - (* Constant. *)
    specialize (FZ E).
    assert (S : sigma = NegInf).
    { unfold sigma, ediv. destruct (Req_EM_T f1 0); [|contradiction]. destruct (Rlt_dec 0 (- f0)); [lra|].
      destruct (Rlt_dec (- f0) 0); [reflexivity|lra]. }
    assert (T : tau = if Rlt_dec 0 (h - f0) then PosInf else if Rlt_dec (h - f0) 0 then NegInf else NaN).
    { unfold tau, ediv. destruct (Req_EM_T f1 0); [reflexivity|contradiction]. }
    assert (V : v1 * v2 < 0).
    { pose proof (lead f0 f1 X0 X1 X2 h kappa u1 v1 u2 v2 product) as V. rewrite E in V.
      pose proof (Rmult_lt_0_compat _ _ kk (Rmult_lt_0_compat _ _ hh X2pos)). lra. }
    destruct Z1 as [[V1 L1]|[V1 _]]; [|rewrite V1 in V; lra]. destruct Z2 as [[V2 L2]|[V2 _]]; [|rewrite V2 in V; lra].
    assert (B : both sigma l1 l2 = false) by (unfold both; rewrite S, L1, L2; reflexivity).
    assert (K : forall y, kept sigma tau (Fin y) = if Rlt_dec h f0 then true else false).
    { intros y. unfold kept. rewrite S, T. destruct (Rlt_dec 0 (h - f0)); [destruct (Rlt_dec h f0); [lra|reflexivity]|].
      destruct (Rlt_dec (h - f0) 0); [destruct (Rlt_dec h f0); [reflexivity|lra]|]. destruct (Rlt_dec h f0); [lra|reflexivity]. }
    assert (LL : l = if Rlt_dec h f0 then [l1; l2] else []).
    { unfold l, listed, retained. rewrite B, L1, L2, !K. destruct (Rlt_dec h f0); reflexivity. }
    pose proof (zero_of_ediv u1 v1 NZ1) as Z1. pose proof (zero_of_ediv u2 v2 NZ2) as Z2. fold l1 in Z1. fold l2 in Z2.
    split; [|split].
    + intros e He. rewrite LL in He. destruct (Rlt_dec h f0) as [HF|HF]; [|destruct He].
      assert (R : forall y, l1 = Fin y \/ l2 = Fin y -> on_boundary f0 f1 X0 X1 X2 h (Fin y)).
      { intros y Hy. cbn [on_boundary]. split; [|rewrite E; lra].
        exact (root_Q f0 f1 X0 X1 X2 h kappa u1 v1 u2 v2 kk product l1 l2 Z1 Z2 y Hy). }
      destruct He as [<-|[<-|[]]]; [rewrite L1|rewrite L2]; apply R; auto.
    + intros x QX FX. cbv beta in *. rewrite LL. destruct (Rlt_dec h f0) as [HF|HF]; [|rewrite E in FX; lra].
      destruct (quad_roots (- (f0 * f0 - h * X0)) (2 * h * X1) (h * X2) x) as (y1 & y2 & Y & E1 & E2 & LT).
      * nra.
      * rewrite E in QX. nra.
      * specialize (LT ltac:(rewrite E in QX; nra)).
        assert (R : forall y, - (f0 * f0 - h * X0) + 2 * h * X1 * y + h * X2 * (y * y) = 0 -> In (Fin y) [l1; l2]).
        { intros y Hy. destruct (root_in f0 f1 X0 X1 X2 h kappa u1 v1 u2 v2 kk product l1 l2 Z1 Z2 y x) as [G|G].
          - lra.
          - rewrite E. nra.
          - rewrite G. left. reflexivity.
          - rewrite G. right. left. reflexivity. }
        split; left; [exists (Fin y1)|exists (Fin y2)]; (split; [apply R; assumption|apply elt_fin; lra]).
    + rewrite B. discriminate.
  - (* Increasing. *)
    assert (S : sigma = Fin (- f0 / f1)) by (apply ediv_nonzero; lra).
    assert (T : tau = Fin ((h - f0) / f1)) by (apply ediv_nonzero; lra).
    assert (I : inf = PosInf).
    { unfold inf. rewrite S, T. cbn [xminus]. replace ((h - f0) / f1 - - f0 / f1) with (h / f1) by (field; lra).
      apply xtimes_inf. apply Rdiv_lt_0_compat; lra. }
    unfold l. rewrite S, T, I. split; [|split].
    + exact (boundary_up f0 f1 X0 X1 X2 h kappa u1 v1 u2 v2 hh kk Xpos product l1 l2 Z1 Z2 P).
    + exact (complete_up f0 f1 X0 X1 X2 h kappa u1 v1 u2 v2 hh kk Xpos product l1 l2 Z1 Z2 P).
    + exact (at_most_one_up f0 f1 h hh l1 l2 P).
Qed.
