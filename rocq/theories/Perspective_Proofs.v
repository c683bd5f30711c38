(* Proofs about perspectives: shadows, in real geometry. *)
From Coq Require Import Reals List Bool Lra Psatz.
From Verif Require Import Geometry_Model.
Import ListNotations.
Local Open Scope R_scope.

(* ------------------------------------------------------------------ shadows *)

(* The vectors are relative to the camera. *)
Definition hid (c : R3) (R2 : R) (x : R3) : Prop := exists t, 0 <= t <= 1 /\ Norm2 (sub3 (scal3 t x) c) < R2.

Lemma norm2_diff : forall t x c, Norm2 (sub3 (scal3 t x) c) = t * t * Norm2 x - 2 * t * Dot x c + Norm2 c.
Proof. intros. unfold Norm2, Dot, sub3, scal3. cbn. ring. Qed.

Lemma three_squares : forall x y z : R, x * x + y * y + z * z = 0 -> x = 0 /\ y = 0 /\ z = 0.
Proof.
  intros x y z E. pose proof (Rle_0_sqr x). pose proof (Rle_0_sqr y). pose proof (Rle_0_sqr z). unfold Rsqr in *.
  repeat split; apply Rsqr_0_uniq; unfold Rsqr; lra.
Qed.

Lemma norm2_zero : forall v, Norm2 v = 0 -> v = mk3 0 0 0.
Proof. intros [x y z] E. unfold Norm2 in E. cbn in E. destruct (three_squares _ _ _ E) as (-> & -> & ->). reflexivity. Qed.

Lemma norm2_pos : forall v, 0 <= Norm2 v.
Proof. intros v. unfold Norm2. nra. Qed.

Lemma hid_iff : forall c R2 x, R2 <= Norm2 c ->
  let h := Norm2 c - R2 in
  hid c R2 x <-> Norm2 (sub3 x c) < R2 \/ (h * Norm2 x < Dot x c * Dot x c /\ h <= Dot x c).
Proof.
  intros c R2 x H h.
  assert (E1 : Norm2 (sub3 x c) = Norm2 x - 2 * Dot x c + Norm2 c) by (unfold Norm2, Dot, sub3; cbn; ring).
  pose proof (norm2_pos x) as X0. set (F := Dot x c) in *. set (X := Norm2 x) in *.
  assert (h0 : 0 <= h) by (unfold h; lra). assert (Eh : Norm2 c = h + R2) by (unfold h; ring). clearbody h. rewrite Eh in *. split.
  - intros (t & T & L). rewrite norm2_diff, Eh in L. fold F X in L. assert (L' : t * t * X - 2 * t * F + h < 0) by lra. clear L.
    destruct (Rlt_le_dec (Norm2 (sub3 x c)) R2) as [S|S]; [left; exact S|right].
    assert (FH : h <= F).
    { destruct (Rlt_le_dec F h) as [A|A]; [exfalso|exact A]. assert (G : 0 <= X - 2 * F + h) by lra.
      assert (t * t * (2 * F - h) <= t * t * X) by (apply Rmult_le_compat_l; nra).
      assert ((1 - t) * (h * (1 + t) - 2 * t * F) < 0) by nra.
      assert (0 <= (1 - t) * (h * (1 + t) - 2 * t * F)); [|lra].
      apply Rmult_le_pos; [lra|]. nra. }
    split; [|exact FH].
    destruct (Rle_lt_dec (F * F) (h * X)) as [A|A]; [exfalso|exact A].
    assert (T0 : 0 < t) by (destruct (Rle_lt_or_eq_dec 0 t ltac:(lra)) as [G|G]; [exact G|subst t; lra]).
    assert (0 <= F) by lra.
    (* (tX - F)² >= 0 *)
    assert (G : 0 <= X * (t * t * X - 2 * t * F + h)).
    { replace (X * (t * t * X - 2 * t * F + h)) with (Rsqr (t * X - F) + (h * X - F * F)) by (unfold Rsqr; ring).
      pose proof (Rle_0_sqr (t * X - F)). lra. }
    destruct (Rle_lt_or_eq_dec 0 X X0) as [XZ|XZ]; [nra|].
    rewrite <- XZ in *. assert (FZ : F = 0) by nra. rewrite FZ in *. lra.
  - intros [L|[L1 L2]].
    + exists 1. split; [lra|]. rewrite norm2_diff, Eh. fold F X. lra.
    + destruct (Req_dec h 0) as [HZ|HZ].
      * (* The camera is on the sphere. *)
        assert (F0 : 0 < F) by nra. assert (X1 : 0 < X).
        { destruct (Req_dec X 0) as [XZ|XZ]; [exfalso|lra]. assert (F = 0); [|lra]. unfold F, X in *. revert XZ. clear.
          intros E. rewrite (norm2_zero x E). unfold Dot. cbn. ring. }
        exists (Rmin 1 (F / X)). assert (P : 0 < F / X) by (apply Rdiv_lt_0_compat; assumption).
        assert (M : 0 < Rmin 1 (F / X)) by (apply Rmin_glb_lt; lra).
        pose proof (Rmin_l 1 (F / X)) as M1. pose proof (Rmin_r 1 (F / X)) as M2. split; [lra|].
        rewrite norm2_diff, Eh. fold F X. set (m := Rmin 1 (F / X)) in *. clearbody m.
        assert (m * X <= F). { apply (Rmult_le_compat_r X) in M2; [|lra]. unfold Rdiv in M2. rewrite Rmult_assoc, Rinv_l in M2; lra. }
        nra.
      * assert (F0 : 0 < F) by lra. exists (h / F). assert (Q1 : h / F * F = h) by (field; lra).
        assert (Q2 : 0 <= h / F <= 1).
        { split; [apply Rmult_le_pos; [lra|]; left; apply Rinv_0_lt_compat; exact F0|]. apply Rmult_le_reg_r with F; [exact F0|]. rewrite Q1. lra. }
        split; [exact Q2|]. rewrite norm2_diff, Eh. fold F X. set (t := h / F) in *. clearbody t.
        assert (t * t * X < h); [|nra].
        apply Rmult_lt_reg_r with (F * F); [nra|]. replace (t * t * X * (F * F)) with (h * (h * X)) by (rewrite <- Q1; ring).
        nra.
Qed.

(* Combinations of two points of the closed ball. *)
Lemma combination : forall c R2 b1 b2 s1 s2, Norm2 (sub3 b1 c) <= R2 -> Norm2 (sub3 b2 c) <= R2 -> 0 < s1 -> 0 < s2 -> 1 <= s1 + s2 ->
  b1 <> b2 -> hid c R2 (add3 (scal3 s1 b1) (scal3 s2 b2)).
Proof.
  intros c R2 b1 b2 s1 s2 B1 B2 S1 S2 S N. set (s := s1 + s2) in *. exists (/ s).
  assert (I : 0 < / s) by (apply Rinv_0_lt_compat; lra). assert (I1 : / s * s = 1) by (field; lra).
  split; [split; [lra|]; nra|].
  set (m := / s * s1). set (n := / s * s2).
  assert (M0 : 0 < m) by (unfold m; nra). assert (N0 : 0 < n) by (unfold n; nra).
  assert (MN : m + n = 1) by (unfold m, n; rewrite <- I1; unfold s; ring).
  assert (E : Norm2 (sub3 (scal3 (/ s) (add3 (scal3 s1 b1) (scal3 s2 b2))) c) =
    m * Norm2 (sub3 b1 c) + n * Norm2 (sub3 b2 c) - m * n * Norm2 (sub3 b1 b2)).
  { replace n with (1 - m) by lra.
    replace (scal3 (/ s) (add3 (scal3 s1 b1) (scal3 s2 b2))) with (add3 (scal3 m b1) (scal3 (1 - m) b2)).
    - unfold Norm2, sub3, scal3, add3. cbn. ring.
    - replace (1 - m) with n by lra. unfold m, n, add3, scal3. cbn. f_equal; ring. }
  rewrite E.
  assert (D : 0 < Norm2 (sub3 b1 b2)).
  { destruct (Rle_lt_or_eq_dec _ _ (norm2_pos (sub3 b1 b2))) as [L|L]; [exact L|exfalso]. apply N.
    destruct b1 as [a b d], b2 as [a' b' d']. unfold Norm2, sub3 in L. cbn in L. symmetry in L.
    destruct (three_squares _ _ _ L) as (E1 & E2 & E3). f_equal; lra. }
  assert (P : 0 < m * n * Norm2 (sub3 b1 b2)) by (repeat apply Rmult_lt_0_compat; assumption).
  apply (Rmult_le_compat_l m) in B1; [|lra]. apply (Rmult_le_compat_l n) in B2; [|lra].
  assert (m * R2 + n * R2 = R2) by (rewrite <- Rmult_plus_distr_r, MN; ring). lra.
Qed.

(* ----------------------------------------------------------- lines and quadratics *)

Lemma quad_roots : forall a0 a1 a2 t, 0 < a2 -> a0 + a1 * t + a2 * (t * t) <= 0 ->
  exists y1 y2, y1 <= t <= y2 /\ a0 + a1 * y1 + a2 * (y1 * y1) = 0 /\ a0 + a1 * y2 + a2 * (y2 * y2) = 0 /\
    (a0 + a1 * t + a2 * (t * t) < 0 -> y1 < t < y2).
Proof.
  intros a0 a1 a2 t A2 L. set (D := a1 * a1 - 4 * a0 * a2).
  assert (E : (2 * a2 * t + a1) * (2 * a2 * t + a1) = D + 4 * a2 * (a0 + a1 * t + a2 * (t * t))) by (unfold D; ring).
  set (g := a0 + a1 * t + a2 * (t * t)) in *. set (w := 2 * a2 * t + a1) in *.
  assert (P : 4 * a2 * g <= 0) by nra. pose proof (Rle_0_sqr w) as W0. unfold Rsqr in W0.
  assert (DP : 0 <= D) by lra. pose proof (sqrt_pos D) as S0. pose proof (sqrt_sqrt D DP) as SS. set (s := sqrt D) in *.
  assert (WS : w * w <= s * s) by lra.
  assert (B : - s <= w <= s) by (clear - WS S0; split; destruct (Rle_lt_dec (-s) w), (Rle_lt_dec w s); nra).
  assert (BS : g < 0 -> - s < w < s).
  { intros G. assert (4 * a2 * g < 0) by (clear - A2 G; nra). assert (WS' : w * w < s * s) by lra.
    clear - WS' S0. split; destruct (Rlt_le_dec (-s) w), (Rlt_le_dec w s); nra. }
  exists ((- a1 - s) / (2 * a2)), ((- a1 + s) / (2 * a2)).
  assert (Y1 : 2 * a2 * ((- a1 - s) / (2 * a2)) = - a1 - s) by (field; lra).
  assert (Y2 : 2 * a2 * ((- a1 + s) / (2 * a2)) = - a1 + s) by (field; lra).
  set (y1 := (- a1 - s) / (2 * a2)) in *. set (y2 := (- a1 + s) / (2 * a2)) in *. clearbody y1 y2.
  split; [unfold w in *; clear - B Y1 Y2 A2; split; nra|]. split; [|split].
  - apply (Rmult_eq_reg_l (4 * a2)); [|lra].
    replace (4 * a2 * (a0 + a1 * y1 + a2 * (y1 * y1))) with ((2 * a2 * y1) * (2 * a2 * y1) + 2 * a1 * (2 * a2 * y1) + 4 * a0 * a2) by ring.
    rewrite Y1. unfold D in SS. lra.
  - apply (Rmult_eq_reg_l (4 * a2)); [|lra].
    replace (4 * a2 * (a0 + a1 * y2 + a2 * (y2 * y2))) with ((2 * a2 * y2) * (2 * a2 * y2) + 2 * a1 * (2 * a2 * y2) + 4 * a0 * a2) by ring.
    rewrite Y2. unfold D in SS. lra.
  - intros LT. specialize (BS LT). unfold w in BS. clear - BS Y1 Y2 A2. split; nra.
Qed.

(* Two affine functions whose product is proportional to Q = F² - h X, F increasing. *)
Section Line.
Variables f0 f1 X0 X1 X2 h kappa u1 v1 u2 v2 : R.
Hypothesis hh : 0 < h.
Hypothesis kk : 0 < kappa.
Hypothesis Xpos : forall l, 0 < X0 + 2 * X1 * l + X2 * (l * l).
Let F l := f0 + f1 * l.
Let Q l := F l * F l - h * (X0 + 2 * X1 * l + X2 * (l * l)).
Hypothesis product : forall l, (u1 + v1 * l) * (u2 + v2 * l) = kappa * Q l.
Hypothesis increasing : 0 < f1.

Let sigma := - f0 / f1.
Lemma F_sigma : F sigma = 0.
Proof. unfold F, sigma. field. lra. Qed.
Lemma Q_sigma : Q sigma < 0.
Proof. unfold Q. rewrite F_sigma. pose proof (Xpos sigma). nra. Qed.
Lemma Q2 : v1 * v2 = kappa * (f1 * f1 - h * X2).
Proof.
  pose proof (product 0) as P0. pose proof (product 1) as P1. pose proof (product (-1)) as P2. unfold Q, F in *. lra.
Qed.

(* Going backwards from a point where Q > 0 and F > h, a zero with F > h or a point with Q >= 0 and F = h. *)
Lemma backward : forall x, 0 < Q x -> h < F x ->
  (exists y, y < x /\ sigma < y /\ Q y = 0 /\ h < F y) \/ (exists y, y < x /\ F y = h /\ 0 <= Q y).
Proof.
  intros x QX FX. pose proof Q_sigma as QS. pose proof F_sigma as FS. assert (SX : sigma < x) by (unfold F in *; nra).
  set (t := (h - f0) / f1). assert (FT : F t = h) by (unfold F, t; field; lra).
  assert (TX : t < x) by (unfold F in *; nra).
  pose proof (product sigma) as P1. pose proof (product x) as P2. pose proof (product t) as P3.
  destruct (Rle_lt_dec 0 (Q t)) as [QT|QT]; [right; exists t; auto|left].
  (* The factor that changes sign between t and x. *)
  assert (ST : sigma < t) by (unfold F in *; nra).
  assert (Z : forall u v u' v', (forall l, (u + v * l) * (u' + v' * l) = kappa * Q l) -> (u + v * t) * (u + v * x) < 0 ->
    exists y, y < x /\ sigma < y /\ Q y = 0 /\ h < F y).
  { intros u v u' v' P L. assert (V : v <> 0) by (intros ->; nra). exists (- u / v).
    assert (YV : v * (- u / v) = - u) by (field; exact V). set (y := - u / v) in *. clearbody y.
    assert (LL : v * v * ((t - y) * (x - y)) < 0) by (replace (v * v * ((t - y) * (x - y))) with ((v * t - v * y) * (v * x - v * y)) by ring; rewrite YV; lra).
    assert (L2 : (t - y) * (x - y) < 0) by nra.
    assert (t < y < x) by nra. split; [lra|]. split; [lra|]. split.
    - specialize (P y). replace (u + v * y) with 0 in P by lra. nra.
    - unfold F in *. nra. }
  destruct (Rlt_le_dec ((u1 + v1 * t) * (u1 + v1 * x)) 0) as [L|L].
  - exact (Z u1 v1 u2 v2 product L).
  - apply (Z u2 v2 u1 v1); [intros l; rewrite Rmult_comm; apply product|].
    assert (A : (u1 + v1 * t) * (u1 + v1 * x) * ((u2 + v2 * t) * (u2 + v2 * x)) < 0).
    { replace ((u1 + v1 * t) * (u1 + v1 * x) * ((u2 + v2 * t) * (u2 + v2 * x))) with (kappa * Q t * (kappa * Q x)) by (rewrite <- P2, <- P3; ring).
      assert (kappa * Q t < 0) by nra. assert (0 < kappa * Q x) by nra. nra. }
    nra.
Qed.

(* Going forwards, a zero, or Q has a nonnegative leading coefficient. *)
Lemma forward : forall x, 0 < Q x -> (exists y, x < y /\ Q y = 0) \/ h * X2 <= f1 * f1.
Proof.
  intros x QX. destruct (Rle_lt_dec (h * X2) (f1 * f1)) as [L|L]; [right; exact L|left].
  destruct (quad_roots (- (f0 * f0 - h * X0)) (- (2 * f0 * f1 - 2 * h * X1)) (- (f1 * f1 - h * X2)) x) as (y1 & y2 & Y & E1 & E2 & LT).
  - lra.
  - unfold Q, F in QX. nra.
  - exists y2. split; [apply LT; unfold Q, F in QX; nra|]. unfold Q, F. nra.
Qed.
End Line.
