(* Proofs about perspectives: the part of a segment that is in the shadow of a sphere. *)
From Coq Require Import Reals List Bool Lra Psatz.
From Verif Require Import Geometry_Model Hermite_Model Perspective_Model Perspective_Proofs Perspective_Proofs2.
Import ListNotations.
Local Open Scope R_scope.

Lemma eq3 : forall u v : R3, cx u = cx v -> cy u = cy v -> cz u = cz v -> u = v.
Proof. intros [] []; cbn. intros -> -> ->. reflexivity. Qed.

Section Span.
Variables a b c : R3.
Variable R2 : R.
Let d := sub3 b a.
Let pos l := add3 a (scal3 l d).
Let A := Norm2 a.
Let B := Norm2 b.
Let G := Dot a b.
Let h := Norm2 c - R2.
Let f0 := Dot a c.
Let f1 := Dot d c.
Let X1 := Dot a d.
Let X2 := Norm2 d.
Hypothesis independent : 0 < A * B - G * G.
Hypothesis outside : 0 < h.

Let F l := f0 + f1 * l.
Let X l := A + 2 * X1 * l + X2 * (l * l).
Let Q l := F l * F l - h * X l.
Let S l := X l - 2 * F l + Norm2 c - R2.

Lemma dot_pos : forall l, Dot (pos l) c = F l.
Proof. intros. unfold F, f0, f1, pos, Dot, add3, scal3. cbn. ring. Qed.
Lemma norm2_at : forall l, Norm2 (pos l) = X l.
Proof. intros. unfold X, A, X1, X2, pos, Norm2, Dot, add3, scal3. cbn. ring. Qed.
Lemma norm2_from_centre : forall l, Norm2 (sub3 (pos l) c) = S l + R2.
Proof.
  intros. unfold S, X, F, A, X1, X2, f0, f1, pos, d, Norm2, Dot, add3, sub3, scal3. cbn. ring.
Qed.
Lemma Q_S : forall l, Q l = (F l - h) * (F l - h) - h * S l.
Proof. intros. unfold Q, S, h. ring. Qed.

Lemma gram : A * X2 - X1 * X1 = A * B - G * G.
Proof. unfold A, X2, X1, B, G, d, Norm2, Dot, sub3. cbn. ring. Qed.
Lemma A_pos : 0 < A.
Proof.
  pose proof (norm2_pos a) as H. fold A in H. destruct H as [H|H]; [exact H|]. rewrite <- H in independent. nra.
Qed.
Lemma B_pos : 0 < B.
Proof.
  pose proof (norm2_pos b) as H. fold B in H. destruct H as [H|H]; [exact H|]. rewrite <- H in independent. nra.
Qed.
Lemma X2_pos : 0 < X2.
Proof.
  pose proof (norm2_pos d) as H. fold X2 in H. destruct H as [H|H]; [exact H|]. pose proof gram as E. rewrite <- H in E. nra.
Qed.
Lemma X_pos : forall l, 0 < X l.
Proof.
  intros l. pose proof gram as E. pose proof X2_pos. assert (0 < X2 * X l); [|nra].
  replace (X2 * X l) with ((X1 + X2 * l) * (X1 + X2 * l) + (A * X2 - X1 * X1)) by (unfold X; ring).
  pose proof (Rle_0_sqr (X1 + X2 * l)) as HS. unfold Rsqr in HS. lra.
Qed.

(* The vectors a and d are independent. *)
Lemma free : forall u v, add3 (scal3 u a) (scal3 v d) = mk3 0 0 0 -> u = 0 /\ v = 0.
Proof.
  intros u v E.
  assert (N : u * u * A + 2 * u * v * X1 + v * v * X2 = 0).
  { transitivity (Norm2 (add3 (scal3 u a) (scal3 v d))); [|rewrite E; unfold Norm2; cbn; ring].
    unfold A, X1, X2, Norm2, Dot, add3, scal3. cbn. ring. }
  pose proof gram as E'. pose proof A_pos as A0. pose proof X2_pos as X0.
  assert (V : v = 0).
  { destruct (Req_EM_T v 0) as [V|V]; [exact V|exfalso].
    assert (0 < v * v) by (apply Rsqr_pos_lt in V; exact V).
    assert (0 = (u * A + v * X1) * (u * A + v * X1) + v * v * (A * X2 - X1 * X1)).
    { transitivity (A * (u * u * A + 2 * u * v * X1 + v * v * X2)); [rewrite N|]; ring. }
    pose proof (Rle_0_sqr (u * A + v * X1)) as HS. unfold Rsqr in HS.
    assert (0 < v * v * (A * X2 - X1 * X1)) by (apply Rmult_lt_0_compat; lra). lra. }
  split; [|exact V]. rewrite V in N. assert (u * u = 0) by nra. nra.
Qed.

Lemma hid_pos : forall l, hid c R2 (pos l) <-> S l < 0 \/ (0 < Q l /\ h < F l).
Proof.
  intros l. rewrite hid_iff by (unfold h in outside; lra). cbv zeta. fold h. rewrite dot_pos, norm2_at, norm2_from_centre.
  pose proof (Q_S l) as E. unfold Q in *. split.
  - intros [H|[H1 H2]]; [left; lra|]. destruct H2 as [H2|H2]; [right; lra|]. left. nra.
  - intros [H|[H1 H2]]; [left; lra|right; lra].
Qed.

(* A point of the closed shadow, or a direction of the closed shadow. *)
Definition closed (e : extended) : Prop :=
  match e with
  | Fin l => exists s q, 1 <= s /\ pos l = scal3 s q /\ Norm2 (sub3 q c) <= R2
  | PosInf => exists s q, 0 < s /\ d = scal3 s q /\ Norm2 (sub3 q c) <= R2
  | NegInf => exists s q, 0 < s /\ opp3 d = scal3 s q /\ Norm2 (sub3 q c) <= R2
  | NaN => False
  end.

Lemma in_front : forall q, Norm2 (sub3 q c) <= R2 -> 0 < Dot q c.
Proof.
  intros q H. pose proof (norm2_diff 1 q c) as E. pose proof (norm2_pos q).
  replace (sub3 (scal3 1 q) c) with (sub3 q c) in E by (apply eq3; cbn; ring). unfold h in outside. lra.
Qed.

Ltac coordinate E k := let H := fresh in assert (H := f_equal k E); cbn in H.

Lemma inside : forall e1 e2 l, closed e1 -> closed e2 -> elt e1 (Fin l) = true -> elt (Fin l) e2 = true -> hid c R2 (pos l).
Proof.
  intros e1 e2 l C1 C2 L1 L2. destruct e1 as [l1| | |]; try discriminate; destruct e2 as [l2| | |]; try discriminate; cbn [closed] in *;
    destruct C1 as (s1 & q1 & S1 & E1 & D1); destruct C2 as (s2 & q2 & S2 & E2 & D2).
  - apply (proj1 (elt_fin _ _)) in L1. apply (proj1 (elt_fin _ _)) in L2.
    set (w1 := (l2 - l) / (l2 - l1)). set (w2 := (l - l1) / (l2 - l1)).
    assert (W1 : 0 < w1) by (apply Rdiv_lt_0_compat; lra). assert (W2 : 0 < w2) by (apply Rdiv_lt_0_compat; lra).
    assert (W : w1 + w2 = 1) by (unfold w1, w2; field; lra).
    assert (WL : w1 * l1 + w2 * l2 = l) by (unfold w1, w2; field; lra).
    replace (pos l) with (add3 (scal3 (w1 * s1) q1) (scal3 (w2 * s2) q2)).
    + apply combination; try assumption; try nra. intros Eq. rewrite <- Eq in E2.
      destruct (free (s2 - s1) (s2 * l1 - s1 * l2)) as [Z1 Z2].
      * transitivity (sub3 (scal3 s2 (pos l1)) (scal3 s1 (pos l2))).
        -- unfold pos. apply eq3; cbn; ring.
        -- rewrite E1, E2. apply eq3; cbn; ring.
      * assert (s1 = s2) by lra. subst s2. assert (s1 * (l1 - l2) = 0) by lra. assert (l1 - l2 = 0) by nra. lra.
    + transitivity (add3 (scal3 w1 (pos l1)) (scal3 w2 (pos l2))).
      * rewrite E1, E2. apply eq3; cbn; ring.
      * rewrite <- WL. replace w2 with (1 - w1) by lra. unfold pos. apply eq3; cbn; ring.
  - apply (proj1 (elt_fin _ _)) in L1.
    replace (pos l) with (add3 (scal3 s1 q1) (scal3 ((l - l1) * s2) q2)).
    + apply combination; try assumption; try nra. intros Eq. rewrite <- Eq in E2.
      destruct (free s2 (s2 * l1 - s1)) as [Z1 Z2]; [|lra].
      transitivity (sub3 (scal3 s2 (pos l1)) (scal3 s1 d)).
      -- unfold pos. apply eq3; cbn; ring.
      -- rewrite E1, E2. apply eq3; cbn; ring.
    + transitivity (add3 (pos l1) (scal3 (l - l1) d)).
      * rewrite E1, E2. apply eq3; cbn; ring.
      * unfold pos. apply eq3; cbn; ring.
  - apply (proj1 (elt_fin _ _)) in L2.
    replace (pos l) with (add3 (scal3 ((l2 - l) * s1) q1) (scal3 s2 q2)).
    + apply combination; try assumption; try nra. intros Eq. rewrite <- Eq in E2.
      destruct (free s1 (s1 * l2 + s2)) as [Z1 Z2]; [|lra].
      transitivity (sub3 (scal3 s1 (pos l2)) (scal3 s2 (opp3 d))).
      -- unfold pos. apply eq3; cbn; ring.
      -- rewrite E1, E2. apply eq3; cbn; ring.
    + transitivity (add3 (scal3 (l2 - l) (opp3 d)) (pos l2)).
      * rewrite E1, E2. apply eq3; cbn; ring.
      * unfold pos. apply eq3; cbn; ring.
  - exfalso. pose proof (in_front _ D1) as I1. pose proof (in_front _ D2) as I2.
    assert (P1 : Dot (opp3 d) c = s1 * Dot q1 c) by (rewrite E1; unfold Dot, scal3; cbn; ring).
    assert (P2 : Dot d c = s2 * Dot q2 c) by (rewrite E2; unfold Dot, scal3; cbn; ring).
    assert (P3 : Dot (opp3 d) c = - Dot d c) by (unfold Dot, opp3; cbn; ring). nra.
Qed.

Lemma boundary_closed : forall e, on_boundary f0 f1 A X1 X2 h e -> closed e.
Proof.
  intros e H. destruct e as [l| | |]; cbn [on_boundary closed] in *.
  - destruct H as [H1 H2]. fold (F l) (X l) in H1, H2. exists (F l / h), (scal3 (h / F l) (pos l)).
    assert (P : 0 < F l) by lra. split; [|split].
    + apply (Rmult_le_reg_r h); [lra|]. replace (F l / h * h) with (F l) by (field; lra). lra.
    + apply eq3; cbn; field; lra.
    + rewrite norm2_diff, norm2_at, dot_pos.
      replace (h / F l * (h / F l) * X l) with (h * (h * X l) / (F l * F l)) by (field; lra).
      replace (h * X l) with (F l * F l) by lra. replace (2 * (h / F l) * F l) with (2 * h) by (field; lra).
      replace (h * (F l * F l) / (F l * F l)) with h by (field; lra). unfold h. lra.
  - destruct H as [H1 H2]. exists (f1 / h), (scal3 (h / f1) d). split; [|split].
    + apply Rdiv_lt_0_compat; lra.
    + apply eq3; cbn; field; lra.
    + rewrite norm2_diff. fold X2 f1. replace (2 * (h / f1) * f1) with (2 * h) by (field; lra).
      replace (h / f1 * (h / f1) * X2) with (h / (f1 * f1) * (h * X2)) by (field; lra).
      assert (0 < h / (f1 * f1)) by (apply Rdiv_lt_0_compat; nra).
      assert (h / (f1 * f1) * (h * X2) <= h).
      { apply (Rle_trans _ (h / (f1 * f1) * (f1 * f1))); [apply Rmult_le_compat_l; lra|].
        right. field. lra. }
      unfold h in *. lra.
  - destruct H as [H1 H2]. exists (- f1 / h), (scal3 (h / f1) d). split; [|split].
    + apply Rdiv_lt_0_compat; lra.
    + apply eq3; cbn; field; lra.
    + rewrite norm2_diff. fold X2 f1. replace (2 * (h / f1) * f1) with (2 * h) by (field; lra).
      replace (h / f1 * (h / f1) * X2) with (h / (f1 * f1) * (h * X2)) by (field; lra).
      assert (0 < h / (f1 * f1)) by (apply Rdiv_lt_0_compat; nra).
      assert (h / (f1 * f1) * (h * X2) <= h).
      { apply (Rle_trans _ (h / (f1 * f1) * (f1 * f1))); [apply Rmult_le_compat_l; lra|].
        right. field. lra. }
      unfold h in *. lra.
  - exact H.
Qed.

Lemma sphere_closed : forall l, S l = 0 -> closed (Fin l).
Proof.
  intros l H. exists 1, (pos l). split; [lra|]. split; [apply eq3; cbn; ring|]. rewrite norm2_from_centre. lra.
Qed.

(* If the intersections with the cone and the sphere are listed, the shadow is what is between two of them. *)
Lemma span : forall l mus,
  (forall e, In e l -> on_boundary f0 f1 A X1 X2 h e) -> complete f0 f1 A X1 X2 h l ->
  (forall y, In y mus <-> (Norm2 (sub3 a c) - R2) + (- 2 * Dot d (sub3 c a)) * y + X2 * (y * y) = 0) ->
  (forall e, In e (l ++ map Fin mus) -> e <> NaN) /\
  forall x, hid c R2 (pos x) <->
    (exists e, In e (l ++ map Fin mus) /\ elt e (Fin x) = true) /\ (exists e, In e (l ++ map Fin mus) /\ elt (Fin x) e = true).
Proof.
  intros l mus HL HC HM.
  assert (SP : forall y, (Norm2 (sub3 a c) - R2) + (- 2 * Dot d (sub3 c a)) * y + X2 * (y * y) = S y).
  { intros y. unfold S, X, F, A, X1, f0, f1, X2, Norm2, Dot, sub3. cbn. ring. }
  assert (CL : forall e, In e (l ++ map Fin mus) -> closed e).
  { intros e H. apply in_app_or in H. destruct H as [H|H]; [apply boundary_closed, HL, H|].
    apply in_map_iff in H. destruct H as (y & <- & H). apply sphere_closed. rewrite <- SP. apply HM, H. }
  assert (SB : forall y, S y <= 0 -> exists y1 y2, y1 <= y <= y2 /\
    In (Fin y1) (l ++ map Fin mus) /\ In (Fin y2) (l ++ map Fin mus) /\ (S y < 0 -> y1 < y < y2)).
  { intros y H. destruct (quad_roots (Norm2 (sub3 a c) - R2) (- 2 * Dot d (sub3 c a)) X2 y X2_pos) as (y1 & y2 & Y & E1 & E2 & LT).
    - rewrite SP. exact H.
    - exists y1, y2. split; [exact Y|]. split; [|split].
      + apply in_or_app. right. apply in_map, HM, E1.
      + apply in_or_app. right. apply in_map, HM, E2.
      + rewrite SP in LT. exact LT. }
  split.
  - intros e H E. apply CL in H. rewrite E in H. exact H.
  - intros x. split.
    + intros H. apply hid_pos in H. destruct (Rlt_dec (S x) 0) as [N|N].
      * destruct (SB x) as (y1 & y2 & _ & I1 & I2 & LT); [lra|]. specialize (LT N).
        split; [exists (Fin y1)|exists (Fin y2)]; (split; [assumption|]); apply elt_fin; lra.
      * destruct H as [H|[H1 H2]]; [contradiction|]. destruct (HC x H1 H2) as [C1 C2]. split.
        -- destruct C1 as [(e & I & LT)|(y & LT & Y1 & Y2)].
           ++ exists e. split; [apply in_or_app; left; exact I|exact LT].
           ++ destruct (SB y) as (y1 & y2 & Y & I1 & I2 & _).
              { pose proof (Q_S y) as E. unfold Q, F, X in E. rewrite Y1 in E, Y2. nra. }
              exists (Fin y1). split; [exact I1|apply elt_fin; lra].
        -- destruct C2 as [(e & I & LT)|(y & LT & Y1 & Y2)].
           ++ exists e. split; [apply in_or_app; left; exact I|exact LT].
           ++ destruct (SB y) as (y1 & y2 & Y & I1 & I2 & _).
              { pose proof (Q_S y) as E. unfold Q, F, X in E. rewrite Y1 in E, Y2. nra. }
              exists (Fin y2). split; [exact I2|apply elt_fin; lra].
    + intros [(e1 & I1 & L1) (e2 & I2 & L2)]. exact (inside e1 e2 x (CL _ I1) (CL _ I2) L1 L2).
Qed.

(* ------------------------------------------------------------- when nothing is hidden *)

Lemma hid_front : forall x, hid c R2 x -> 0 < Dot x c.
Proof.
  intros x (t & T & H). rewrite norm2_diff in H. pose proof (norm2_pos x). unfold h in outside.
  assert (0 <= t * t * Norm2 x) by (apply Rmult_le_pos; [nra|assumption]).
  assert (0 < t * Dot x c) by lra. destruct T as [[T|T] _]; [|rewrite <- T in *; lra]. nra.
Qed.

Lemma behind_visible : forall x, 0 <= x <= 1 -> Dot a c <= 0 -> Dot b c <= 0 -> ~ hid c R2 (pos x).
Proof.
  intros x X01 HA HB H. apply hid_front in H. rewrite dot_pos in H. unfold F, f0, f1, d in H.
  replace (Dot (sub3 b a) c) with (Dot b c - Dot a c) in H by (unfold Dot, sub3; cbn; ring). nra.
Qed.

Let p := Dot a c.
Let q := Dot b c.
Let D := A * B - G * G.
Let alpha := (B * p - G * q) / D.
Let beta := (A * q - G * p) / D.
Let KH := add3 (scal3 alpha a) (scal3 beta b).
Let CH2 := Norm2 (sub3 KH c).

Lemma dot_a_KH : Dot a KH = p.
Proof.
  assert (E : Dot a KH = alpha * A + beta * G) by (unfold KH, A, G, Dot, Norm2; cbn; ring). rewrite E.
  unfold alpha, beta. unfold D. field. lra.
Qed.
Lemma dot_b_KH : Dot b KH = q.
Proof.
  assert (E : Dot b KH = alpha * G + beta * B) by (unfold KH, B, G, Dot, Norm2; cbn; ring). rewrite E.
  unfold alpha, beta. unfold D. field. lra.
Qed.
Lemma KH2_value : Norm2 KH = alpha * p + beta * q.
Proof.
  transitivity (alpha * Dot a KH + beta * Dot b KH); [|rewrite dot_a_KH, dot_b_KH; ring].
  unfold KH at 1, Norm2, Dot. cbn. ring.
Qed.
Lemma CH2_value : CH2 = Norm2 c - Norm2 KH.
Proof.
  assert (E : Dot KH c = Norm2 KH) by (rewrite KH2_value; unfold KH, p, q, Dot; cbn; ring).
  transitivity (Norm2 KH - 2 * Dot KH c + Norm2 c); [|lra]. unfold CH2, Norm2, Dot, sub3. cbn. ring.
Qed.

(* A vector of the plane. *)
Lemma plane : forall u v, Norm2 (sub3 (add3 (scal3 u a) (scal3 v b)) c) =
  ((u - alpha) * (u - alpha) * A + 2 * (u - alpha) * (v - beta) * G + (v - beta) * (v - beta) * B) + CH2.
Proof.
  intros u v. rewrite CH2_value, KH2_value.
  assert (E : (u - alpha) * (u - alpha) * A + 2 * (u - alpha) * (v - beta) * G + (v - beta) * (v - beta) * B =
    u * u * A + 2 * u * v * G + v * v * B - 2 * (u * (alpha * A + beta * G) + v * (alpha * G + beta * B)) +
    (alpha * (alpha * A + beta * G) + beta * (alpha * G + beta * B))) by ring.
  assert (E1 : alpha * A + beta * G = p) by (rewrite <- dot_a_KH; unfold KH, A, G, Dot, Norm2; cbn; ring).
  assert (E2 : alpha * G + beta * B = q) by (rewrite <- dot_b_KH; unfold KH, B, G, Dot, Norm2; cbn; ring).
  rewrite E, E1, E2. unfold A, B, G, p, q, Norm2, Dot, sub3. cbn. ring.
Qed.

Lemma hid_plane : forall x, 0 <= x <= 1 -> hid c R2 (pos x) -> exists u v, 0 <= u /\ 0 <= v /\
  (u - alpha) * (u - alpha) * A + 2 * (u - alpha) * (v - beta) * G + (v - beta) * (v - beta) * B < R2 - CH2.
Proof.
  intros x X01 (t & T & H). exists (t * (1 - x)), (t * x). split; [nra|]. split; [nra|].
  replace (scal3 t (pos x)) with (add3 (scal3 (t * (1 - x)) a) (scal3 (t * x) b)) in H
    by (unfold pos, d; apply eq3; cbn; ring).
  rewrite plane in H. lra.
Qed.

Lemma plane_visible : forall x, 0 <= x <= 1 -> R2 <= CH2 -> ~ hid c R2 (pos x).
Proof.
  intros x X01 L H. destruct (hid_plane x X01 H) as (u & v & _ & _ & H').
  set (m := u - alpha) in *. set (n := v - beta) in *.
  pose proof A_pos. pose proof (Rle_0_sqr (m * A + n * G)) as S1. pose proof (Rle_0_sqr n) as S2. unfold Rsqr in *.
  assert (0 <= A * (m * m * A + 2 * m * n * G + n * n * B)); [|nra].
  replace (A * (m * m * A + 2 * m * n * G + n * n * B)) with ((m * A + n * G) * (m * A + n * G) + n * n * (A * B - G * G)) by ring.
  assert (0 <= n * n * (A * B - G * G)) by (apply Rmult_le_pos; lra). lra.
Qed.

Lemma alpha_visible : forall x, 0 <= x <= 1 -> alpha < 0 -> (R2 - CH2) * B / D <= alpha * alpha -> ~ hid c R2 (pos x).
Proof.
  intros x X01 N L H. destruct (hid_plane x X01 H) as (u & v & U & V & H').
  set (m := u - alpha) in *. set (n := v - beta) in *.
  pose proof B_pos as B0. pose proof (Rle_0_sqr (n * B + m * G)) as S1. unfold Rsqr in *.
  assert (L' : (R2 - CH2) * B <= alpha * alpha * D).
  { apply (Rmult_le_compat_r D) in L; [|unfold D; lra]. replace ((R2 - CH2) * B / D * D) with ((R2 - CH2) * B) in L by (field; unfold D; lra). exact L. }
  assert (E : B * (m * m * A + 2 * m * n * G + n * n * B) = (n * B + m * G) * (n * B + m * G) + m * m * D) by (unfold D; ring).
  assert (M : alpha * alpha <= m * m) by (unfold m; nra).
  assert (alpha * alpha * D <= m * m * D) by (apply Rmult_le_compat_r; unfold D; lra).
  assert (B * (m * m * A + 2 * m * n * G + n * n * B) < B * (R2 - CH2)) by (apply Rmult_lt_compat_l; lra). lra.
Qed.

Lemma beta_visible : forall x, 0 <= x <= 1 -> beta < 0 -> (R2 - CH2) * A / D <= beta * beta -> ~ hid c R2 (pos x).
Proof.
  intros x X01 N L H. destruct (hid_plane x X01 H) as (u & v & U & V & H').
  set (m := u - alpha) in *. set (n := v - beta) in *.
  pose proof A_pos as A0. pose proof (Rle_0_sqr (m * A + n * G)) as S1. unfold Rsqr in *.
  assert (L' : (R2 - CH2) * A <= beta * beta * D).
  { apply (Rmult_le_compat_r D) in L; [|unfold D; lra]. replace ((R2 - CH2) * A / D * D) with ((R2 - CH2) * A) in L by (field; unfold D; lra). exact L. }
  assert (E : A * (m * m * A + 2 * m * n * G + n * n * B) = (m * A + n * G) * (m * A + n * G) + n * n * D) by (unfold D; ring).
  assert (M : beta * beta <= n * n) by (unfold n; nra).
  assert (beta * beta * D <= n * n * D) by (apply Rmult_le_compat_r; unfold D; lra).
  assert (A * (m * m * A + 2 * m * n * G + n * n * B) < A * (R2 - CH2)) by (apply Rmult_lt_compat_l; lra). lra.
Qed.
End Span.

(* ------------------------------------------------------------------ the tangents *)

(* The two half-planes of the tangents. *)
Lemma factors : forall A B G p q r2 d1 d2 l, 0 < A * B - G * G -> p <> 0 ->
  let D := A * B - G * G in
  let a0 := r2 * (r2 * A - p * p) in
  let a1 := 2 * r2 * (G * p - A * q) in
  let a2 := B * p * p - 2 * G * p * q + A * q * q in
  0 < a2 -> d1 <> d2 -> a0 + a1 * d1 + a2 * (d1 * d1) = 0 -> a0 + a1 * d2 + a2 * (d2 * d2) = 0 ->
  let g1 := (r2 - d1 * q) / p in
  let g2 := (r2 - d2 * q) / p in
  (g1 * A + d1 * G + (g1 * (G - A) + d1 * (B - G)) * l) * (g2 * A + d2 * G + (g2 * (G - A) + d2 * (B - G)) * l) =
  r2 * D / a2 * ((p + (q - p) * l) * (p + (q - p) * l) -
                 (a2 / D - r2) * (A + 2 * (G - A) * l + (A - 2 * G + B) * (l * l))).
Proof.
  intros A B G p q r2 d1 d2 l DD P0 D a0 a1 a2 A2 N E1 E2 g1 g2.
  assert (s : a1 = - (a2 * (d1 + d2))).
  { apply (Rmult_eq_reg_r (d1 - d2)); [|lra]. nra. }
  assert (m : a0 = a2 * (d1 * d2)) by (rewrite s in E1; lra).
  assert (G1 : a2 * (g1 * g2) = r2 * (r2 * B - q * q)).
  { apply (Rmult_eq_reg_r (p * p)); [|nra].
    replace (a2 * (g1 * g2) * (p * p)) with (r2 * r2 * a2 + r2 * q * - (a2 * (d1 + d2)) + q * q * (a2 * (d1 * d2)))
      by (unfold g1, g2; field; exact P0).
    rewrite <- s, <- m. unfold a0, a1, a2. ring. }
  assert (G2 : a2 * (g1 * d2 + g2 * d1) = - (2 * r2 * (r2 * G - p * q))).
  { apply (Rmult_eq_reg_r p); [|exact P0].
    replace (a2 * (g1 * d2 + g2 * d1) * p) with (- r2 * - (a2 * (d1 + d2)) - 2 * q * (a2 * (d1 * d2)))
      by (unfold g1, g2; field; exact P0).
    rewrite <- s, <- m. unfold a0, a1. ring. }
  set (xi := A + (G - A) * l). set (eta := G + (B - G) * l).
  apply (Rmult_eq_reg_l a2); [|lra].
  transitivity (a2 * (g1 * g2) * (xi * xi) + a2 * (g1 * d2 + g2 * d1) * (xi * eta) + a2 * (d1 * d2) * (eta * eta)).
  { unfold xi, eta. ring. }
  rewrite G1, G2, <- m. unfold D. unfold a2 at 1. 
  transitivity (r2 * ((A * B - G * G) * ((p + (q - p) * l) * (p + (q - p) * l)) - (a2 - r2 * (A * B - G * G)) * (A + 2 * (G - A) * l + (A - 2 * G + B) * (l * l)))).
  { unfold a0, xi, eta, a2. ring. }
  fold a2. field. lra.
Qed.
