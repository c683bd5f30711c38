From Coq Require Import Bool List Arith Reals Lra Lia Psatz.
From Verif Require Import Chebyshev_Model Chebyshev_Proofs Approximation_Model.
Import ListNotations.
Open Scope R_scope.

(** ** Specification *)
(** The Чебышёв-Lobatto points of an interval, from the upper to the lower bound. *)
Definition point (N : nat) (a b : R) (k : nat) : R := (a + b) / 2 + (b - a) / 2 * cos (PI * INR k / INR N).
(** [s] is the polynomial of degree [N] through the values of [f] at the [N + 1] points of [a, b]. *)
Definition interpolates (s : series) (N : nat) (f : R -> R) (a b : R) : Prop :=
  lower_bound s = a /\ upper_bound s = b /\ length (coefficients s) = S N /\ forall k, (k <= N)%nat -> value s (point N a b k) = f (point N a b k).

(** ** Sums of cosines *)
Lemma sum_swap : forall (g : nat -> nat -> R) n m, sum_f_R0 (fun i => sum_f_R0 (fun j => g i j) m) n = sum_f_R0 (fun j => sum_f_R0 (fun i => g i j) n) m.
Proof. intros g n m; induction n as [ | n IH]; cbn [sum_f_R0]; [reflexivity | ]. rewrite IH, <- plus_sum. reflexivity. Qed.
Lemma cos_sum : forall a n, 2 * sin (a / 2) * (sum_f_R0 (fun j => cos (INR j * a)) n - 1 / 2 - 1 / 2 * cos (INR n * a)) = cos (a / 2) * sin (INR n * a).
Proof.
  intros a; induction n as [ | n IH]; [cbn [sum_f_R0 INR]; rewrite Rmult_0_l, cos_0, sin_0; lra | ]. cbn [sum_f_R0].
  replace (INR (S n) * a) with (INR n * a + 2 * (a / 2)) by (rewrite S_INR; field). rewrite cos_plus, sin_plus.
  rewrite sin_2a, cos_2a. set (h := a / 2) in *. set (u := INR n * a) in *. pose proof (sin2_cos2 h) as P. unfold Rsqr in P.
  set (A := sum_f_R0 _ n) in *. set (C' := cos u * _ - sin u * _).
  replace (2 * sin h * (A + C' - 1 / 2 - 1 / 2 * C')) with (2 * sin h * (A - 1 / 2 - 1 / 2 * cos u) + sin h * cos u + sin h * C') by field. unfold C'; clear C'.
  rewrite IH. assert (C : cos h * cos h = 1 - sin h * sin h) by lra.
  replace (cos h * (sin u * (cos h * cos h - sin h * sin h) + cos u * (2 * sin h * cos h))) with (cos h * sin u * (cos h * cos h - sin h * sin h) + 2 * sin h * cos u * (cos h * cos h)) by ring.
  replace (sin h * (cos u * (cos h * cos h - sin h * sin h) - sin u * (2 * sin h * cos h))) with (sin h * cos u * (cos h * cos h - sin h * sin h) - 2 * sin u * cos h * (sin h * sin h)) by ring. rewrite C. ring.
Qed.
(** The sum for the angle [PI m / N], with the first and last terms halved. *)
Definition halved_sum (N m : nat) : R := sum_f_R0 (fun j => cos (INR j * (PI * INR m / INR N))) N - 1 / 2 - 1 / 2 * cos (INR N * (PI * INR m / INR N)).
Lemma cos_multiple : forall n, cos (INR n * (2 * PI)) = 1.
Proof. intros n. rewrite Rmult_comm. replace (2 * PI * INR n) with (0 + 2 * INR n * PI) by ring. rewrite cos_period. apply cos_0. Qed.
Lemma sin_multiple : forall n, sin (INR n * PI) = 0.
Proof. intros n. apply sin_eq_0_1. exists (Z.of_nat n). rewrite INR_IZR_INZ. reflexivity. Qed.
Lemma INR_pos : forall N, (1 <= N)%nat -> 0 < INR N.
Proof. intros N H. apply (lt_INR 0). lia. Qed.
Lemma halved_zero : forall N m, (1 <= N)%nat -> (0 < m < 2 * N)%nat -> halved_sum N m = 0.
Proof.
  intros N m HN Hm. pose proof (INR_pos N HN) as PN. pose proof (cos_sum (PI * INR m / INR N) N) as H. fold (halved_sum N m) in H.
  replace (INR N * (PI * INR m / INR N)) with (INR m * PI) in H by (field; lra). rewrite sin_multiple, Rmult_0_r in H.
  apply Rmult_integral in H. destruct H as [H | H]; [ | exact H].
  assert (0 < sin (PI * INR m / INR N / 2)); [ | lra]. apply sin_gt_0.
  - apply Rdiv_lt_0_compat; [ | lra]. apply Rdiv_lt_0_compat; [ | exact PN]. apply Rmult_lt_0_compat; [apply PI_RGT_0 | apply INR_pos; lia].
  - pose proof PI_RGT_0. assert (INR m < 2 * INR N) by (replace 2 with (INR 2) by reflexivity; rewrite <- mult_INR; apply lt_INR; lia).
    replace (PI * INR m / INR N / 2) with (PI * (INR m / (2 * INR N))) by (field; lra).
    assert (INR m / (2 * INR N) < 1) by (apply (Rmult_lt_reg_r (2 * INR N)); [lra | ]; unfold Rdiv; rewrite Rmult_assoc, Rinv_l by lra; lra). nra.
Qed.
Lemma halved_full : forall N m, (1 <= N)%nat -> (m = 0 \/ m = 2 * N)%nat -> halved_sum N m = INR N.
Proof.
  intros N m HN Hm. pose proof (INR_pos N HN) as PN. unfold halved_sum.
  assert (E : forall j, cos (INR j * (PI * INR m / INR N)) = 1).
  { intros j. destruct Hm as [-> | ->].
    - replace (INR j * (PI * INR 0 / INR N)) with 0 by (cbn [INR]; field; lra). apply cos_0.
    - replace (INR j * (PI * INR (2 * N) / INR N)) with (INR j * (2 * PI)); [apply cos_multiple | ]. rewrite mult_INR. cbn [INR]. field. lra. }
  rewrite (sum_eq _ (fun _ => 1)) by (intros j _; apply E). rewrite sum_cte, E, S_INR. lra.
Qed.
(** Discrete orthogonality. *)
Definition p (N j : nat) : R := if (Nat.eqb j 0 || Nat.eqb j N)%bool then 2 else 1.
Lemma p_pos : forall N j, 0 < p N j.
Proof. intros N j. unfold p. destruct (_ || _); lra. Qed.
Lemma weighted_sum : forall N g, (1 <= N)%nat -> sum_f_R0 (fun j => g j / p N j) N = sum_f_R0 g N - 1 / 2 * g 0%nat - 1 / 2 * g N.
Proof.
  intros N g HN. destruct N as [ | n]; [lia | ]. cbn [sum_f_R0].
  assert (E : forall k, (k <= n)%nat -> sum_f_R0 (fun j => g j / p (S n) j) k = sum_f_R0 g k - 1 / 2 * g 0%nat).
  { induction k as [ | k IH]; intros Hk; cbn [sum_f_R0]; [unfold p; cbn [Nat.eqb orb]; field | ]. rewrite IH by lia. unfold p. destruct (Nat.eqb_spec (S k) 0); [lia | ]. destruct (Nat.eqb_spec (S k) (S n)); [lia | ]. cbn [orb]. field. }
  rewrite E by lia. unfold p. rewrite Nat.eqb_refl, orb_true_r. field.
Qed.
Lemma orthogonality : forall N k l, (1 <= N)%nat -> (k <= N)%nat -> (l <= N)%nat ->
  sum_f_R0 (fun j => cos (PI * INR j * INR l / INR N) * cos (INR j * (PI * INR k / INR N)) / p N j) N = if Nat.eqb k l then p N l * INR N / 2 else 0.
Proof.
  intros N k l HN Hk Hl. pose proof (INR_pos N HN) as PN. rewrite (weighted_sum N (fun j => cos (PI * INR j * INR l / INR N) * cos (INR j * (PI * INR k / INR N))) HN). cbv beta.
  set (d := (Nat.max k l - Nat.min k l)%nat).
  assert (E : forall j, cos (PI * INR j * INR l / INR N) * cos (INR j * (PI * INR k / INR N)) = 1 / 2 * (cos (INR j * (PI * INR d / INR N)) + cos (INR j * (PI * INR (k + l) / INR N)))).
  { intros j. set (u := PI * INR j * INR l / INR N). set (v := INR j * (PI * INR k / INR N)).
    replace (INR j * (PI * INR (k + l) / INR N)) with (v + u) by (unfold u, v; rewrite plus_INR; field; lra). rewrite cos_plus.
    destruct (Nat.le_gt_cases l k) as [L | L].
    - replace (INR j * (PI * INR d / INR N)) with (v - u) by (unfold u, v, d; rewrite Nat.max_l, Nat.min_r, minus_INR by lia; field; lra). rewrite cos_minus. lra.
    - replace (INR j * (PI * INR d / INR N)) with (u - v) by (unfold u, v, d; rewrite Nat.max_r, Nat.min_l, minus_INR by lia; field; lra). rewrite cos_minus. lra. }
  rewrite (sum_eq _ _ N (fun j _ => E j)), !E.
  assert (G : sum_f_R0 (fun j => 1 / 2 * (cos (INR j * (PI * INR d / INR N)) + cos (INR j * (PI * INR (k + l) / INR N)))) N =
    1 / 2 * (sum_f_R0 (fun j => cos (INR j * (PI * INR d / INR N))) N + sum_f_R0 (fun j => cos (INR j * (PI * INR (k + l) / INR N))) N)).
  { rewrite <- plus_sum, scal_sum. apply sum_eq. intros; ring. }
  rewrite G. replace (INR 0) with 0 by reflexivity. rewrite !Rmult_0_l, cos_0.
  transitivity (1 / 2 * (halved_sum N d + halved_sum N (k + l))); [unfold halved_sum; field | ].
  destruct (Nat.eqb_spec k l) as [-> | NE].
  - rewrite (halved_full N d) by (unfold d; lia). unfold p. destruct (Nat.eqb_spec l 0) as [-> | L0]; [cbn [orb]; rewrite halved_full by lia; field | ].
    destruct (Nat.eqb_spec l N) as [-> | LN]; [cbn [orb]; rewrite halved_full by lia; field | ]. cbn [orb]. rewrite halved_zero by lia. field.
  - rewrite !halved_zero by (unfold d; lia). field.
Qed.

(** ** Interpolation *)
Lemma nth_map_seq : forall (g : nat -> R) n i, (i < n)%nat -> nth i (map g (seq 0 n)) 0 = g i.
Proof. intros g n i H. rewrite (nth_indep _ 0 (g 0%nat)) by (rewrite map_length, seq_length; lia). rewrite map_nth, seq_nth by lia. reflexivity. Qed.
Lemma sum_delta_nat : forall (g : nat -> R) k N, (k <= N)%nat -> sum_f_R0 (fun l => if Nat.eqb k l then g l else 0) N = g k.
Proof.
  intros g k; induction N as [ | N IH]; intros H; cbn [sum_f_R0]; [replace k with 0%nat by lia; reflexivity | ].
  destruct (Nat.eqb_spec k (S N)) as [-> | E].
  - rewrite (sum_eq _ (fun _ => 0)); [rewrite sum_cte; ring | ]. intros i Hi. destruct (Nat.eqb_spec (S N) i); [lia | reflexivity].
  - rewrite IH by lia. ring.
Qed.
Lemma matrix_length : forall N f, length (matrix_times N f) = S N.
Proof. intros. unfold matrix_times. rewrite map_length, seq_length. reflexivity. Qed.
Theorem matrix_interpolates : forall N f a b k, (1 <= N)%nat -> (k <= N)%nat -> scaled_value (Series (matrix_times N f) a b) (cos (PI * INR k / INR N)) = nth k f 0.
Proof.
  intros N f a b k HN Hk. pose proof (INR_pos N HN) as PN. unfold scaled_value. cbn [coefficients]. rewrite matrix_length. cbn [Nat.pred].
  rewrite (sum_eq _ (fun j => sum_f_R0 (fun l => (cos (PI * INR j * INR l / INR N) * cos (INR j * (PI * INR k / INR N)) / p N j) * (2 / (p N l * INR N) * nth l f 0)) N)).
  - rewrite sum_swap. rewrite (sum_eq _ (fun l => if Nat.eqb k l then nth l f 0 else 0)); [apply (sum_delta_nat (fun l => nth l f 0)); exact Hk | ].
    intros l Hl. rewrite <- scal_sum, orthogonality by lia. pose proof (p_pos N l). destruct (Nat.eqb k l); [field; lra | ring].
  - intros j Hj. unfold matrix_times. rewrite nth_map_seq by lia. rewrite T_cos. rewrite Rmult_comm, scal_sum. apply sum_eq. intros l Hl. unfold InterpolationMatrix. cbv zeta. fold (p N j) (p N l).
    pose proof (p_pos N l). pose proof (p_pos N j). field. lra.
Qed.
Lemma position_point : forall s N k, lower_bound s <> upper_bound s -> position s (point N (lower_bound s) (upper_bound s) k) = cos (PI * INR k / INR N).
Proof. intros s N k H. unfold position, point. field. lra. Qed.
Lemma lobatto_point : forall N a b k, lobatto_argument N a b k = point N a b k.
Proof. intros. unfold lobatto_argument, point, LobattoPoint. cbv zeta. field. Qed.
Definition samples (l : list R) (N : nat) (f : R -> R) (a b : R) : Prop := forall k, (k <= N)%nat -> nth k l 0 = f (point N a b k).
Lemma samples_interpolate : forall N f a b l, a <> b -> (1 <= N)%nat -> samples l N f a b -> interpolates (Series (matrix_times N l) a b) N f a b.
Proof.
  intros N f a b l Hab HN Hl. split; [reflexivity | ]. split; [reflexivity | ]. split; [apply matrix_length | ]. intros k Hk. unfold value.
  pose proof (position_point (Series (matrix_times N l) a b) N k Hab) as P. cbn [lower_bound upper_bound] in P. rewrite P, matrix_interpolates by assumption. apply Hl, Hk.
Qed.
Lemma point_double : forall N a b k, (1 <= N)%nat -> point (2 * N) a b (2 * k) = point N a b k.
Proof. intros N a b k HN. pose proof (INR_pos N HN). unfold point. do 3 f_equal. rewrite !mult_INR. cbn [INR]. field. lra. Qed.
Lemma values_samples : forall N f a b l, (1 <= N)%nat -> samples l N f a b -> samples (function_values f (2 * N) a b l) (2 * N) f a b.
Proof.
  intros N f a b l HN Hl k Hk. unfold function_values. rewrite nth_map_seq by lia. destruct (Nat.even k) eqn:Ev; [ | rewrite lobatto_point; reflexivity].
  apply Nat.even_spec in Ev. destruct Ev as [m ->]. rewrite Nat.div2_double, Hl by lia. rewrite point_double by exact HN. reflexivity.
Qed.

(** ** The error estimate *)
Lemma estimate_sum : forall (g : nat -> R) n start acc, fold_left (fun e j => e + Rabs (g j)) (seq start n) acc = acc + fold_right Rplus 0 (map (fun j => Rabs (g j)) (seq start n)).
Proof. intros g; induction n as [ | n IH]; intros start acc; cbn [seq fold_left map fold_right]; [ring | rewrite IH; ring]. Qed.
Lemma series_bound : forall (g : nat -> R) x n, -1 <= x <= 1 -> Rabs (sum_f_R0 (fun j => g j * T j x) n) <= fold_right Rplus 0 (map (fun j => Rabs (g j)) (seq 0 (S n))).
Proof.
  intros g x n H; induction n as [ | n IH].
  - cbn [sum_f_R0 seq map fold_right]. rewrite T_0, Rmult_1_r. lra.
  - cbn [sum_f_R0]. rewrite seq_S, map_app, fold_right_app. cbn [map fold_right].
    assert (G : forall l a, fold_right Rplus a l = fold_right Rplus 0 l + a) by (induction l as [ | b l IHl]; intros a; cbn; [ring | rewrite IHl; ring]).
    rewrite G. cbn [Nat.add]. rewrite Rplus_0_r. eapply Rle_trans; [apply Rabs_triang | ]. rewrite Rabs_mult. pose proof (T_bound (S n) x H). pose proof (Rabs_pos (g (S n))). pose proof (Rabs_pos (T (S n) x)). nra.
Qed.
Lemma sum_longer : forall (l : list R) x n m, length l = S n -> (n <= m)%nat -> sum_f_R0 (fun k => nth k l 0 * T k x) n = sum_f_R0 (fun k => nth k l 0 * T k x) m.
Proof.
  intros l x n m Hl Hm. induction m as [ | m IH]; [replace n with 0%nat by lia; reflexivity | ]. destruct (Nat.eq_dec n (S m)) as [-> | E]; [reflexivity | ]. cbn [sum_f_R0]. rewrite <- IH by lia.
  rewrite (nth_overflow l) by lia. ring.
Qed.
Theorem estimate_bound : forall N u v a b t, a < b -> length u = S N -> length v = S (2 * N) -> a <= t <= b ->
  Rabs (value (Series u a b) t - value (Series v a b) t) <= current_error_estimate (2 * N) u v.
Proof.
  intros N u v a b t Hab Hu Hv Ht. unfold value. replace (position (Series v a b) t) with (position (Series u a b) t) by reflexivity.
  pose proof (position_range (Series u a b) t Hab Ht) as Hx. set (x := position _ t) in *. unfold scaled_value. cbn [coefficients]. rewrite Hu, Hv. cbn [Nat.pred].
  rewrite (sum_longer u x N (2 * N)) by lia. rewrite <- minus_sum. unfold current_error_estimate. rewrite (Nat.div2_double N), estimate_sum, Rplus_0_l.
  rewrite (sum_eq _ (fun k => (nth k u 0 - nth k v 0) * T k x)) by (intros; ring). eapply Rle_trans; [apply series_bound, Hx | ].
  apply Req_le. f_equal. apply map_ext_in. intros j Hj. apply in_seq in Hj. destruct (Nat.leb_spec j N); [reflexivity | ]. rewrite (nth_overflow u) by lia. rewrite <- Rabs_Ropp. f_equal. ring.
Qed.

(** ** The interpolant *)
Definition good_interpolant (max_degree : nat) (f : R -> R) (a b max_error : R) (s : series) (e : R) : Prop :=
  exists N, (1 <= N)%nat /\ (N <= Nat.max 1 max_degree)%nat /\ interpolates s N f a b /\
    (e <= max_error \/ (max_degree < 2 * N)%nat) /\
    exists finer, interpolates finer (2 * N) f a b /\ forall t, a <= t <= b -> Rabs (value s t - value finer t) <= e.
Lemma Implementation_ok : forall max_degree f a b max_error, a < b -> forall fuel N l u, (max_degree + 1 < 2 * N + fuel)%nat -> (1 <= fuel)%nat -> (1 <= N)%nat -> (N <= Nat.max 1 max_degree)%nat ->
  samples l N f a b -> interpolates (Series u a b) N f a b ->
  exists s e, Implementation fuel max_degree f a b max_error (2 * N) l u = Some (s, e) /\ good_interpolant max_degree f a b max_error s e.
Proof.
  intros max_degree f a b max_error Hab; induction fuel as [ | fuel IH]; intros N l u Hf Hf1 HN HM Hl Hu; [lia | ]. cbn [Implementation].
  pose proof (values_samples N f a b l HN Hl) as Hv. set (fk := function_values f (2 * N) a b l) in *.
  pose proof (samples_interpolate (2 * N) f a b fk ltac:(lra) ltac:(lia) Hv) as Hi.
  destruct (Nat.leb_spec (2 * N) max_degree) as [L | L]; cbn [andb].
  - destruct (Rleb (current_error_estimate (2 * N) u (matrix_times (2 * N) fk)) max_error) eqn:E; cbn [negb].
    + exists (Series u a b), (current_error_estimate (2 * N) u (matrix_times (2 * N) fk)). split; [reflexivity | ]. exists N. split; [exact HN | ]. split; [exact HM | ]. split; [exact Hu | ]. split; [left; apply Rleb_spec; exact E | ].
      eexists; split; [exact Hi | ]. intros t Ht. apply estimate_bound; [exact Hab | apply Hu | apply matrix_length | exact Ht].
    + apply IH; try assumption; lia.
  - exists (Series u a b), (current_error_estimate (2 * N) u (matrix_times (2 * N) fk)). split; [reflexivity | ]. exists N. split; [exact HN | ]. split; [exact HM | ]. split; [exact Hu | ]. split; [right; lia | ].
    eexists; split; [exact Hi | ]. intros t Ht. apply estimate_bound; [exact Hab | apply Hu | apply matrix_length | exact Ht].
Qed.
Theorem Interpolant_ok : forall max_degree f a b max_error, a < b ->
  exists s e, Interpolant max_degree f a b max_error = Some (s, e) /\ good_interpolant max_degree f a b max_error s e.
Proof.
  intros max_degree f a b max_error Hab. unfold Interpolant. cbv zeta. change 2%nat with (2 * 1)%nat.
  assert (P0 : point 1 a b 0 = b) by (unfold point; cbn [INR]; replace (PI * 0 / 1) with 0 by field; rewrite cos_0; field).
  assert (P1 : point 1 a b 1 = a) by (unfold point; cbn [INR]; replace (PI * 1 / 1) with PI by field; rewrite cos_PI; field).
  apply Implementation_ok; try lia; [exact Hab | | ].
  - intros k Hk. destruct k as [ | [ | k]]; [rewrite P0; reflexivity | rewrite P1; reflexivity | lia].
  - split; [reflexivity | ]. split; [reflexivity | ]. split; [reflexivity | ]. intros k Hk. unfold value, scaled_value, position; cbn [coefficients lower_bound upper_bound length Nat.pred sum_f_R0 nth]. rewrite T_0, T_1.
    destruct k as [ | [ | k]]; [rewrite P0; field; lra | rewrite P1; field; lra | lia].
Qed.

(** ** The adaptive subdivision *)
(** The pieces [l] cover [a, b] in order. *)
Fixpoint tiles (l : list (series * R)) (a b : R) : Prop :=
  match l with [] => a = b | (s, _) :: l => lower_bound s = a /\ a < upper_bound s /\ tiles l (upper_bound s) b end.
Lemma tiles_app : forall l m a b c, tiles l a b -> tiles m b c -> tiles (l ++ m) a c.
Proof. induction l as [ | [s e] l IH]; intros m a b c H1 H2; cbn [tiles app] in *; [subst; exact H2 | ]. destruct H1 as (E & L & H1). split; [exact E | ]. split; [exact L | ]. eapply IH; eassumption. Qed.
(** Each piece is a good interpolant, and is accurate or not to be subdivided. *)
Definition good_piece (max_degree : nat) (f : R -> R) (max_error : R) (subdivide : series -> R -> bool) (piece : series * R) : Prop :=
  good_interpolant max_degree f (lower_bound (fst piece)) (upper_bound (fst piece)) max_error (fst piece) (snd piece) /\
  (snd piece <= max_error \/ subdivide (fst piece) (snd piece) = false).
(** The pieces given to [stop], which said to go on for each but maybe the last. *)
Fixpoint presented (stop : list (series * R) -> series -> bool) (state l : list (series * R)) (b : bool) : Prop :=
  match l with
  | [] => b = false
  | (s, e) :: l => (l = [] /\ stop state s = b) \/ (stop state s = false /\ l <> [] /\ presented stop (state ++ [(s, e)]) l b)
  end.
Lemma presented_app : forall stop l state m b, presented stop state l false -> presented stop (state ++ l) m b -> m <> [] -> presented stop state (l ++ m) b.
Proof.
  intros stop; induction l as [ | [s e] l IH]; intros state m b H1 H2 Hm; cbn [app]; [rewrite app_nil_r in H2; exact H2 | ]. cbn [presented] in *. right.
  destruct H1 as [[-> H1] | (H1 & Hn & H3)].
  - split; [exact H1 | ]. split; [exact Hm | ]. exact H2.
  - split; [exact H1 | ]. split; [destruct l; [contradiction | discriminate] | ]. apply IH; [exact H3 | | exact Hm]. rewrite <- app_assoc. exact H2.
Qed.
Definition largest (l : list (series * R)) (e : R) : Prop := (exists piece, In piece l /\ snd piece = e) /\ forall piece, In piece l -> snd piece <= e.
Theorem Streaming_ok : forall max_degree f max_error subdivide stop fuel lower upper state b final e, lower < upper ->
  Streaming fuel max_degree f max_error subdivide stop lower upper state = Some (b, final, e) ->
  exists l reached, final = state ++ l /\ tiles l lower reached /\ reached <= upper /\ (b = false -> reached = upper) /\
    (forall piece, In piece l -> good_piece max_degree f max_error subdivide piece) /\ presented stop state l b /\ largest l e.
Proof.
  intros max_degree f max_error subdivide stop; induction fuel as [ | fuel IH]; intros lower upper state b final e Hlu H; cbn [Streaming] in H; [discriminate | ].
  destruct (Rleb max_error 0); [discriminate | ]. cbv zeta in H.
  destruct (Interpolant_ok max_degree f lower upper max_error Hlu) as (s & e0 & E & G). rewrite E in H.
  destruct (Req_EM_T ((lower + upper) / 2) lower) as [X | _]; [lra | ]. destruct (Req_EM_T ((lower + upper) / 2) upper) as [X | _]; [lra | ]. rewrite !orb_false_r in H.
  destruct (Rleb e0 max_error || negb (subdivide s e0))%bool eqn:D.
  - assert (b = stop state s /\ final = state ++ [(s, e0)] /\ e = e0) as (-> & -> & ->) by (split; [congruence | split; congruence]).
    assert (lower_bound s = lower /\ upper_bound s = upper) as [Es1 Es2] by (destruct G as (N & _ & _ & (I1 & I2 & _) & _); split; assumption).
    exists [(s, e0)], upper. split; [reflexivity | ]. split; [cbn [tiles]; rewrite Es1, Es2; split; [reflexivity | split; [exact Hlu | reflexivity]] | ]. split; [lra | ]. split; [reflexivity | ]. split.
    + intros piece [<- | []]. split; cbn [fst snd]; [rewrite Es1, Es2; exact G | ]. apply orb_true_iff in D. rewrite Rleb_spec, negb_true_iff in D. exact D.
    + split; [left; split; reflexivity | ]. split; [exists (s, e0); split; [left; reflexivity | reflexivity] | intros piece [<- | []]; cbn; lra].
  - destruct (Streaming fuel max_degree f max_error subdivide stop lower ((lower + upper) / 2) state) as [[[b1 state1] e1] | ] eqn:E1; [ | discriminate].
    destruct (IH lower ((lower + upper) / 2) state b1 state1 e1 ltac:(lra) E1) as (l1 & r1 & -> & T1 & R1 & F1 & P1 & S1 & M1).
    destruct b1.
    + assert (b = true /\ final = state ++ l1 /\ e = e1) as (-> & -> & ->) by (split; [congruence | split; congruence]).
      exists l1, r1. split; [reflexivity | ]. split; [exact T1 | ]. split; [lra | ]. split; [discriminate | ]. auto.
    + destruct (Streaming fuel max_degree f max_error subdivide stop ((lower + upper) / 2) upper (state ++ l1)) as [[[b2 state2] e2] | ] eqn:E2; [ | discriminate].
      destruct (IH ((lower + upper) / 2) upper (state ++ l1) b2 state2 e2 ltac:(lra) E2) as (l2 & r2 & -> & T2 & R2 & F2 & P2 & S2 & M2).
      assert (b = b2 /\ final = (state ++ l1) ++ l2 /\ e = Rmax e1 e2) as (-> & -> & ->) by (split; [congruence | split; congruence]).
      exists (l1 ++ l2), r2. split; [rewrite app_assoc; reflexivity | ]. split; [apply (tiles_app l1 l2 lower ((lower + upper) / 2)); [rewrite <- (F1 eq_refl); exact T1 | exact T2] | ].
      split; [exact R2 | ]. split; [exact F2 | ]. split; [intros piece Hp; apply in_app_iff in Hp; destruct Hp; auto | ].
      assert (l2 <> []) by (destruct M2 as ((piece & Hp & _) & _); intros ->; destruct Hp).
      split; [apply presented_app; assumption | ]. destruct M1 as ((p1 & I1 & X1) & B1). destruct M2 as ((p2 & I2 & X2) & B2). split.
      * unfold Rmax. destruct (Rle_dec e1 e2); [exists p2 | exists p1]; (split; [apply in_app_iff; auto | assumption]).
      * intros piece Hp. apply in_app_iff in Hp. destruct Hp as [Hp | Hp]; [specialize (B1 _ Hp); pose proof (Rmax_l e1 e2); lra | specialize (B2 _ Hp); pose proof (Rmax_r e1 e2); lra].
Qed.
Theorem Adaptive_ok : forall fuel max_degree f max_error subdivide lower upper l e, lower < upper -> Adaptive fuel max_degree f max_error subdivide lower upper = Some (l, e) ->
  exists pieces, l = map fst pieces /\ tiles pieces lower upper /\ (forall piece, In piece pieces -> good_piece max_degree f max_error subdivide piece) /\ largest pieces e.
Proof.
  intros fuel max_degree f max_error subdivide lower upper l e Hlu H. unfold Adaptive in H. destruct (Streaming _ _ _ _ _ _ _ _ _) as [[[b state] e'] | ] eqn:E; [ | discriminate].
  assert (l = map fst state /\ e = e') as [-> ->] by (split; congruence).
  destruct (Streaming_ok _ _ _ _ _ _ _ _ _ _ _ _ Hlu E) as (m & r & -> & H1 & H2 & H3 & H4 & H5 & H6). cbn [app] in *. exists m. split; [reflexivity | ]. split; [ | split; assumption].
  rewrite <- H3; [exact H1 | ]. clear - H5. revert H5. generalize (@nil (series * R)) as st. induction m as [ | [s x] m IH]; intros st H; cbn [presented] in H; [exact H | ]. destruct H as [[-> H] | (_ & _ & H)]; [symmetry; exact H | eapply IH; exact H].
Qed.
(** If nothing that may vanish is left alone, a function which a series follows within its error has no zeros where the test says so: with the test of real roots as
    the criterion of subdivision, an inaccurate piece has no zeros of any function within its error estimate. *)
Theorem inaccurate_pieces_do_not_vanish : forall max_degree f max_error piece g, lower_bound (fst piece) < upper_bound (fst piece) ->
  good_piece max_degree f max_error (fun s e => match MayHaveRealRoots s e with Some b => b | None => true end) piece -> max_error < snd piece ->
  (forall t, lower_bound (fst piece) <= t <= upper_bound (fst piece) -> Rabs (g t - value (fst piece) t) <= snd piece) ->
  forall t, lower_bound (fst piece) <= t <= upper_bound (fst piece) -> g t <> 0.
Proof.
  intros max_degree f max_error [s e] g Hb [_ Hs] He Hg; cbn [fst snd] in *. destruct Hs as [Hs | Hs]; [lra | ]. destruct (MayHaveRealRoots s e) as [[ | ] | ] eqn:E; try discriminate. exact (zero_free s e g Hb E Hg).
Qed.
