(** The orders of the steps of the integrators with an adaptive step size. *)
From Coq Require Import Reals List Bool Arith ZArith QArith Qreals Lra Lia FunctionalExtensionality.
From Verif Require Import OneStep_Model Multistep_Proofs Multistep_Proofs2 OneStep_Proofs Adaptive_Model Adaptive_Tables Adaptive_Proofs2 Adaptive_Proofs3
  Order_Proofs Order_Proofs2 Order_Proofs3 Order_Proofs4.
Import ListNotations.
Open Scope R_scope.

(** * The tables *)
Definition rk_conditions (m : EmbeddedRK) (b : list R) (p : nat) : Prop :=
  velocity_conditions false true (erk_stages m) (fun i => nth i (erk_c m) 0) (fun _ _ => 0) (fun i j => nth j (nth i (erk_a m) []) 0) (fun i => nth i b 0) p.
Definition rkn_conditions (on_v : bool) (m : EmbeddedRKN) (b bʹ : list R) (p : nat) : Prop :=
  position_conditions true on_v (rkn_stages m) (fun i => nth i (rkn_c m) 0) (fun i j => nth j (nth i (rkn_a m) []) 0) (fun i j => nth j (nth i (rkn_aʹ m) []) 0) (fun i => nth i b 0) p /\
  velocity_conditions true on_v (rkn_stages m) (fun i => nth i (rkn_c m) 0) (fun i j => nth j (nth i (rkn_a m) []) 0) (fun i j => nth j (nth i (rkn_aʹ m) []) 0) (fun i => nth i bʹ 0) p.
Definition rk_table_order (m : RKTable) (b : list Q) (p : nat) : bool := table_order false true (length (t_bhat m)) (t_c m) [] (t_a m) [] b 0 p.
Definition rkn_table_order (on_v : bool) (m : RKNTable) (b bʹ : list Q) (p : nat) : bool :=
  table_order true on_v (length (n_bhat m)) (n_c m) (n_a m) (n_aʹ m) b bʹ p p.
Lemma phi_without_q : forall c a a' aʹ t i, allowed false true t -> phi c a aʹ t i = phi c a' aʹ t i.
Proof.
  intros c a a' aʹ t. induction t as [|t IH|t IHt u IHu|t IHt u IHu]; intros i L; cbn in *.
  - reflexivity.
  - rewrite IH by exact L. reflexivity.
  - destruct L as (_ & L1 & L2). rewrite IHt by exact L1. f_equal. apply sum_to_ext. intros j _. rewrite IHu by exact L2. reflexivity.
  - destruct L. discriminate.
Qed.
Lemma rk_table_order_spec : forall m b p, rk_table_order m b p = true -> rk_conditions (erk_of m) (reals b) p.
Proof.
  intros m b p H. apply table_order_spec in H. cbv zeta in H. destruct H as [_ H]. intros t L O. unfold erk_stages. cbn [erk_of erk_bhat erk_c erk_a].
  unfold reals at 1. rewrite map_length. specialize (H t L O). rewrite <- H. apply sum_to_ext. intros i _. f_equal. apply phi_without_q, L.
Qed.
Lemma rkn_table_order_spec : forall on_v m b bʹ p, rkn_table_order on_v m b bʹ p = true -> rkn_conditions on_v (rkn_of m) (reals b) (reals bʹ) p.
Proof.
  intros on_v m b bʹ p H. apply table_order_spec in H. cbv zeta in H. unfold rkn_conditions, rkn_stages. cbn [rkn_of rkn_bhat rkn_c rkn_a rkn_aʹ].
  replace (length (reals (n_bhat m))) with (length (n_bhat m)) by (unfold reals; rewrite map_length; reflexivity). exact H.
Qed.

(** * Attempts *)
Lemma difference : forall x x' y h C1 C2 p, Rabs (x - y) <= C1 * Rabs h ^ (p + 1) -> Rabs (x' - y) <= C2 * Rabs h ^ (p + 1 + 1) -> Rabs h <= 1 -> 0 <= C2 ->
  Rabs (x - x') <= (C1 + C2) * Rabs h ^ (p + 1).
Proof.
  intros x x' y h C1 C2 p X X' H P. replace (x - x') with ((x - y) - (x' - y)) by ring. rewrite (pow_add _ (p + 1) 1), pow_1 in X'.
  pose proof (Rabs_triang (x - y) (- (x' - y))) as T. rewrite Rabs_Ropp in T. set (z := Rabs h ^ (p + 1)) in *.
  assert (0 <= z) by (apply pow_le, Rabs_pos). assert (C2 * (z * Rabs h) <= C2 * z) by (apply Rmult_le_compat_l; [exact P|]; rewrite <- (Rmult_1_r z) at 2; apply Rmult_le_compat_l; assumption).
  unfold Rminus in *. lra.
Qed.
Lemma erk_attempt_order : forall m f g tolerance exact s0 y, erk_checks m = true ->
  rk_conditions m (erk_bhat m) (erk_lower_order m + 1) -> rk_conditions m (erk_b m) (erk_lower_order m) -> (1 <= erk_lower_order m)%nat ->
  (forall s y, snd (g s y) = derivative f s y) -> (forall d, defined (f d) s0 vzero (y s0) /\ uses false true (f d)) -> solution1 f s0 y ->
  forall d, exists C H, 0 < H /\ forall at_end s_final last_f h, 0 < Rabs h <= H -> (erk_fsal m = true -> last_f = derivative f s0 (y s0)) ->
    (at_end = true -> s_final = s0 + h) ->
    let '(s', _, _, ratio) := erk_attempt m g tolerance exact at_end s_final (mkRKState s0 (y s0)) last_f h in
    rk_s s' = s0 + h /\ Rabs (rk_y s' d - y (s0 + h) d) <= C * Rabs h ^ (erk_lower_order m + 2) /\
    exists error, ratio = tolerance h (mkRKState s0 (y s0)) error /\ Rabs (error d) <= C * Rabs h ^ (erk_lower_order m + 1).
Proof.
  intros m f g tolerance exact s0 y C Hi Lo P G Df Sol d. set (l := erk_lower_order m) in *.
  destruct (rk_order _ _ _ _ _ (l + 1) ltac:(lia) Hi f s0 y Df Sol d) as (C1 & H1 & P1 & B1).
  destruct (rk_order _ _ _ _ _ _ P Lo f s0 y Df Sol d) as (C2 & H2 & P2 & B2).
  exists (Rmax (Rabs C1) (C2 + Rabs C1)), (Rmin 1 (Rmin H1 H2)). split; [apply Rmin_glb_lt; [lra|apply Rmin_glb_lt; assumption]|].
  intros at_end s_final last_f h [h0 h1] LF AE. set (s := mkRKState s0 (y s0)).
  assert (RG : rhs g = derivative f) by (apply functional_extensionality; intros; apply functional_extensionality; intros; apply G).
  assert (Gd : rk_good (higher m) g s last_f).
  { unfold rk_good. cbn [higher first_same_as_last]. destruct (erk_fsal m); [|exact I]. rewrite RG. apply LF. reflexivity. }
  unfold erk_attempt. rewrite (erk_stages_eq m g exact at_end s_final s last_f h AE).
  destruct (rk_run_spec (higher m) g h s last_f C Gd) as (k & K & Run). specialize (Run (erk_stages m)). destruct Run as [R1 _].
  destruct (rk_run (higher m) g h s last_f (erk_stages m)) as [[ks lf] st]. cbn [fst] in R1. subst ks.
  assert (W : forall w d, weighted w (map (fun i => vscal h (k i)) (seq 0 (erk_stages m))) d = h * sum_to (erk_stages m) (fun i => w i * k i d)).
  { intros w e. rewrite weighted_map, <- sum_to_scal. apply sum_to_ext. intros i _. unfold vscal. ring. }
  assert (KK : forall i, (i < erk_stages m)%nat -> k i = rk_stage_of (fun i => nth i (erk_c m) 0) (fun i j => nth j (nth i (erk_a m) []) 0) (derivative f) h s0 (y s0) k i).
  { intros i _. rewrite (K i), RG. reflexivity. }
  pose proof (Rmin_l 1 (Rmin H1 H2)). pose proof (Rmin_r 1 (Rmin H1 H2)). pose proof (Rmin_l H1 H2). pose proof (Rmin_r H1 H2).
  specialize (B1 h k ltac:(lra) KK). specialize (B2 h k ltac:(lra) KK).
  pose proof (Rmax_l (Rabs C1) (C2 + Rabs C1)). pose proof (Rmax_r (Rabs C1) (C2 + Rabs C1)). pose proof (Rle_abs C1).
  assert (B1' : Rabs (y s0 d + h * sum_to (erk_stages m) (fun i => nth i (erk_bhat m) 0 * k i d) - y (s0 + h) d) <= Rabs C1 * Rabs h ^ (l + 1 + 1)).
  { eapply Rle_trans; [exact B1|]. apply Rmult_le_compat_r; [apply pow_le, Rabs_pos|lra]. }
  cbn [rk_s rk_y]. split; [reflexivity|]. split.
  - unfold vadd. rewrite W. replace (l + 2)%nat with (l + 1 + 1)%nat by lia. cbn [s rk_y]. eapply Rle_trans; [exact B1'|]. apply Rmult_le_compat_r; [apply pow_le, Rabs_pos|lra].
  - eexists. split; [reflexivity|]. cbn beta. rewrite !W. pose proof (difference _ _ _ _ _ _ _ B2 B1' ltac:(lra) (Rabs_pos C1)) as X.
    match type of X with Rabs (?u + ?v - (?u + ?w)) <= _ => replace (u + v - (u + w)) with (v - w) in X by ring end.
    eapply Rle_trans; [exact X|]. apply Rmult_le_compat_r; [apply pow_le, Rabs_pos|lra].
Qed.
Lemma rkn_attempt_order : forall on_v m f g tolerance exact t0 q v, rkn_checks m = true -> (0 < rkn_stages m)%nat ->
  rkn_conditions on_v m (rkn_bhat m) (rkn_bhatʹ m) (rkn_lower_order m + 1) -> rkn_conditions on_v m (rkn_b m) (rkn_bʹ m) (rkn_lower_order m) -> (1 <= rkn_lower_order m)%nat ->
  (forall t q v, snd (g t q v) = acceleration f t q v) -> (forall d, defined (f d) t0 (q t0) (v t0) /\ uses true on_v (f d)) -> solution f t0 q v ->
  forall d, exists C H, 0 < H /\ forall at_end t_final g0 h, 0 < Rabs h <= H ->
    (g0 = None \/ rkn_fsal m = true /\ g0 = Some (acceleration f t0 (q t0) (v t0))) -> (at_end = true -> t_final = t0 + h) ->
    let s := mkState t0 (q t0) (v t0) in
    let '(s', _, _, ratio) := rkn_attempt m g tolerance exact at_end t_final s g0 h in
    time s' = t0 + h /\ Rabs (positions s' d - q (t0 + h) d) <= C * Rabs h ^ (rkn_lower_order m + 2) /\
    Rabs (velocities s' d - v (t0 + h) d) <= C * Rabs h ^ (rkn_lower_order m + 2) /\
    exists error_q error_v, ratio = tolerance h s error_q error_v /\
      Rabs (error_q d) <= C * Rabs h ^ (rkn_lower_order m + 1) /\ Rabs (error_v d) <= C * Rabs h ^ (rkn_lower_order m + 1).
Proof.
  intros on_v m f g tolerance exact t0 q v C SP [HiQ HiV] [LoQ LoV] P G Df Sol d. set (l := rkn_lower_order m) in *.
  destruct (nystrom_order _ _ _ _ _ _ _ (l + 1) ltac:(lia) HiQ HiV f t0 q v Df Sol d) as (C1 & H1 & P1 & B1).
  destruct (nystrom_order _ _ _ _ _ _ _ _ P LoQ LoV f t0 q v Df Sol d) as (C2 & H2 & P2 & B2).
  exists (Rmax (Rabs C1) (C2 + Rabs C1)), (Rmin 1 (Rmin H1 H2)). split; [apply Rmin_glb_lt; [lra|apply Rmin_glb_lt; assumption]|].
  intros at_end t_final g0 h [h0 h1] G0 AE s.
  assert (RG : acc g = acceleration f) by (do 3 (apply functional_extensionality; intros); apply G).
  assert (Gd : rkn_good m g s g0).
  { destruct G0 as [->|[F ->]]; [exact I|]. cbn [rkn_good s time positions velocities]. rewrite RG. split; [exact F|reflexivity]. }
  destruct (stages_exist m g SP s h) as [k K].
  destruct (rkn_attempt_run m g tolerance exact C SP at_end t_final s g0 h k Gd AE K) as [st E]. rewrite E. clear E.
  assert (KK : forall i, (i < rkn_stages m)%nat -> k i = nystrom_stage (fun i => nth i (rkn_c m) 0) (fun i j => nth j (nth i (rkn_a m) []) 0) (fun i j => nth j (nth i (rkn_aʹ m) []) 0)
                           (acceleration f) h t0 (q t0) (v t0) k i).
  { intros i _. transitivity (stage_acc m g s h k i); [apply K|]. unfold stage_acc. rewrite RG. reflexivity. }
  pose proof (Rmin_l 1 (Rmin H1 H2)). pose proof (Rmin_r 1 (Rmin H1 H2)). pose proof (Rmin_l H1 H2). pose proof (Rmin_r H1 H2).
  specialize (B1 h k ltac:(lra) KK). specialize (B2 h k ltac:(lra) KK). destruct B1 as [Q1 V1], B2 as [Q2 V2].
  pose proof (Rmax_l (Rabs C1) (C2 + Rabs C1)). pose proof (Rmax_r (Rabs C1) (C2 + Rabs C1)). pose proof (Rle_abs C1).
  assert (PW : forall n x, x <= Rmax (Rabs C1) (C2 + Rabs C1) -> x * Rabs h ^ n <= Rmax (Rabs C1) (C2 + Rabs C1) * Rabs h ^ n)
    by (intros n x X; apply Rmult_le_compat_r; [apply pow_le, Rabs_pos|exact X]).
  assert (L : C1 * Rabs h ^ (l + 1 + 1) <= Rabs C1 * Rabs h ^ (l + 1 + 1)) by (apply Rmult_le_compat_r; [apply pow_le, Rabs_pos|lra]).
  assert (Q1' := Rle_trans _ _ _ Q1 L). assert (V1' := Rle_trans _ _ _ V1 L).
  cbn [time positions velocities]. split; [reflexivity|]. replace (l + 2)%nat with (l + 1 + 1)%nat by lia. split; [|split].
  - unfold vadd. rewrite weighted_map. cbn [s positions velocities].
    eapply Rle_trans; [|apply (PW _ (Rabs C1)); lra]. eapply Rle_trans; [|exact Q1']. right. f_equal. ring.
  - unfold vadd. rewrite weighted_map. cbn [s positions velocities]. eapply Rle_trans; [|apply (PW _ (Rabs C1)); lra]. exact V1'.
  - eexists. eexists. split; [reflexivity|]. cbn beta. rewrite !weighted_map. cbn [s positions velocities]. split.
    + eapply Rle_trans; [|apply (PW _ (C2 + Rabs C1)); lra]. pose proof (difference _ _ _ _ _ _ _ Q2 Q1' ltac:(lra) (Rabs_pos C1)) as X.
      eapply Rle_trans; [|exact X]. right. f_equal. ring.
    + eapply Rle_trans; [|apply (PW _ (C2 + Rabs C1)); lra]. pose proof (difference _ _ _ _ _ _ _ V2 V1' ltac:(lra) (Rabs_pos C1)) as X.
      eapply Rle_trans; [|exact X]. right. f_equal. ring.
Qed.
(** The Runge-Kutta methods that are not embedded. *)
Lemma rk_step_order : forall m p, rk_conditions m (erk_bhat m) p -> (1 <= p)%nat -> forall f s0 y,
  (forall d, defined (f d) s0 vzero (y s0) /\ uses false true (f d)) -> solution1 f s0 y -> forall d, exists C H, 0 < H /\
  forall h y' k, 0 < Rabs h <= H -> runge_kutta_step (higher m) (derivative f) h s0 (y s0) y' k -> Rabs (y' d - y (s0 + h) d) <= C * Rabs h ^ (p + 1).
Proof.
  intros m p Hc P f s0 y Df Sol d. destruct (rk_order _ _ _ _ _ _ P Hc f s0 y Df Sol d) as (C & H & HH & B). exists C, H. split; [exact HH|].
  intros h y' k Hh (K & ->). apply (B h k Hh). exact K.
Qed.

(** * The methods of the code *)
Lemma dormand_prince_orders : let m := erk_of DormandPrince1986RK547FC in rk_conditions m (erk_bhat m) 5 /\ rk_conditions m (erk_b m) 4.
Proof. split; apply rk_table_order_spec; vm_compute; reflexivity. Qed.
Lemma kutta_order : let m := erk_of KuttaTable in rk_conditions m (erk_bhat m) 4.
Proof. apply rk_table_order_spec; vm_compute; reflexivity. Qed.
Lemma kutta_method : Kutta1901Vsigma1 = higher (erk_of KuttaTable).
Proof.
  unfold Kutta1901Vsigma1, higher, erk_of, KuttaTable, reals. cbn [erk_fsal erk_c erk_a erk_bhat t_fsal t_c t_a t_bhat map].
  unfold Q2R. cbn [Qnum Qden]. repeat f_equal; field.
Qed.
Lemma rkn434_orders : let m := rkn_of DormandElMikkawyPrince1986RKN434FM in
  rkn_conditions false m (rkn_bhat m) (rkn_bhatʹ m) 4 /\ rkn_conditions false m (rkn_b m) (rkn_bʹ m) 3.
Proof. split; apply rkn_table_order_spec; vm_compute; reflexivity. Qed.
Lemma fine34_orders : let m := rkn_of Fine1987RKNG34 in
  rkn_conditions false m (rkn_bhat m) (rkn_bhatʹ m) 4 /\ rkn_conditions false m (rkn_b m) (rkn_bʹ m) 3.
Proof. split; apply rkn_table_order_spec; vm_compute; reflexivity. Qed.
Lemma fine45_orders : let m := rkn_of Fine1987RKNG45 in
  rkn_conditions true m (rkn_bhat m) (rkn_bhatʹ m) 5 /\ rkn_conditions true m (rkn_b m) (rkn_bʹ m) 4.
Proof. split; apply rkn_table_order_spec; vm_compute; reflexivity. Qed.
