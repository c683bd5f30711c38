(** The steps of the symplectic integrators as those of Nyström methods, and their errors. *)
From Coq Require Import Reals List Bool Arith ZArith QArith Qreals Lra Lia FunctionalExtensionality.
From Verif Require Import OneStep_Model Multistep_Proofs Multistep_Proofs2 OneStep_Proofs OneStep_Proofs2 Adaptive_Model Adaptive_Tables Adaptive_Proofs3
  Order_Proofs Order_Proofs2 Order_Proofs3 Order_Proofs4 Symplectic_Tables.
Import ListNotations.
Open Scope R_scope.

(** * The steps of the symplectic integrators *)
(** A symplectic method as a Nyström method. *)
Definition s_a (m : SRKN) (i j : nat) : R := b_ m j * (c_ m i - c_ m j).
Definition s_b (m : SRKN) (j : nat) : R := b_ m j * (c_ m (stages m) - c_ m j).
Section Step.
  Variables (m : SRKN) (f : Acceleration) (h : R) (s : State).
  Notation F := (nystrom_stage (c_ m) (s_a m) (fun _ _ => 0) (fun t q _ => field f t q) h (time s) (positions s) (velocities s)).
  Definition s_k : nat -> Vec := stages_of F.
  Lemma s_k_spec : forall i, s_k i = F s_k i.
  Proof. apply stages_of_spec, nystrom_local. Qed.
  Lemma kicks_drifts : forall i, run (field f) (flat_map (kick_drift m h) (seq 0 i)) s =
    mkState (time s + c_ m i * h) (fun d => positions s d + h * c_ m i * velocities s d + h * h * sum_to i (fun j => s_a m i j * s_k j d))
      (fun d => velocities s d + h * sum_to i (fun j => b_ m j * s_k j d)).
  Proof.
    induction i as [|i IH].
    - destruct s as [t q v]. cbn [seq flat_map run fold_left time positions velocities]. rewrite c_0. unfold sum_to. cbn. f_equal; [ring| |]; apply functional_extensionality; intros d; ring.
    - rewrite seq_S, flat_map_app, run_app, IH. cbn [plus flat_map app kick_drift run fold_left act time positions velocities].
      assert (E : field f (time s + c_ m i * h) (fun d => positions s d + h * c_ m i * velocities s d + h * h * sum_to i (fun j => s_a m i j * s_k j d)) = s_k i)
        by (symmetry; apply s_k_spec).
      rewrite E. f_equal.
      + rewrite c_S. ring.
      + apply functional_extensionality. intros d. rewrite sum_to_last. unfold s_a. rewrite c_S.
        rewrite (sum_to_ext i (fun j => b_ m j * (c_ m i + a_ m i - c_ m j) * s_k j d) (fun j => b_ m j * (c_ m i - c_ m j) * s_k j d + a_ m i * (b_ m j * s_k j d))) by (intros; ring).
        rewrite sum_to_add, sum_to_scal. ring.
      + apply functional_extensionality. intros d. rewrite sum_to_last. ring.
  Qed.
  Lemma iterate_kicks_drifts : srkn_checks m = true -> (0 < stages m)%nat -> forall g, srkn_good m f s g ->
    let '(s', _, _) := srkn_iterate m f h s g in let r := run (field f) (flat_map (kick_drift m h) (seq 0 (stages m))) s in
    time s' = time s + h /\ positions s' = positions r /\ velocities s' = velocities r.
  Proof.
    intros C P g G.
    assert (Z : upto m f h s 0 (vzero, vzero, g, Ok)).
    { unfold upto. cbn [seq flat_map run fold_left]. rewrite c_0. destruct s as [t q v]. cbn [time positions velocities]. f_equal.
      - ring.
      - apply functional_extensionality. intros d. unfold vadd, vzero. ring.
      - apply functional_extensionality. intros d. unfold vadd, vzero. ring. }
    assert (X : forall k dq dv, upto m f h s k (dq, dv, g, Ok) -> (k <= stages m)%nat ->
      let '(dq', dv', g', st) := fold_left (srkn_stage m f h s) (seq k (stages m - k)) (dq, dv, g, Ok) in
      let r := run (field f) (flat_map (kick_drift m h) (seq 0 (stages m))) s in vadd (positions s) dq' = positions r /\ vadd (velocities s) dv' = velocities r).
    { intros k dq dv U L. pose proof (stages_upto m f h (stages m - k) s k _ U) as H.
      destruct (fold_left (srkn_stage m f h s) (seq k (stages m - k)) (dq, dv, g, Ok)) as [[[dq' dv'] g'] st].
      unfold upto in H. replace (k + (stages m - k))%nat with (stages m) in H by lia. rewrite H. split; reflexivity. }
    assert (U1 : composition m <> BA ->
       upto m f h s 1 (vadd vzero (vscal (h * a_ m 0) (vadd (velocities s) (if is_bab m then vadd vzero (vscal (h * b_ m 0) g) else vzero))),
                 if is_bab m then vadd vzero (vscal (h * b_ m 0) g) else vzero, g, Ok)).
    { intros N. unfold upto. cbn [seq flat_map kick_drift app run fold_left act time positions velocities]. rewrite c_S, c_0.
      unfold is_bab, srkn_good, srkn_checks in *. destruct (composition m); [congruence| |].
      - apply andb_prop in C. destruct C as [C _]. apply Reqb_eq in C. rewrite <- C. f_equal.
        + ring.
        + apply functional_extensionality. intros d. unfold vadd, vscal, vzero. ring.
        + apply functional_extensionality. intros d. unfold vadd, vscal, vzero. ring.
      - subst g. f_equal.
        + ring.
        + apply functional_extensionality. intros d. unfold vadd, vscal, vzero. ring.
        + apply functional_extensionality. intros d. unfold vadd, vscal, vzero. ring. }
    unfold srkn_iterate, first_stage. destruct (composition m) eqn:Co.
    - pose proof (X 0%nat vzero vzero Z ltac:(lia)) as H. destruct (fold_left (srkn_stage m f h s) _ _) as [[[dq' dv'] g'] st]. split; [reflexivity|exact H].
    - pose proof (X 1%nat _ _ (U1 ltac:(discriminate)) ltac:(lia)) as H. destruct (fold_left (srkn_stage m f h s) _ _) as [[[dq' dv'] g'] st]. split; [reflexivity|exact H].
    - pose proof (X 1%nat _ _ (U1 ltac:(discriminate)) ltac:(lia)) as H. destruct (fold_left (srkn_stage m f h s) _ _) as [[[dq' dv'] g'] st]. split; [reflexivity|exact H].
  Qed.
End Step.
Lemma eval_without_v : forall on_q e t q v v', uses on_q false e -> eval e t q v = eval e t q v'.
Proof.
  intros on_q e t q v v'. induction e as [x| |i|i|e1 IH1 e2 IH2|e1 IH1 e2 IH2|e IH|e IH]; cbn; intros U; try reflexivity; try discriminate;
    try (rewrite IH1, IH2 by tauto; reflexivity); rewrite IH by exact U; reflexivity.
Qed.
(** The order conditions of a symplectic method, within [eps], for the forces that depend on the time and on the positions. *)
Definition srkn_conditions_within (eps : R) (m : SRKN) (p : nat) : Prop :=
  Rabs (c_ m (stages m) - 1) <= eps /\
  position_conditions_within eps true false (stages m) (c_ m) (s_a m) (fun _ _ => 0) (s_b m) p /\
  velocity_conditions_within eps true false (stages m) (c_ m) (s_a m) (fun _ _ => 0) (b_ m) p.
Lemma srkn_order_within : forall p, (1 <= p)%nat ->
  forall f t0 q v, (forall d, defined (f d) t0 (q t0) (v t0) /\ uses true false (f d)) -> solution f t0 q v -> forall d,
  exists K, 0 <= K /\ forall m eps, srkn_checks m = true -> (0 < stages m)%nat -> 0 <= eps -> srkn_conditions_within eps m p ->
  exists C H, 0 < H /\ forall g h, (forall t q, snd (g t q) = acceleration f t q vzero) -> 0 < Rabs h <= H ->
    let '(s', _, _) := srkn_iterate m g h (mkState t0 (q t0) (v t0)) (acceleration f t0 (q t0) vzero) in
    time s' = t0 + h /\ Rabs (positions s' d - q (t0 + h) d) <= eps * K * Rabs h + C * Rabs h ^ (p + 1) /\
    Rabs (velocities s' d - v (t0 + h) d) <= eps * K * Rabs h + C * Rabs h ^ (p + 1).
Proof.
  intros p Hp f t0 q v Hf Sol d. destruct (nystrom_order_within false p Hp f t0 q v Hf Sol d) as (K & KP & X). exists K. split; [exact KP|].
  intros m eps Ck SP He (Ce & PC & VC). destruct (X (stages m) (c_ m) (s_a m) (fun _ _ => 0) (s_b m) (b_ m) (c_ m (stages m)) eps He Ce PC VC) as (C & H & HH & Y).
  exists C, H. split; [exact HH|]. intros g h G Hh. set (s := mkState t0 (q t0) (v t0)).
  assert (G' : forall t q v, field g t q = acceleration f t q v).
  { intros t q' v'. unfold field. rewrite G. apply functional_extensionality. intros u. apply (eval_without_v true). apply Hf. }
  specialize (Y h (s_k m g h s) Hh). destruct Y as [Y1 Y2].
  { intros i _. rewrite s_k_spec at 1. unfold nystrom_stage. cbn [s time positions velocities]. apply G'. }
  assert (Gd : srkn_good m g s (acceleration f t0 (q t0) vzero)).
  { unfold srkn_good. destruct (composition m); try exact I. cbn [s time positions]. rewrite (G' _ _ vzero). reflexivity. }
  pose proof (iterate_kicks_drifts m g h s Ck SP _ Gd) as Z. destruct (srkn_iterate m g h s (acceleration f t0 (q t0) vzero)) as [[s' g'] st].
  cbv zeta in Z. rewrite kicks_drifts in Z. destruct Z as (Z1 & Z2 & Z3). split; [exact Z1|]. rewrite Z2, Z3. cbn [positions velocities s]. split; [exact Y1|exact Y2].
Qed.
