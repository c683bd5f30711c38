(** The method Fine1987RKNG34 for a force that depends on the velocities. *)
From Coq Require Import Reals List Bool Arith ZArith QArith Qreals Lra Lia FunctionalExtensionality.
From Verif Require Import OneStep_Model Multistep_Proofs Multistep_Proofs2 OneStep_Proofs Adaptive_Model Adaptive_Tables Adaptive_Proofs2 Adaptive_Proofs3
  Order_Proofs Order_Proofs2 Order_Proofs3 Order_Proofs4 Order_Proofs5.
Import ListNotations.
Open Scope R_scope.

(** The equation [q'' = q'], and its solution [exp]. *)
Definition growth : nat -> expr := Vel.
Definition exponential : R -> Vec := fun t _ => exp t.
Lemma growth_solution : (forall d, defined (growth d) 0 (exponential 0) (exponential 0) /\ uses true true (growth d)) /\ solution growth 0 exponential exponential.
Proof.
  split; [intros d; cbn; auto|]. intros d. exists 1. split; [lra|]. intros t _. split; apply derivable_pt_lim_exp.
Qed.
Lemma exp_agree : agree 3 exp (fun j => match j with 2%nat => 1 / 2 | _ => 1 end).
Proof.
  assert (D : forall h, Rabs h < 1 -> derivable_pt_lim exp h (exp h)) by (intros h _; apply derivable_pt_lim_exp).
  assert (A0 : agree 0 exp (fun _ => 0)).
  { apply agree_0. exists (exp 1). exists 1. split; [lra|]. intros h Hh. rewrite Rabs_right by (left; apply exp_pos).
    destruct (Rle_lt_or_eq_dec h 1) as [L| ->]; [pose proof (Rle_abs h); lra|left; apply exp_increasing, L|lra]. }
  pose proof (agree_integral 0 exp exp _ 1 Rlt_0_1 D A0) as A1. pose proof (agree_integral 1 exp exp _ 1 Rlt_0_1 D A1) as A2.
  pose proof (agree_integral 2 exp exp _ 1 Rlt_0_1 D A2) as A3. eapply agree_coef; [|exact A3].
  intros [|[|[|j]]] Hj; cbn; rewrite ?exp_0; try field. lia.
Qed.
Lemma nystrom_growth : forall n c a aʹ bʹ, exists s : nat -> R,
  s 0%nat = 1 /\ s 1%nat = sum_to n bʹ /\ s 2%nat = sum_to n (fun i => bʹ i * sum_to i (aʹ i)) /\
  agree 3 (fun h => 1 + h * sum_to n (fun i => bʹ i * stages_of (nystrom_stage c a aʹ (acceleration growth) h 0 (exponential 0) (exponential 0)) i 0%nat)) s.
Proof.
  intros n c a aʹ bʹ. set (K := fun h => stages_of (nystrom_stage c a aʹ (acceleration growth) h 0 (exponential 0) (exponential 0))).
  assert (E : forall h i, K h i 0%nat = 1 + h * sum_to i (fun j => aʹ i j * K h j 0%nat)).
  { intros h i. unfold K at 1. rewrite (stages_of_spec _ (nystrom_local c a aʹ (acceleration growth) h 0 (exponential 0) (exponential 0))).
    fold (K h). unfold nystrom_stage, acceleration, growth. cbn [eval]. unfold exponential at 1. rewrite exp_0. reflexivity. }
  assert (A1 : forall i, agree 1 (fun h => K h i 0%nat) (unit_coef 1)).
  { intros i. induction i as [i IH] using lt_wf_ind. eapply agree_same; [apply eventually_all; intros h _; symmetry; apply E|].
    eapply agree_coef; [|apply agree_up; eapply (agree_sum 0 i (fun j h => aʹ i j * K h j 0%nat) (fun _ _ => 0))].
    - intros [|j] H; [reflexivity|lia].
    - intros j Hj. eapply agree_coef; [|apply agree_scal, (agree_pred 0), (IH j Hj)]. intros k H. lia. }
  assert (A2 : forall i, agree 2 (fun h => K h i 0%nat) (fun j => match j with O => 1 | _ => sum_to i (aʹ i) end)).
  { intros i. eapply agree_same; [apply eventually_all; intros h _; symmetry; apply E|].
    eapply agree_coef; [|apply agree_up; eapply (agree_sum 1 i (fun j h => aʹ i j * K h j 0%nat) (fun j k => aʹ i j * unit_coef 1 k))].
    - intros [|[|j]] H; [reflexivity| |lia]. cbn beta iota. apply sum_to_ext. intros j _. cbn. ring.
    - intros j Hj. apply agree_scal, A1. }
  exists (fun j => match j with O => 1 | S j => sum_to n (fun i => bʹ i * match j with O => 1 | _ => sum_to i (aʹ i) end) end).
  split; [reflexivity|]. split; [apply sum_to_ext; intros i _; ring|]. split; [reflexivity|].
  apply (agree_up 2 (fun h => sum_to n (fun i => bʹ i * K h i 0%nat)) (fun j => sum_to n (fun i => bʹ i * match j with O => 1 | _ => sum_to i (aʹ i) end)) 1).
  apply (agree_sum 2 n (fun j h => bʹ j * K h j 0%nat) (fun i j => bʹ i * match j with O => 1 | _ => sum_to i (aʹ i) end)).
  intros j Hj. apply agree_scal, A2.
Qed.
Lemma rkn_velocities : forall m f g tolerance exact h t0 q0 v0 d, rkn_checks m = true -> (0 < rkn_stages m)%nat -> (forall t q v, snd (g t q v) = acceleration f t q v) ->
  velocities (fst (fst (fst (rkn_attempt m g tolerance exact false 0 (mkState t0 q0 v0) None h)))) d =
  v0 d + h * sum_to (rkn_stages m) (fun i => nth i (rkn_bhatʹ m) 0 *
    stages_of (nystrom_stage (fun i => nth i (rkn_c m) 0) (fun i j => nth j (nth i (rkn_a m) []) 0) (fun i j => nth j (nth i (rkn_aʹ m) []) 0) (acceleration f) h t0 q0 v0) i d).
Proof.
  intros m f g tolerance exact h t0 q0 v0 d C P G. set (F := nystrom_stage _ _ _ _ _ _ _ _).
  assert (RG : acc g = acceleration f) by (do 3 (apply functional_extensionality; intros); apply G).
  assert (K : forall i, stages_of F i = stage_acc m g (mkState t0 q0 v0) h (stages_of F) i).
  { intros i. transitivity (F (stages_of F) i); [apply stages_of_spec, nystrom_local|]. unfold stage_acc. rewrite RG. reflexivity. }
  destruct (rkn_attempt_run m g tolerance exact C P false 0 (mkState t0 q0 v0) None h (stages_of F) I ltac:(discriminate) K) as [st E]. rewrite E.
  cbn [fst velocities]. unfold vadd. rewrite weighted_map. reflexivity.
Qed.
Lemma fine34_growth : forall g tolerance exact, (forall t q v, snd (g t q v) = acceleration growth t q v) ->
  ~ exists C H, 0 < H /\ forall h, 0 < Rabs h <= H ->
    Rabs (velocities (fst (fst (fst (rkn_attempt (rkn_of Fine1987RKNG34) g tolerance exact false 0 (mkState 0 (exponential 0) (exponential 0)) None h)))) 0%nat
          - exponential h 0%nat) <= C * Rabs h ^ 3.
Proof.
  intros g tolerance exact G (C & H & HH & B). set (m := rkn_of Fine1987RKNG34) in *.
  destruct (nystrom_growth (rkn_stages m) (fun i => nth i (rkn_c m) 0) (fun i j => nth j (nth i (rkn_a m) []) 0) (fun i j => nth j (nth i (rkn_aʹ m) []) 0)
              (fun i => nth i (rkn_bhatʹ m) 0)) as (s & S0 & S1 & S2 & A).
  set (v1 := fun h => 1 + _) in A.
  assert (E : forall h, velocities (fst (fst (fst (rkn_attempt m g tolerance exact false 0 (mkState 0 (exponential 0) (exponential 0)) None h)))) 0%nat = v1 h).
  { intros h. pose proof rkn_tables_checked as T. rewrite Forall_forall in T. rewrite (rkn_velocities m growth); [|apply T; cbn; auto|cbn; lia|exact G].
    unfold v1. f_equal. unfold exponential. apply exp_0. }
  assert (AD : agree 3 (fun h => v1 h + -1 * exp h) (fun _ => 0)).
  { exists C, H. split; [exact HH|]. intros h Hh. specialize (B h Hh). rewrite E in B. unfold exponential in B.
    replace (sum_to 3 (fun j => 0 * h ^ j)) with 0 by (unfold sum_to; cbn; ring). replace (v1 h + -1 * exp h - 0) with (v1 h - exp h) by ring. exact B. }
  pose proof (agree_unique 3 _ _ _ AD (agree_add 3 _ _ _ _ A (agree_scal 3 _ _ (-1) exp_agree)) 2%nat ltac:(lia)) as X. cbn beta in X. rewrite S2 in X.
  unfold m, rkn_of, rkn_stages, Fine1987RKNG34, reals in X. cbn in X. unfold sum_to, Q2R in X. cbn in X. lra.
Qed.
(** The table with the coefficient [-243 / 128] instead of [-234 / 128]. *)
Definition Fine1987RKNG34_corrected : RKNTable :=
  mkRKNTable (n_fsal Fine1987RKNG34) (n_lower_order Fine1987RKNG34) (n_c Fine1987RKNG34) (n_a Fine1987RKNG34)
    (map (map (fun x => if Qeq_bool x (-234 # 128) then (-243 # 128)%Q else x)) (n_aʹ Fine1987RKNG34))
    (n_bhat Fine1987RKNG34) (n_bhatʹ Fine1987RKNG34) (n_b Fine1987RKNG34) (n_bʹ Fine1987RKNG34).
Lemma corrected_orders : let m := rkn_of Fine1987RKNG34_corrected in
  rkn_conditions true m (rkn_bhat m) (rkn_bhatʹ m) 4 /\ rkn_conditions true m (rkn_b m) (rkn_bʹ m) 3.
Proof. split; apply rkn_table_order_spec; vm_compute; reflexivity. Qed.
Lemma corrected_checked : rkn_checks (rkn_of Fine1987RKNG34_corrected) = true.
Proof.
  pose proof rkn_tables_checked as T. rewrite Forall_forall in T. exact (T Fine1987RKNG34 (or_intror (or_introl eq_refl))).
Qed.
