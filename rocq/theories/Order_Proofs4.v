(** The orders of the Runge-Kutta and Nyström methods. *)
From Coq Require Import Reals List Bool Arith ZArith QArith Qreals Lra Lia FunctionalExtensionality.
From Verif Require Import OneStep_Model Multistep_Proofs Multistep_Proofs2 OneStep_Proofs Adaptive_Model Adaptive_Tables Adaptive_Proofs2 Adaptive_Proofs3
  Order_Proofs Order_Proofs2 Order_Proofs3.
Import ListNotations.
Open Scope R_scope.

(** * Equations and their solutions *)
(** The equations [q'' = f(t, q, q')] whose right-hand sides are expressions. *)
Definition acceleration (f : nat -> expr) (t : R) (q v : Vec) : Vec := fun d => eval (f d) t q v.
(** A solution around [t0], with positions [q] and velocities [v]. *)
Definition solution (f : nat -> expr) (t0 : R) (q v : R -> Vec) : Prop :=
  forall d, exists H, 0 < H /\ forall t, Rabs (t - t0) < H ->
    derivable_pt_lim (fun t => q t d) t (v t d) /\ derivable_pt_lim (fun t => v t d) t (acceleration f t (q t) (v t) d).
(** The equations [y' = f(s, y)]: the unknowns are the [Vel]. *)
Definition derivative (f : nat -> expr) (s : R) (y : Vec) : Vec := fun d => eval (f d) s vzero y.
Definition solution1 (f : nat -> expr) (s0 : R) (y : R -> Vec) : Prop :=
  forall d, exists H, 0 < H /\ forall s, Rabs (s - s0) < H -> derivable_pt_lim (fun s => y s d) s (derivative f s (y s) d).

(** * Stages *)
Definition local (F : (nat -> Vec) -> nat -> Vec) : Prop := forall i k k', (forall j, (j < i)%nat -> k j = k' j) -> F k i = F k' i.
Definition course (F : (nat -> Vec) -> nat -> Vec) (n : nat) : list Vec :=
  nat_rect (fun _ => list Vec) [] (fun i l => l ++ [F (fun j => nth j l vzero) i]) n.
Definition stages_of (F : (nat -> Vec) -> nat -> Vec) (i : nat) : Vec := F (fun j => nth j (course F i) vzero) i.
Lemma course_length : forall F n, length (course F n) = n.
Proof. intros F. induction n as [|n IH]; [reflexivity|]. cbn. rewrite app_length. fold (course F n). rewrite IH. cbn. lia. Qed.
Lemma course_nth : forall F n j, (j < n)%nat -> nth j (course F n) vzero = stages_of F j.
Proof.
  intros F. induction n as [|n IH]; intros j H; [lia|]. change (course F (S n)) with (course F n ++ [F (fun j => nth j (course F n) vzero) n]).
  destruct (Nat.eq_dec j n) as [->|].
  - rewrite app_nth2 by (rewrite course_length; lia). rewrite course_length, Nat.sub_diag. reflexivity.
  - rewrite app_nth1 by (rewrite course_length; lia). apply IH. lia.
Qed.
Lemma stages_of_spec : forall F, local F -> forall i, stages_of F i = F (stages_of F) i.
Proof. intros F L i. unfold stages_of at 1. apply L. intros j Hj. apply course_nth, Hj. Qed.
Lemma stages_of_unique : forall F n k, local F -> (forall i, (i < n)%nat -> k i = F k i) -> forall i, (i < n)%nat -> k i = stages_of F i.
Proof.
  intros F n k L K i. induction i as [i IH] using lt_wf_ind. intros Hi. rewrite K, stages_of_spec by assumption. apply L. intros j Hj. apply IH; [exact Hj|lia].
Qed.

(** * Orders *)
Definition nystrom_stage (c : nat -> R) (a aʹ : nat -> nat -> R) (f : R -> Vec -> Vec -> Vec) (h t0 : R) (q0 v0 : Vec) (k : nat -> Vec) (i : nat) : Vec :=
  f (t0 + c i * h) (fun d => q0 d + h * c i * v0 d + h * h * sum_to i (fun j => a i j * k j d)) (fun d => v0 d + h * sum_to i (fun j => aʹ i j * k j d)).
Lemma nystrom_local : forall c a aʹ f h t0 q0 v0, local (nystrom_stage c a aʹ f h t0 q0 v0).
Proof.
  intros c a aʹ f h t0 q0 v0 i k k' E. unfold nystrom_stage. f_equal; apply functional_extensionality; intros d; do 2 f_equal; apply sum_to_ext; intros j Hj; rewrite E by exact Hj; reflexivity.
Qed.
Lemma shift_derivable : forall (y : R -> R) l t0 h, derivable_pt_lim y (t0 + h) l -> derivable_pt_lim (fun h => y (t0 + h)) h l.
Proof.
  intros y l t0 h D eps E. destruct (D eps E) as [d Hd]. exists d. intros k K1 K2. specialize (Hd k K1 K2). rewrite <- Rplus_assoc. exact Hd.
Qed.
(** The methods: [c], [a] and [aʹ]. *)
Record Nystrom := mkNystrom { N_c : nat -> R; N_a : nat -> nat -> R; N_aʹ : nat -> nat -> R }.
(** The error for a method that satisfies the order conditions within [eps]: [K] does not depend on the method. *)
Lemma nystrom_order_within : forall on_v p, (1 <= p)%nat ->
  forall f t0 q v, (forall d, defined (f d) t0 (q t0) (v t0) /\ uses true on_v (f d)) -> solution f t0 q v -> forall d,
  exists K, 0 <= K /\ forall n c a aʹ b bʹ e eps, 0 <= eps -> Rabs (e - 1) <= eps ->
  position_conditions_within eps true on_v n c a aʹ b p -> velocity_conditions_within eps true on_v n c a aʹ bʹ p ->
  exists C H, 0 < H /\ forall h k, 0 < Rabs h <= H ->
    (forall i, (i < n)%nat -> k i = nystrom_stage c a aʹ (acceleration f) h t0 (q t0) (v t0) k i) ->
    Rabs (q t0 d + h * e * v t0 d + h * h * sum_to n (fun i => b i * k i d) - q (t0 + h) d) <= eps * K * Rabs h + C * Rabs h ^ (p + 1) /\
    Rabs (v t0 d + h * sum_to n (fun i => bʹ i * k i d) - v (t0 + h) d) <= eps * K * Rabs h + C * Rabs h ^ (p + 1).
Proof.
  intros on_v p Hp f t0 q v Hf Sol d.
  set (F := fun m h => nystrom_stage (N_c m) (N_a m) (N_aʹ m) (acceleration f) h t0 (q t0) (v t0)).
  set (K := fun m h => stages_of (F m h)).
  assert (FL : forall m h, local (F m h)) by (intros m h; apply nystrom_local).
  assert (KS : forall m h i, K m h i = F m h (K m h) i) by (intros m h i; apply (stages_of_spec (F m h) (FL m h))).
  set (Q := fun (o : option (Nystrom * nat)) u h => match o with None => q (t0 + h) u
     | Some (m, i) => q t0 u + h * N_c m i * v t0 u + h * h * sum_to i (fun j => N_a m i j * K m h j u) end).
  set (V := fun (o : option (Nystrom * nat)) u h => match o with None => v (t0 + h) u | Some (m, i) => v t0 u + h * sum_to i (fun j => N_aʹ m i j * K m h j u) end).
  assert (EV : forall u m i h, Ev t0 N_c Q V (f u) (Some (m, i)) h = K m h i u) by (intros u m i h; rewrite KS; reflexivity).
  assert (Near : forall h H, Rabs h < H -> Rabs (t0 + h - t0) < H) by (intros h H X; replace (t0 + h - t0) with h by ring; exact X).
  assert (HQ : true = true -> forall m i u h, Q (Some (m, i)) u h = q t0 u + h * N_c m i * v t0 u + h * h * sum_to i (fun j => N_a m i j * Ev t0 N_c Q V (f u) (Some (m, j)) h)).
  { intros _ m i u h. cbn [Q]. do 2 f_equal. apply sum_to_ext. intros j _. rewrite EV. reflexivity. }
  assert (HV : forall m i u h, V (Some (m, i)) u h = v t0 u + h * sum_to i (fun j => N_aʹ m i j * Ev t0 N_c Q V (f u) (Some (m, j)) h)).
  { intros m i u h. cbn [V]. do 2 f_equal. apply sum_to_ext. intros j _. rewrite EV. reflexivity. }
  assert (HSQ : true = true -> forall u, exists H, 0 < H /\ forall h, Rabs h < H -> derivable_pt_lim (Q None u) h (V None u h)).
  { intros _ u. destruct (Sol u) as (H & HH & D). exists H. split; [exact HH|]. intros h Hh. apply (shift_derivable (fun t => q t u)), D, Near, Hh. }
  assert (HSV : forall u, exists H, 0 < H /\ forall h, Rabs h < H -> derivable_pt_lim (V None u) h (Ev t0 N_c Q V (f u) None h)).
  { intros u. destruct (Sol u) as (H & HH & D). exists H. split; [exact HH|]. intros h Hh. apply (shift_derivable (fun t => v t u)).
    exact (proj2 (D (t0 + h) (Near h H Hh))). }
  assert (HQ0 : true = true -> forall u, Q None u 0 = q t0 u) by (intros _ u; cbn [Q]; rewrite Rplus_0_r; reflexivity).
  assert (HV0 : forall u, V None u 0 = v t0 u) by (intros u; cbn [V]; rewrite Rplus_0_r; reflexivity).
  destruct (velocity_order_within f true on_v t0 (q t0) (v t0) N_c N_a N_aʹ Q V Hf HQ HV HSQ HSV HQ0 HV0 p d Hp) as (K1 & KP1 & X1).
  destruct (position_order_within f true on_v t0 (q t0) (v t0) N_c N_a N_aʹ Q V Hf HQ HV HSQ HSV HQ0 HV0 p d Hp eq_refl) as (K2 & KP2 & X2).
  exists (Rmax K1 K2). split; [eapply Rle_trans; [exact KP1|apply Rmax_l]|]. intros n c a aʹ b bʹ e eps He Ee PC VC.
  set (m := mkNystrom c a aʹ). destruct (X1 m n bʹ eps He VC) as (C1 & H1 & P1 & B1). destruct (X2 m n b e eps He Ee PC) as (C2 & H2 & P2 & B2). clear X1 X2.
  exists (Rmax C1 C2), (Rmin H1 H2). split; [apply Rmin_glb_lt; assumption|]. intros h k [h0 h1] Kk.
  assert (E : forall i, (i < n)%nat -> k i = K m h i) by (intros i Hi; apply (stages_of_unique (F m h) n k (FL m h) Kk i Hi)).
  pose proof (Rmin_l H1 H2). pose proof (Rmin_r H1 H2). pose proof (Rmax_l C1 C2). pose proof (Rmax_r C1 C2). pose proof (Rmax_l K1 K2). pose proof (Rmax_r K1 K2).
  assert (PW : 0 <= Rabs h ^ (p + 1)) by (apply pow_le, Rabs_pos).
  assert (L : forall x y, x <= Rmax K1 K2 -> y <= Rmax C1 C2 -> eps * x * Rabs h + y * Rabs h ^ (p + 1) <= eps * Rmax K1 K2 * Rabs h + Rmax C1 C2 * Rabs h ^ (p + 1)).
  { intros x y X Y. apply Rplus_le_compat; [apply Rmult_le_compat_r; [apply Rabs_pos|apply Rmult_le_compat_l; assumption]|apply Rmult_le_compat_r; assumption]. }
  specialize (B1 h ltac:(lra)). specialize (B2 h ltac:(lra)). split.
  - rewrite (sum_to_ext n _ (fun i => b i * Ev t0 N_c Q V (f d) (Some (m, i)) h)) by (intros i Hi; rewrite (E i Hi), EV; reflexivity).
    eapply Rle_trans; [exact B2|]. apply L; assumption.
  - rewrite (sum_to_ext n _ (fun i => bʹ i * Ev t0 N_c Q V (f d) (Some (m, i)) h)) by (intros i Hi; rewrite (E i Hi), EV; reflexivity).
    eapply Rle_trans; [exact B1|]. apply L; assumption.
Qed.
Lemma velocity_exact : forall on_q on_v n c a aʹ b p, velocity_conditions on_q on_v n c a aʹ b p -> velocity_conditions_within 0 on_q on_v n c a aʹ b p.
Proof. intros on_q on_v n c a aʹ b p H t L O. rewrite (H t L O), Rminus_diag_eq by reflexivity. rewrite Rabs_R0. lra. Qed.
Lemma position_exact : forall on_q on_v n c a aʹ b p, position_conditions on_q on_v n c a aʹ b p -> position_conditions_within 0 on_q on_v n c a aʹ b p.
Proof. intros on_q on_v n c a aʹ b p H t L O. rewrite (H t L O), Rminus_diag_eq by reflexivity. rewrite Rabs_R0. lra. Qed.
Lemma nystrom_order : forall on_v n c a aʹ b bʹ p, (1 <= p)%nat -> position_conditions true on_v n c a aʹ b p -> velocity_conditions true on_v n c a aʹ bʹ p ->
  forall f t0 q v, (forall d, defined (f d) t0 (q t0) (v t0) /\ uses true on_v (f d)) -> solution f t0 q v -> forall d,
  exists C H, 0 < H /\ forall h k, 0 < Rabs h <= H ->
    (forall i, (i < n)%nat -> k i = nystrom_stage c a aʹ (acceleration f) h t0 (q t0) (v t0) k i) ->
    Rabs (q t0 d + h * v t0 d + h * h * sum_to n (fun i => b i * k i d) - q (t0 + h) d) <= C * Rabs h ^ (p + 1) /\
    Rabs (v t0 d + h * sum_to n (fun i => bʹ i * k i d) - v (t0 + h) d) <= C * Rabs h ^ (p + 1).
Proof.
  intros on_v n c a aʹ b bʹ p Hp PC VC f t0 q v Hf Sol d. destruct (nystrom_order_within on_v p Hp f t0 q v Hf Sol d) as (K & _ & X).
  destruct (X n c a aʹ b bʹ 1 0 (Rle_refl 0)) as (C & H & HH & Y); [rewrite Rminus_diag_eq by reflexivity; rewrite Rabs_R0; lra|apply position_exact, PC|apply velocity_exact, VC|].
  exists C, H. split; [exact HH|]. intros h k Hh Hk. specialize (Y h k Hh Hk). rewrite Rmult_1_r in Y. lra.
Qed.
Definition rk_stage_of (c : nat -> R) (a : nat -> nat -> R) (f : R -> Vec -> Vec) (h s0 : R) (y0 : Vec) (k : nat -> Vec) (i : nat) : Vec :=
  f (s0 + c i * h) (fun d => y0 d + h * sum_to i (fun j => a i j * k j d)).
Lemma rk_local : forall c a f h s0 y0, local (rk_stage_of c a f h s0 y0).
Proof.
  intros c a f h s0 y0 i k k' E. unfold rk_stage_of. f_equal; apply functional_extensionality; intros d; do 2 f_equal; apply sum_to_ext; intros j Hj; rewrite E by exact Hj; reflexivity.
Qed.
Lemma rk_order : forall n c x a b p, (1 <= p)%nat -> velocity_conditions false true n c x a b p ->
  forall f s0 y, (forall d, defined (f d) s0 vzero (y s0) /\ uses false true (f d)) -> solution1 f s0 y -> forall d,
  exists C H, 0 < H /\ forall h k, 0 < Rabs h <= H ->
    (forall i, (i < n)%nat -> k i = rk_stage_of c a (derivative f) h s0 (y s0) k i) ->
    Rabs (y s0 d + h * sum_to n (fun i => b i * k i d) - y (s0 + h) d) <= C * Rabs h ^ (p + 1).
Proof.
  intros n c x a b p Hp VC f s0 y Hf Sol d.
  set (F := fun h => rk_stage_of c a (derivative f) h s0 (y s0)).
  set (K := fun h => stages_of (F h)).
  assert (FL : forall h, local (F h)) by (intros h; apply rk_local).
  assert (KS : forall h i, K h i = F h (K h) i) by (intros h i; apply (stages_of_spec (F h) (FL h))).
  set (Q := fun (o : option (unit * nat)) (u : nat) (h : R) => 0).
  set (V := fun (o : option (unit * nat)) u h => match o with None => y (s0 + h) u | Some (_, i) => y s0 u + h * sum_to i (fun j => a i j * K h j u) end).
  set (c' := fun _ : unit => c).
  assert (EV : forall u m i h, Ev s0 c' Q V (f u) (Some (m, i)) h = K h i u) by (intros u [] i h; rewrite KS; reflexivity).
  assert (Near : forall h H, Rabs h < H -> Rabs (s0 + h - s0) < H) by (intros h H X; replace (s0 + h - s0) with h by ring; exact X).
  assert (HV : forall m i u h, V (Some (m, i)) u h = y s0 u + h * sum_to i (fun j => a i j * Ev s0 c' Q V (f u) (Some (m, j)) h)).
  { intros m i u h. cbn [V]. do 2 f_equal. apply sum_to_ext. intros j _. rewrite EV. reflexivity. }
  assert (HSV : forall u, exists H, 0 < H /\ forall h, Rabs h < H -> derivable_pt_lim (V None u) h (Ev s0 c' Q V (f u) None h)).
  { intros u. destruct (Sol u) as (H & HH & D). exists H. split; [exact HH|]. intros h Hh. apply (shift_derivable (fun t => y t u)).
    exact (D (s0 + h) (Near h H Hh)). }
  assert (HV0 : forall u, V None u 0 = y s0 u) by (intros u; cbn [V]; rewrite Rplus_0_r; reflexivity).
  destruct (velocity_order f false true s0 vzero (y s0) c' (fun _ => x) (fun _ => a) Q V Hf ltac:(discriminate) HV ltac:(discriminate) HSV ltac:(discriminate) HV0 p tt n b Hp VC d) as (C & H & HH & B).
  exists C, H. split; [exact HH|]. intros h k Hh Kk. specialize (B h Hh).
  assert (E : forall i, (i < n)%nat -> k i = K h i) by (intros i Hi; apply (stages_of_unique (F h) n k (FL h) Kk i Hi)).
  rewrite (sum_to_ext n _ (fun i => b i * Ev s0 c' Q V (f d) (Some (tt, i)) h)) by (intros i Hi; rewrite (E i Hi), EV; reflexivity). exact B.
Qed.
