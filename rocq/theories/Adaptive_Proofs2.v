(** The steps of the embedded methods. *)
From Coq Require Import Reals List Bool Arith Lra Lia FunctionalExtensionality.
From Verif Require Import OneStep_Model Multistep_Proofs Multistep_Proofs2 OneStep_Proofs Adaptive_Model Adaptive_Proofs.
Import ListNotations.
Open Scope R_scope.

(** * Runge-Kutta *)
(** The method of higher order. *)
Definition higher (m : EmbeddedRK) : RK := mkRK (erk_fsal m) (erk_c m) (erk_a m) (erk_bhat m).
(** A step of the method of higher order, with a tolerable error, which is the difference between the two methods. *)
Definition erk_accepted (m : EmbeddedRK) (f : R -> Vec -> Vec) (tolerance : ERKTolerance) (h : R) (s s' : RKState) : Prop :=
  rk_s s' = rk_s s + h /\
  exists k, runge_kutta_step (higher m) f h (rk_s s) (rk_y s) (rk_y s') k /\
    1 <= tolerance h s (fun d => h * sum_to (erk_stages m) (fun i => (nth i (erk_b m) 0 - nth i (erk_bhat m) 0) * k i d)).

Section ERK.
  Variables (m : EmbeddedRK) (f : Derivative) (tolerance : ERKTolerance) (exact : bool).
  Definition erk_run (h : R) (s : RKState) := rk_run (higher m) f h s (rhs f (rk_s s) (rk_y s)) (erk_stages m).
  Definition erk_error (h : R) (s : RKState) : Vec :=
    fun d => weighted (fun i => nth i (erk_b m) 0) (fst (fst (erk_run h s))) d
             - weighted (fun i => nth i (erk_bhat m) 0) (fst (fst (erk_run h s))) d.
  Definition erk_one (s : RKState) (h : R) : RKState := rk_one (higher m) f h s.
  Definition erk_ratio (s : RKState) (h : R) : R := tolerance h s (erk_error h s).

  Lemma fold_ext : forall (A B : Type) (g g' : A -> B -> A) l x, (forall a b, g a b = g' a b) -> fold_left g l x = fold_left g' l x.
  Proof. intros A B g g' l. induction l as [|y l IH]; intros x H; [reflexivity|]. cbn. rewrite H. apply IH. exact H. Qed.
  Lemma erk_stages_eq : forall at_end s_final s last_f h, (at_end = true -> s_final = rk_s s + h) ->
    fold_left (erk_stage m f exact at_end s_final s last_f h) (seq 0 (erk_stages m)) ([], last_f, Ok)
    = rk_run (higher m) f h s last_f (erk_stages m).
  Proof.
    intros at_end s_final s last_f h H. unfold rk_run. apply fold_ext. intros [[k g] st] i. unfold erk_stage, rk_stage.
    cbn [higher first_same_as_last]. unfold rk_c_, rk_a_. cbn [higher rk_c rk_a].
    destruct (Nat.eqb i 0 && erk_fsal m); [reflexivity|].
    destruct (exact && at_end && Reqb (nth i (erk_c m) 0) 1) eqn:E; [|reflexivity].
    apply andb_true_iff in E. destruct E as [E E3]. apply andb_true_iff in E. destruct E as [E1 E2]. apply Reqb_eq in E3.
    rewrite E3, (H E2), Rmult_1_l. reflexivity.
  Qed.
  Lemma erk_attempt_spec : forall at_end s_final s last_f h, erk_checks m = true -> (0 < erk_stages m)%nat ->
    rk_good (higher m) f s last_f -> (at_end = true -> s_final = rk_s s + h) ->
    exists last_f' st, erk_attempt m f tolerance exact at_end s_final s last_f h = (erk_one s h, last_f', st, erk_ratio s h) /\
      rk_good (higher m) f (erk_one s h) last_f'.
  Proof.
    intros at_end s_final s last_f h C P G H. unfold erk_attempt. rewrite (erk_stages_eq at_end s_final s last_f h H).
    destruct (rk_hone (higher m) f h C P s last_f G) as (lf' & E & G').
    assert (ER : fst (fst (rk_run (higher m) f h s last_f (erk_stages m))) = fst (fst (erk_run h s))).
    { destruct (rk_run_spec (higher m) f h s last_f C G) as (k1 & K1 & R1).
      destruct (rk_run_spec (higher m) f h s _ C (rk_one_good (higher m) f s)) as (k2 & K2 & R2). unfold erk_run.
      rewrite (proj1 (R1 (erk_stages m))), (proj1 (R2 (erk_stages m))). apply map_ext_in. intros i _. f_equal.
      clear - K1 K2. induction i as [i IH] using lt_wf_ind. rewrite K1, K2. f_equal. apply functional_extensionality. intros d. f_equal. f_equal.
      apply sum_to_ext. intros j Hj. rewrite (IH j Hj). reflexivity. }
    unfold rk_iterate in E. change (rk_stages (higher m)) with (erk_stages m) in E.
    fold (rk_run (higher m) f h s last_f (erk_stages m)) in E.
    unfold erk_ratio, erk_error. rewrite <- ER. unfold erk_one in *.
    destruct (rk_run (higher m) f h s last_f (erk_stages m)) as [[k g] st]. cbn [fst].
    change (rk_b_ (higher m)) with (fun i => nth i (erk_bhat m) 0) in E. cbn [higher first_same_as_last] in E.
    injection E as E1 E2 E3. exists (if erk_fsal m then g else last_f), st. rewrite E1. split; [reflexivity|]. rewrite E2. exact G'.
  Qed.
  Lemma erk_accepted_spec : forall s h, erk_checks m = true -> 1 <= erk_ratio s h -> erk_accepted m (rhs f) tolerance h s (erk_one s h).
  Proof.
    intros s h C T.
    destruct (rk_run_spec (higher m) f h s _ C (rk_one_good (higher m) f s)) as (k & K & Run).
    assert (Er : erk_error h s = fun d => h * sum_to (erk_stages m) (fun i => (nth i (erk_b m) 0 - nth i (erk_bhat m) 0) * k i d)).
    { unfold erk_error, erk_run. rewrite (proj1 (Run (erk_stages m))). apply functional_extensionality. intros d.
      rewrite !weighted_sum, map_length, seq_length.
      assert (N : forall w, sum_to (erk_stages m) (fun i => w i * nth i (map (fun i => vscal h (k i)) (seq 0 (erk_stages m))) vzero d)
                            = h * sum_to (erk_stages m) (fun i => w i * k i d)).
      { intros w. rewrite <- sum_to_scal. apply sum_to_ext. intros i Hi.
        rewrite (nth_indep _ vzero (vscal h (k 0%nat))) by (rewrite map_length, seq_length; exact Hi).
        rewrite (map_nth (fun i => vscal h (k i))), seq_nth by exact Hi. unfold vscal. cbn [plus]. ring. }
      rewrite !N.
      rewrite (sum_to_ext (erk_stages m) (fun i => (nth i (erk_b m) 0 - nth i (erk_bhat m) 0) * k i d)
                 (fun i => nth i (erk_b m) 0 * k i d + (-1) * (nth i (erk_bhat m) 0 * k i d))) by (intros; ring).
      rewrite sum_to_add, sum_to_scal. ring. }
    split; [apply (rk_one_spec (higher m) f h s C)|]. exists k. split.
    - split; [intros i _; apply K|]. unfold erk_one, rk_one, rk_iterate. change (rk_stages (higher m)) with (erk_stages m).
      fold (rk_run (higher m) f h s (rhs f (rk_s s) (rk_y s)) (erk_stages m)). specialize (Run (erk_stages m)). destruct Run as [R1 _].
      destruct (rk_run (higher m) f h s (rhs f (rk_s s) (rk_y s)) (erk_stages m)) as [[ks g] st]. cbn [fst rk_y] in *. subst ks.
      apply functional_extensionality. intros d. unfold vadd. f_equal. rewrite weighted_sum, map_length, seq_length.
      rewrite <- sum_to_scal. apply sum_to_ext. intros i Hi.
      rewrite (nth_indep _ vzero (vscal h (k 0%nat))) by (rewrite map_length, seq_length; exact Hi).
      rewrite (map_nth (fun i => vscal h (k i))), seq_nth by exact Hi. unfold vscal. cbn [plus]. ring.
    - unfold erk_ratio in T. rewrite Er in T. exact T.
  Qed.
  Lemma erk_one_time : forall s h, rk_s (erk_one s h) = rk_s s + h.
  Proof. intros s h. unfold erk_one, rk_one, rk_iterate. destruct (fold_left _ _ _) as [[k g] st]. reflexivity. Qed.
  Lemma erk_begin_good : forall s, rk_good (higher m) f s (snd (erk_begin m f s)).
  Proof. intros s. unfold erk_begin, rk_good, rhs. cbn [higher first_same_as_last]. destruct (erk_fsal m); [reflexivity|exact I]. Qed.
  Lemma erk_attempt_ok : (forall s y, fst (f s y) = Ok) -> forall at_end s_final s last_f h,
    snd (fst (erk_attempt m f tolerance exact at_end s_final s last_f h)) = Ok.
  Proof.
    intros O at_end s_final s last_f h. unfold erk_attempt.
    assert (E : forall l acc, snd acc = Ok -> snd (fold_left (erk_stage m f exact at_end s_final s last_f h) l acc) = Ok).
    { induction l as [|i l IH]; intros [[k g] st] A; [exact A|]. cbn [fold_left]. apply IH. unfold erk_stage. cbn in A. subst st.
      destruct (Nat.eqb i 0 && erk_fsal m); [reflexivity|].
      match goal with |- context [f ?a ?b] => specialize (O a b); destruct (f a b) as [o x] end. cbn in O. subst o. reflexivity. }
    specialize (E (seq 0 (erk_stages m)) ([], last_f, Ok) eq_refl). destruct (fold_left _ _ _) as [[k g] st]. exact E.
  Qed.
End ERK.

(** * Runge-Kutta-Nyström *)
(** A step of the method of higher order, in the usual form, with a tolerable error. *)
Definition rkn_accepted (m : EmbeddedRKN) (f : R -> Vec -> Vec -> Vec) (tolerance : RKNTolerance) (h : R) (s s' : State) : Prop :=
  let n := rkn_stages m in
  time s' = time s + h /\
  exists k : nat -> Vec,
    (forall i, (i < n)%nat ->
       k i = f (time s + nth i (rkn_c m) 0 * h)
               (fun d => positions s d + h * nth i (rkn_c m) 0 * velocities s d + h * h * sum_to i (fun j => nth j (nth i (rkn_a m) []) 0 * k j d))
               (fun d => velocities s d + h * sum_to i (fun j => nth j (nth i (rkn_aʹ m) []) 0 * k j d))) /\
    (forall d, positions s' d = positions s d + h * velocities s d + h * h * sum_to n (fun i => nth i (rkn_bhat m) 0 * k i d)) /\
    (forall d, velocities s' d = velocities s d + h * sum_to n (fun i => nth i (rkn_bhatʹ m) 0 * k i d)) /\
    1 <= tolerance h s (fun d => h * h * sum_to n (fun i => (nth i (rkn_b m) 0 - nth i (rkn_bhat m) 0) * k i d))
                       (fun d => h * sum_to n (fun i => (nth i (rkn_bʹ m) 0 - nth i (rkn_bhatʹ m) 0) * k i d)).
(** The conditions for the reuse of the last evaluation that the code does not check. *)
Definition fsal_velocities (m : EmbeddedRKN) : Prop :=
  let n := rkn_stages m in
  nth (n - 1) (rkn_bhatʹ m) 0 = 0 /\ forall j, (j < n - 1)%nat -> nth j (rkn_bhatʹ m) 0 = nth j (nth (n - 1) (rkn_aʹ m) []) 0.
(** An acceleration that does not depend on the velocities. *)
Definition of_positions (f : Acceleration) : GeneralAcceleration := fun t q _ => f t q.

Section RKN.
  Variables (m : EmbeddedRKN) (f : GeneralAcceleration) (tolerance : RKNTolerance) (exact : bool).
  Hypothesis C : rkn_checks m = true.
  Hypothesis P : (0 < rkn_stages m)%nat.
  Hypothesis F : rkn_fsal m = true -> fsal_velocities m \/ (forall t q v v', f t q v = f t q v').
  Definition acc (t : R) (q v : Vec) : Vec := snd (f t q v).
  Definition stage_acc (s : State) (h : R) (k : nat -> Vec) (i : nat) : Vec :=
    acc (time s + nth i (rkn_c m) 0 * h)
        (fun d => positions s d + h * nth i (rkn_c m) 0 * velocities s d + h * h * sum_to i (fun j => nth j (nth i (rkn_a m) []) 0 * k j d))
        (fun d => velocities s d + h * sum_to i (fun j => nth j (nth i (rkn_aʹ m) []) 0 * k j d)).
  Lemma stages_exist : forall s h, exists k : nat -> Vec, forall i, k i = stage_acc s h k i.
  Proof.
    intros s h.
    set (G := fun l : list Vec => stage_acc s h (fun j => nth j l vzero) (length l)).
    set (L := fun n => nat_rect (fun _ => list Vec) [] (fun _ l => l ++ [G l]) n).
    assert (LL : forall n, length (L n) = n) by
      (induction n as [|n IH]; [reflexivity|]; cbn; rewrite app_length; cbn; fold (L n); lia).
    assert (LN : forall n j, (j < n)%nat -> nth j (L n) vzero = G (L j)).
    { induction n as [|n IH]; intros j Hj; [lia|]. change (L (S n)) with (L n ++ [G (L n)]).
      destruct (Nat.eq_dec j n) as [->|].
      - rewrite app_nth2 by (rewrite LL; lia). rewrite LL, Nat.sub_diag. reflexivity.
      - rewrite app_nth1 by (rewrite LL; lia). apply IH. lia. }
    exists (fun i => G (L i)). intros i. unfold G at 1. rewrite LL. unfold stage_acc. f_equal; apply functional_extensionality; intros d;
      f_equal; f_equal; apply sum_to_ext; intros j Hj; rewrite LN by exact Hj; reflexivity.
  Qed.
  Lemma stages_unique : forall s h k k', (forall i, k i = stage_acc s h k i) -> (forall i, k' i = stage_acc s h k' i) -> forall i, k i = k' i.
  Proof.
    intros s h k k' K K' i. induction i as [i IH] using lt_wf_ind. rewrite K, K'. unfold stage_acc. f_equal; apply functional_extensionality; intros d;
      f_equal; f_equal; apply sum_to_ext; intros j Hj; rewrite IH by exact Hj; reflexivity.
  Qed.
  Lemma weighted_map : forall w (k : nat -> Vec) n d, weighted w (map k (seq 0 n)) d = sum_to n (fun i => w i * k i d).
  Proof.
    intros w k n d. rewrite weighted_sum, map_length, seq_length. apply sum_to_ext. intros i Hi.
    rewrite (nth_indep _ vzero (k 0%nat)) by (rewrite map_length, seq_length; exact Hi). rewrite map_nth, seq_nth by exact Hi. reflexivity.
  Qed.
  Lemma rkn_stage_spec : forall at_end t_final s h k i st, (at_end = true -> t_final = time s + h) -> (forall i, k i = stage_acc s h k i) ->
    fst (rkn_stage m f exact at_end t_final s h (map k (seq 0 i), st) i) = map k (seq 0 (S i)).
  Proof.
    intros at_end t_final s h k i st H K. unfold rkn_stage.
    set (t_stage := if exact && at_end && Reqb (nth i (rkn_c m) 0) 1 then t_final else time s + nth i (rkn_c m) 0 * h).
    assert (T : t_stage = time s + nth i (rkn_c m) 0 * h).
    { unfold t_stage. destruct (exact && at_end && Reqb (nth i (rkn_c m) 0) 1) eqn:E; [|reflexivity].
      apply andb_true_iff in E. destruct E as [E E3]. apply andb_true_iff in E. destruct E as [E1 E2]. apply Reqb_eq in E3.
      rewrite E3, (H E2), Rmult_1_l. reflexivity. }
    rewrite T. clear T. clear t_stage.
    assert (KI : k i = acc (time s + nth i (rkn_c m) 0 * h)
      (fun d => positions s d + h * nth i (rkn_c m) 0 * velocities s d + h * h * weighted (fun j => nth j (nth i (rkn_a m) []) 0) (map k (seq 0 i)) d)
      (fun d => velocities s d + h * weighted (fun j => nth j (nth i (rkn_aʹ m) []) 0) (map k (seq 0 i)) d)).
    { rewrite (K i). unfold stage_acc. f_equal; apply functional_extensionality; intros d; rewrite weighted_map; reflexivity. }
    unfold acc in KI. destruct (f _ _ _) as [st' g]. cbn [snd fst] in *. rewrite <- KI, seq_S, map_app. reflexivity.
  Qed.
  Lemma rkn_fold_spec : forall at_end t_final s h k n i st, (at_end = true -> t_final = time s + h) -> (forall i, k i = stage_acc s h k i) ->
    fst (fold_left (rkn_stage m f exact at_end t_final s h) (seq i n) (map k (seq 0 i), st)) = map k (seq 0 (i + n)).
  Proof.
    intros at_end t_final s h k n. induction n as [|n IH]; intros i st H K; [rewrite Nat.add_0_r; reflexivity|].
    cbn [seq fold_left]. pose proof (rkn_stage_spec at_end t_final s h k i st H K) as E.
    destruct (rkn_stage m f exact at_end t_final s h (map k (seq 0 i), st) i) as [g st']. cbn [fst] in E. subst g.
    rewrite IH by assumption. f_equal. f_equal. lia.
  Qed.
  Definition rkn_good (s : State) (g0 : option Vec) : Prop :=
    match g0 with None => True | Some g => rkn_fsal m = true /\ g = acc (time s) (positions s) (velocities s) end.
  Definition rkn_one (s : State) (h : R) : State := fst (fst (fst (rkn_attempt m f tolerance exact false 0 s None h))).
  Definition rkn_ratio (s : State) (h : R) : R := snd (rkn_attempt m f tolerance exact false 0 s None h).

  Lemma first_stage_acc : forall s h k, (forall i, k i = stage_acc s h k i) -> k 0%nat = acc (time s) (positions s) (velocities s).
  Proof.
    intros s h k K. rewrite (K 0%nat). unfold stage_acc.
    assert (C0 : nth 0 (rkn_c m) 0 = 0) by (unfold rkn_checks in C; apply andb_true_iff in C; destruct C as [C1 _]; apply Reqb_eq in C1; congruence).
    rewrite C0. f_equal; [ring| |]; apply functional_extensionality; intros d; unfold sum_to; cbn; ring.
  Qed.
  (** What an attempt computes, from the accelerations [k]. *)
  Lemma rkn_attempt_run : forall at_end t_final s g0 h k, rkn_good s g0 -> (at_end = true -> t_final = time s + h) -> (forall i, k i = stage_acc s h k i) ->
    let g := map k (seq 0 (rkn_stages m)) in
    exists st, rkn_attempt m f tolerance exact at_end t_final s g0 h
      = (mkState (time s + h) (vadd (positions s) (fun d => h * velocities s d + h * h * weighted (fun i => nth i (rkn_bhat m) 0) g d))
                 (vadd (velocities s) (fun d => h * weighted (fun i => nth i (rkn_bhatʹ m) 0) g d)),
         if rkn_fsal m then Some (last g vzero) else g0, st,
         tolerance h s (fun d => (h * velocities s d + h * h * weighted (fun i => nth i (rkn_b m) 0) g d)
                                 - (h * velocities s d + h * h * weighted (fun i => nth i (rkn_bhat m) 0) g d))
                       (fun d => h * weighted (fun i => nth i (rkn_bʹ m) 0) g d - h * weighted (fun i => nth i (rkn_bhatʹ m) 0) g d)).
  Proof.
    intros at_end t_final s g0 h k G H K g. unfold rkn_attempt.
    assert (E : fst (match g0 with
                | None => fold_left (rkn_stage m f exact at_end t_final s h) (seq 0 (rkn_stages m)) ([], Ok)
                | Some g0 => fold_left (rkn_stage m f exact at_end t_final s h) (seq 1 (rkn_stages m - 1)) ([g0], Ok)
                end) = g).
    { destruct g0 as [g0|].
      - cbn in G. destruct G as [_ ->]. rewrite <- (first_stage_acc s h k K).
        change ([k 0%nat], Ok) with (map k (seq 0 1), Ok). rewrite rkn_fold_spec by assumption.
        replace (1 + (rkn_stages m - 1))%nat with (rkn_stages m) by lia. reflexivity.
      - change (@nil Vec, Ok) with (map k (seq 0 0), Ok). rewrite rkn_fold_spec by assumption. reflexivity. }
    match type of E with fst ?x = _ => destruct x as [g' st] end. cbn [fst] in E. subst g'. exists st. reflexivity.
  Qed.
  Lemma rkn_attempt_spec : forall at_end t_final s g0 h, rkn_good s g0 -> (at_end = true -> t_final = time s + h) ->
    exists g0' st, rkn_attempt m f tolerance exact at_end t_final s g0 h = (rkn_one s h, g0', st, rkn_ratio s h) /\ rkn_good (rkn_one s h) g0'.
  Proof.
    intros at_end t_final s g0 h G H. destruct (stages_exist s h) as [k K].
    destruct (rkn_attempt_run at_end t_final s g0 h k G H K) as [st E].
    destruct (rkn_attempt_run false 0 s None h k I ltac:(discriminate) K) as [st' E'].
    unfold rkn_one, rkn_ratio. rewrite E, E'. cbn [fst snd]. eexists. exists st. split; [reflexivity|].
    destruct (rkn_fsal m) eqn:Q.
    - cbn [rkn_good time positions velocities]. split; [exact Q|]. destruct (rkn_stages m) as [|n] eqn:N; [lia|]. rewrite seq_S, map_app. cbn [map plus]. rewrite last_last.
      transitivity (stage_acc s h k n); [apply K|]. unfold stage_acc.
      unfold rkn_checks in C. rewrite Q, N in C. apply andb_prop in C. destruct C as [_ C'].
      apply andb_prop in C'. destruct C' as [C' C3]. apply andb_prop in C'. destruct C' as [C1 C2].
      replace (S n - 1)%nat with n in * by lia. apply Reqb_eq in C1, C2.
      assert (EP : (fun d => positions s d + h * nth n (rkn_c m) 0 * velocities s d + h * h * sum_to n (fun j => nth j (nth n (rkn_a m) []) 0 * k j d))
                   = vadd (positions s) (fun d => h * velocities s d + h * h * weighted (fun i => nth i (rkn_bhat m) 0) (map k (seq 0 n) ++ [k n]) d)).
      { apply functional_extensionality. intros d. unfold vadd. change [k n] with (map k [n]). rewrite <- (map_app k (seq 0 n) [n]); change [n] with [(0 + n)%nat]; rewrite <- (seq_S n 0), weighted_map, sum_to_last.
        rewrite <- C1, <- C2. rewrite (sum_to_ext n (fun i => nth i (rkn_bhat m) 0 * _) (fun j => nth j (nth n (rkn_a m) []) 0 * k j d)); [ring|].
        intros j Hj. pose proof (all_below_spec _ _ C3 j Hj) as X. apply Reqb_eq in X. rewrite X. reflexivity. }
      rewrite EP, <- C1, Rmult_1_l. destruct (F eq_refl) as [(V1 & V2)|V].
      + rewrite N in V1, V2. replace (S n - 1)%nat with n in * by lia. f_equal. apply functional_extensionality. intros d. unfold vadd.
        change [k n] with (map k [n]). rewrite <- (map_app k (seq 0 n) [n]); change [n] with [(0 + n)%nat]; rewrite <- (seq_S n 0), weighted_map, sum_to_last. rewrite V1.
        rewrite (sum_to_ext n (fun i => nth i (rkn_bhatʹ m) 0 * _) (fun j => nth j (nth n (rkn_aʹ m) []) 0 * k j d)); [ring|].
        intros j Hj. rewrite (V2 j Hj). reflexivity.
      + unfold acc. f_equal. apply V.
    - destruct g0 as [g|]; [|exact I]. cbn in G. destruct G. congruence.
  Qed.
  Lemma rkn_accepted_spec : forall s h, 1 <= rkn_ratio s h -> rkn_accepted m acc tolerance h s (rkn_one s h).
  Proof.
    intros s h T. destruct (stages_exist s h) as [k K].
    destruct (rkn_attempt_run false 0 s None h k I ltac:(discriminate) K) as [st E].
    unfold rkn_ratio in T. unfold rkn_one. rewrite E in T |- *. cbn [fst snd] in *.
    split; [reflexivity|]. exists k. split; [intros i _; apply K|].
    split; [intros d; cbn [positions]; unfold vadd; rewrite weighted_map; ring|].
    split; [intros d; cbn [velocities]; unfold vadd; rewrite weighted_map; ring|].
    assert (W : forall b b' : list R, forall d, sum_to (rkn_stages m) (fun i => (nth i b 0 - nth i b' 0) * k i d)
       = sum_to (rkn_stages m) (fun i => nth i b 0 * k i d) - sum_to (rkn_stages m) (fun i => nth i b' 0 * k i d)).
    { intros b b' d. rewrite (sum_to_ext _ _ (fun i => nth i b 0 * k i d + (-1) * (nth i b' 0 * k i d))) by (intros; ring).
      rewrite sum_to_add, sum_to_scal. ring. }
    match type of T with 1 <= tolerance h s ?x ?y => match goal with |- 1 <= tolerance h s ?x' ?y' =>
      replace x' with x; [replace y' with y; [exact T|]|] end end; apply functional_extensionality; intros d; rewrite W, !weighted_map; ring.
  Qed.
  Lemma rkn_one_time : forall s h, time (rkn_one s h) = time s + h.
  Proof. intros s h. destruct (stages_exist s h) as [k K]. destruct (rkn_attempt_run false 0 s None h k I ltac:(discriminate) K) as [st E].
    unfold rkn_one. rewrite E. reflexivity. Qed.
  Lemma rkn_begin_good : forall s, rkn_good s (snd (rkn_begin s)).
  Proof. intros s. exact I. Qed.
  Lemma rkn_attempt_ok : (forall t q v, fst (f t q v) = Ok) -> forall at_end t_final s g0 h,
    snd (fst (rkn_attempt m f tolerance exact at_end t_final s g0 h)) = Ok.
  Proof.
    intros O at_end t_final s g0 h. unfold rkn_attempt.
    assert (E : forall l acc, snd acc = Ok -> snd (fold_left (rkn_stage m f exact at_end t_final s h) l acc) = Ok).
    { induction l as [|i l IH]; intros [g st] A; [exact A|]. cbn [fold_left]. apply IH. unfold rkn_stage. cbn in A. subst st.
      match goal with |- context [f ?a ?b ?c] => specialize (O a b c); destruct (f a b c) as [o x] end. cbn in O. subst o. reflexivity. }
    destruct g0 as [g0|].
    - specialize (E (seq 1 (rkn_stages m - 1)) ([g0], Ok) eq_refl). destruct (fold_left _ _ _) as [g st]. exact E.
    - specialize (E (seq 0 (rkn_stages m)) ([], Ok) eq_refl). destruct (fold_left _ _ _) as [g st]. exact E.
  Qed.
End RKN.
