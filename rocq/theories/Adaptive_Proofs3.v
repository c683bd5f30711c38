(** What the adaptive step size integrators compute. *)
From Coq Require Import Reals List Bool Arith Lra Lia FunctionalExtensionality QArith Qreals.
From Verif Require Import OneStep_Model Multistep_Proofs Multistep_Proofs2 OneStep_Proofs Adaptive_Model Adaptive_Tables Adaptive_Proofs Adaptive_Proofs2.
Import ListNotations.
Open Scope R_scope.

(** * The specification *)
Section Specification.
  Context {S : Type}.
  Variables (time : S -> R) (accepted : R -> S -> S -> Prop) (p : Parameters) (stops : bool).
  (** Each state is obtained from the one before it by an accepted step in the direction of the integration. *)
  Fixpoint accepted_steps (s : S) (l : list S) : Prop :=
    match l with
    | [] => True
    | s' :: l => (exists h, 0 < sign (first_step p) * h /\ accepted h s s') /\ accepted_steps s' l
    end.
  (** An integration from [s] to [t_final] appends the states [l], leaves the instance in [i] and returns [status]: either
      it is interrupted; or, for an exact last step, the last state is at [t_final] and the instance stays just before it;
      or the next step is accepted and goes strictly beyond [t_final]. *)
  Definition integrates (t_final : R) (s : S) (l : list S) (i : AInstance S) (status : Status) : Prop :=
    accepted_steps s l /\ (forall s', In s' l -> sign (first_step p) * time s' <= sign (first_step p) * t_final) /\
    (a_state i = last l s /\ (status = ReachedMaximalStepCount /\ length l = max_steps p \/ status = VanishingStepSize \/
                              stops = true /\ status = Aborted)
     \/ (last_step_is_exact p = true /\ exists l' s', l = l' ++ [s'] /\ time s' = t_final /\ a_state i = last l' s)
     \/ (last_step_is_exact p = false /\ a_state i = last l s /\ time (a_state i) <= t_final < time (a_state i) + a_step i /\
         exists s', accepted (a_step i) (a_state i) s')).
End Specification.
Lemma integrates_of : forall (S : Type) (time : S -> R) (accepted : R -> S -> S -> Prop) p stops one ratio t_final s l i status,
  (forall s h, 1 <= ratio s h -> accepted h s (one s h)) ->
  result time stops p one ratio t_final s 0 l i status -> integrates time accepted p stops t_final s l i status.
Proof.
  intros S time accepted p stops one ratio t_final s l i status A (_ & T & B & R). split; [|split].
  - clear - A T. revert s T. induction l as [|s' l IH]; intros s T; [exact I|]. cbn in T |- *. destruct T as ((h & H1 & -> & H2) & T).
    split; [exists h; split; [exact H1|apply A, H2]|apply IH, T].
  - exact B.
  - destruct R as [[R1 R2]|R].
    + left. split; [exact R1|]. inversion R2; subst; auto.
    + destruct (last_step_is_exact p); right; [left; split; [reflexivity|exact R]|right; split; [reflexivity|]].
      destruct R as (R1 & R2 & R3). repeat split; try exact R1; try apply R3. exists (one (a_state i) (a_step i)). apply A, R2.
Qed.

(** * Bounds on the errors *)
Lemma sum_to_abs : forall n w (k : nat -> R) B, (forall i, (i < n)%nat -> Rabs (k i) <= B) ->
  Rabs (sum_to n (fun i => w i * k i)) <= B * sum_to n (fun i => Rabs (w i)).
Proof.
  induction n as [|n IH]; intros w k B H; [unfold sum_to; cbn; rewrite Rabs_R0; lra|]. rewrite !sum_to_last.
  eapply Rle_trans; [apply Rabs_triang|]. specialize (IH w k B ltac:(intros; apply H; lia)). rewrite Rabs_mult.
  specialize (H n ltac:(lia)). pose proof (Rabs_pos (w n)). nra.
Qed.
Lemma sum_to_nonneg : forall n f, (forall i, (i < n)%nat -> 0 <= f i) -> 0 <= sum_to n f.
Proof. induction n as [|n IH]; intros f H; [unfold sum_to; cbn; lra|]. rewrite sum_to_last. specialize (IH f ltac:(intros; apply H; lia)).
  specialize (H n ltac:(lia)). lra. Qed.
(** The tolerance accepts small errors, for small steps. *)
Definition rk_tolerance_ok (tolerance : ERKTolerance) : Prop :=
  forall s, exists eps eta, 0 < eps /\ 0 < eta /\ forall h e, Rabs h <= eta -> (forall d, Rabs (e d) <= eps) -> 1 <= tolerance h s e.
Definition rkn_tolerance_ok (tolerance : RKNTolerance) : Prop :=
  forall s, exists eps eta, 0 < eps /\ 0 < eta /\
    forall h eq ev, Rabs h <= eta -> (forall d, Rabs (eq d) <= eps) -> (forall d, Rabs (ev d) <= eps) -> 1 <= tolerance h s eq ev.
Lemma small_steps : forall B W W' eps eta, 0 <= B -> 0 <= W -> 0 <= W' -> 0 < eps -> 0 < eta ->
  exists nu, 0 < nu /\ forall h, Rabs h <= nu -> Rabs h <= eta /\ Rabs h * (B * W) <= eps /\ Rabs h * Rabs h * (B * W') <= eps.
Proof.
  intros B W W' eps eta HB HW HW' He Hn.
  set (nu := Rmin eta (Rmin 1 (eps / (B * W + B * W' + 1)))).
  assert (D : 0 < B * W + B * W' + 1) by nra.
  assert (Q : 0 < eps / (B * W + B * W' + 1)) by (apply Rdiv_lt_0_compat; lra).
  exists nu. split; [unfold nu; repeat apply Rmin_glb_lt; lra|]. intros h Hh.
  assert (A1 : nu <= eta) by apply Rmin_l. assert (A2 : nu <= 1) by (unfold nu; eapply Rle_trans; [apply Rmin_r|apply Rmin_l]).
  assert (A3 : nu <= eps / (B * W + B * W' + 1)) by (unfold nu; eapply Rle_trans; [apply Rmin_r|apply Rmin_r]).
  pose proof (Rabs_pos h) as P. split; [lra|].
  assert (E : Rabs h * (B * W + B * W' + 1) <= eps).
  { replace eps with (eps / (B * W + B * W' + 1) * (B * W + B * W' + 1)) by (field; lra). apply Rmult_le_compat_r; lra. }
  assert (0 <= B * W) by nra. assert (0 <= B * W') by nra. split; [nra|].
  assert (Rabs h * Rabs h * (B * W') <= Rabs h * (B * W')) by (apply Rmult_le_compat_r; nra). nra.
Qed.
Lemma sign_abs : forall x h, 0 < sign x * h -> Rabs h = sign x * h.
Proof. intros x h H. destruct (sign_cases x) as [E|E]; rewrite E in *; [rewrite Rabs_right|rewrite Rabs_left]; lra. Qed.

(** * Runge-Kutta *)
Section ERK.
  Variables (m : EmbeddedRK) (f : Derivative) (tolerance : ERKTolerance) (p : Parameters).
  Hypothesis C : erk_checks m = true.
  Hypothesis P : (0 < erk_stages m)%nat.
  Hypothesis Hsafety : 0 < safety_factor p < 1.
  Notation one := (erk_one m f).
  Notation ratio := (erk_ratio m f tolerance).
  Lemma erk_hattempt : forall at_end t_final s lf h, rk_good (higher m) f s lf -> (at_end = true -> t_final = rk_s s + h) ->
    exists m' st, erk_attempt m f tolerance (last_step_is_exact p) at_end t_final s lf h = (one s h, m', st, ratio s h) /\ rk_good (higher m) f (one s h) m'.
  Proof. intros. apply erk_attempt_spec; assumption. Qed.
  Lemma erk_solve_sound : forall fuel t_final i l i' status, 0 < sign (first_step p) * a_step i ->
    (last_step_is_exact p = true \/ 0 <= first_step p) ->
    erk_solve m f tolerance p fuel t_final i = Done l i' status ->
    integrates rk_s (erk_accepted m (rhs f) tolerance) p true t_final (a_state i) l i' status.
  Proof.
    intros fuel t_final i l i' status U D E. eapply integrates_of with (one := one) (ratio := ratio).
    - intros s h. apply erk_accepted_spec; assumption.
    - eapply (solve_sound rk_s _ _ _ _ p one ratio (rk_good (higher m) f) erk_hattempt (erk_begin_good m f) (erk_one_time m f) (proj1 Hsafety)); eassumption.
  Qed.
  Lemma erk_small : rk_tolerance_ok tolerance -> (exists B, forall s y d, Rabs (rhs f s y d) <= B) ->
    forall s, exists eta, 0 < eta /\ forall h, 0 < sign (first_step p) * h <= eta -> 1 <= ratio s h.
  Proof.
    intros T (B & HB) s. destruct (T s) as (eps & eta & He & Hn & HT).
    assert (B0 : 0 <= B) by (eapply Rle_trans; [apply Rabs_pos|apply (HB 0 vzero 0%nat)]).
    set (W := sum_to (erk_stages m) (fun i => Rabs (nth i (erk_b m) 0 - nth i (erk_bhat m) 0))).
    assert (W0 : 0 <= W) by (apply sum_to_nonneg; intros; apply Rabs_pos).
    destruct (small_steps B W W eps eta B0 W0 W0 He Hn) as (nu & N0 & N). exists nu. split; [exact N0|]. intros h H.
    rewrite <- sign_abs in H by tauto. destruct (N h ltac:(tauto)) as (N1 & N2 & _).
    unfold erk_ratio. apply HT; [exact N1|]. intros d.
    destruct (rk_run_spec (higher m) f h s _ C (rk_one_good (higher m) f s)) as (k & K & Run).
    unfold erk_error, erk_run. rewrite (proj1 (Run (erk_stages m))). rewrite !weighted_map.
    replace (_ - _) with (h * sum_to (erk_stages m) (fun i => (nth i (erk_b m) 0 - nth i (erk_bhat m) 0) * k i d)).
    - rewrite Rabs_mult. eapply Rle_trans; [|exact N2]. apply Rmult_le_compat_l; [apply Rabs_pos|]. apply sum_to_abs. intros i _. rewrite K. apply HB.
    - unfold vscal. rewrite (sum_to_ext _ (fun i => (_ - _) * k i d) (fun i => nth i (erk_b m) 0 * k i d + (-1) * (nth i (erk_bhat m) 0 * k i d))) by (intros; ring).
      rewrite sum_to_add, sum_to_scal.
      rewrite (sum_to_ext _ (fun i => nth i (erk_b m) 0 * (h * k i d)) (fun i => h * (nth i (erk_b m) 0 * k i d))) by (intros; ring).
      rewrite (sum_to_ext _ (fun i => nth i (erk_bhat m) 0 * (h * k i d)) (fun i => h * (nth i (erk_bhat m) 0 * k i d))) by (intros; ring).
      rewrite !sum_to_scal. ring.
  Qed.
  Lemma erk_solve_terminates : forall t_final i, rk_tolerance_ok tolerance -> (exists B, forall s y d, Rabs (rhs f s y d) <= B) ->
    0 < sign (first_step p) * a_step i -> sign (first_step p) * rk_s (a_state i) < sign (first_step p) * t_final ->
    (first_use i = true \/ last_step_is_exact p = false) -> (0 < max_steps p)%nat ->
    exists fuel0 l i' status, forall fuel, (fuel0 <= fuel)%nat -> erk_solve m f tolerance p fuel t_final i = Done l i' status.
  Proof.
    intros t_final i T B U D F M.
    exact (solve_terminates rk_s _ _ _ _ p one ratio (rk_good (higher m) f) erk_hattempt (erk_begin_good m f) (erk_one_time m f)
             (proj1 Hsafety) (proj2 Hsafety) (erk_small T B) t_final i U D F M).
  Qed.
  Lemma erk_solve_continues : forall fuel1 fuel2 t1 t2 i l1 i1 l2 i2 status, last_step_is_exact p = false -> max_steps p = 0%nat -> 0 <= first_step p ->
    (forall s y, fst (f s y) = Ok) -> 0 < sign (first_step p) * a_step i -> t1 <= t2 ->
    erk_solve m f tolerance p fuel1 t1 i = Done l1 i1 Ok -> erk_solve m f tolerance p fuel2 t2 i1 = Done l2 i2 status ->
    erk_solve m f tolerance p (fuel1 + fuel2) t2 i = Done (l1 ++ l2) i2 status.
  Proof.
    intros fuel1 fuel2 t1 t2 i l1 i1 l2 i2 status X M D O U T E1 E2.
    refine (solve_continues rk_s _ _ _ _ p one ratio (rk_good (higher m) f) erk_hattempt (erk_begin_good m f)
             _ fuel1 fuel2 t1 t2 i l1 i1 l2 i2 status X M D _ U T E1 E2).
    - intros. apply erk_attempt_ok; assumption.
    - intros s. unfold erk_begin. destruct (erk_fsal m); [apply O|reflexivity].
  Qed.
End ERK.

(** * Runge-Kutta-Nyström *)
Section RKN.
  Variables (generalized : bool) (m : EmbeddedRKN) (f : GeneralAcceleration) (tolerance : RKNTolerance) (p : Parameters).
  Hypothesis C : rkn_checks m = true.
  Hypothesis P : (0 < rkn_stages m)%nat.
  Hypothesis F : rkn_fsal m = true -> fsal_velocities m \/ (forall t q v v', f t q v = f t q v').
  Hypothesis Hsafety : 0 < safety_factor p < 1.
  Notation one := (rkn_one m f tolerance (last_step_is_exact p)).
  Notation ratio := (rkn_ratio m f tolerance (last_step_is_exact p)).
  Notation good := (rkn_good m f).
  Lemma rkn_hattempt : forall at_end t_final s g0 h, good s g0 -> (at_end = true -> t_final = time s + h) ->
    exists m' st, rkn_attempt m f tolerance (last_step_is_exact p) at_end t_final s g0 h = (one s h, m', st, ratio s h) /\ good (one s h) m'.
  Proof. intros. apply rkn_attempt_spec; assumption. Qed.
  Lemma rkn_htime : forall s h, time (one s h) = time s + h.
  Proof. intros. apply rkn_one_time; assumption. Qed.
  Lemma rkn_solve_sound : forall fuel t_final i l i' status, 0 < sign (first_step p) * a_step i ->
    (last_step_is_exact p = true \/ 0 <= first_step p) ->
    rkn_solve generalized m f tolerance p fuel t_final i = Done l i' status ->
    integrates time (rkn_accepted m (acc f) tolerance) p generalized t_final (a_state i) l i' status.
  Proof.
    intros fuel t_final i l i' status U D E. eapply integrates_of with (one := one) (ratio := ratio).
    - intros s h. apply rkn_accepted_spec; assumption.
    - eapply (solve_sound time _ _ _ _ p one ratio good rkn_hattempt (rkn_begin_good m f) rkn_htime (proj1 Hsafety)); eassumption.
  Qed.
  Lemma rkn_small : rkn_tolerance_ok tolerance -> (exists B, forall t q v d, Rabs (acc f t q v d) <= B) ->
    forall s, exists eta, 0 < eta /\ forall h, 0 < sign (first_step p) * h <= eta -> 1 <= ratio s h.
  Proof.
    intros T (B & HB) s. destruct (T s) as (eps & eta & He & Hn & HT).
    assert (B0 : 0 <= B) by (eapply Rle_trans; [apply Rabs_pos|apply (HB 0 vzero vzero 0%nat)]).
    set (n := rkn_stages m).
    set (W := sum_to n (fun i => Rabs (nth i (rkn_bʹ m) 0 - nth i (rkn_bhatʹ m) 0))).
    set (W' := sum_to n (fun i => Rabs (nth i (rkn_b m) 0 - nth i (rkn_bhat m) 0))).
    assert (W0 : 0 <= W) by (apply sum_to_nonneg; intros; apply Rabs_pos).
    assert (W0' : 0 <= W') by (apply sum_to_nonneg; intros; apply Rabs_pos).
    destruct (small_steps B W W' eps eta B0 W0 W0' He Hn) as (nu & N0 & N). exists nu. split; [exact N0|]. intros h H.
    rewrite <- sign_abs in H by tauto. destruct (N h ltac:(tauto)) as (N1 & N2 & N3).
    destruct (stages_exist m f P s h) as [k K].
    destruct (rkn_attempt_run m f tolerance (last_step_is_exact p) C P false 0 s None h k I ltac:(discriminate) K) as [st E].
    unfold rkn_ratio. rewrite E. cbn [snd]. fold n.
    assert (Wm : forall b b' : list R, forall d, sum_to n (fun i => nth i b 0 * k i d) - sum_to n (fun i => nth i b' 0 * k i d)
       = sum_to n (fun i => (nth i b 0 - nth i b' 0) * k i d)).
    { intros b b' d. rewrite (sum_to_ext _ (fun i => (_ - _) * _) (fun i => nth i b 0 * k i d + (-1) * (nth i b' 0 * k i d))) by (intros; ring).
      rewrite sum_to_add, sum_to_scal. ring. }
    apply HT; [exact N1| |]; intros d; rewrite !weighted_map.
    - replace (_ - _) with (h * h * sum_to n (fun i => (nth i (rkn_b m) 0 - nth i (rkn_bhat m) 0) * k i d)) by (rewrite <- Wm; ring).
      rewrite !Rabs_mult. eapply Rle_trans; [|exact N3]. apply Rmult_le_compat_l; [pose proof (Rabs_pos h); nra|]. apply sum_to_abs.
      intros i _. rewrite K. apply HB.
    - replace (_ - _) with (h * sum_to n (fun i => (nth i (rkn_bʹ m) 0 - nth i (rkn_bhatʹ m) 0) * k i d)) by (rewrite <- Wm; ring).
      rewrite Rabs_mult. eapply Rle_trans; [|exact N2]. apply Rmult_le_compat_l; [apply Rabs_pos|]. apply sum_to_abs.
      intros i _. rewrite K. apply HB.
  Qed.
  Lemma rkn_solve_terminates : forall t_final i, rkn_tolerance_ok tolerance -> (exists B, forall t q v d, Rabs (acc f t q v d) <= B) ->
    0 < sign (first_step p) * a_step i -> sign (first_step p) * time (a_state i) < sign (first_step p) * t_final ->
    (first_use i = true \/ last_step_is_exact p = false) -> (0 < max_steps p)%nat ->
    exists fuel0 l i' status, forall fuel, (fuel0 <= fuel)%nat -> rkn_solve generalized m f tolerance p fuel t_final i = Done l i' status.
  Proof.
    intros t_final i T B U D Fu M.
    exact (solve_terminates time _ _ _ _ p one ratio good rkn_hattempt (rkn_begin_good m f) rkn_htime
             (proj1 Hsafety) (proj2 Hsafety) (rkn_small T B) t_final i U D Fu M).
  Qed.
  Lemma rkn_solve_continues : forall fuel1 fuel2 t1 t2 i l1 i1 l2 i2 status, last_step_is_exact p = false -> max_steps p = 0%nat -> 0 <= first_step p ->
    (forall t q v, fst (f t q v) = Ok) -> 0 < sign (first_step p) * a_step i -> t1 <= t2 ->
    rkn_solve generalized m f tolerance p fuel1 t1 i = Done l1 i1 Ok -> rkn_solve generalized m f tolerance p fuel2 t2 i1 = Done l2 i2 status ->
    rkn_solve generalized m f tolerance p (fuel1 + fuel2) t2 i = Done (l1 ++ l2) i2 status.
  Proof.
    intros fuel1 fuel2 t1 t2 i l1 i1 l2 i2 status X M D O U T E1 E2.
    refine (solve_continues time _ _ _ _ p one ratio good rkn_hattempt (rkn_begin_good m f)
             _ fuel1 fuel2 t1 t2 i l1 i1 l2 i2 status X M D _ U T E1 E2).
    - intros. apply rkn_attempt_ok; assumption.
    - reflexivity.
  Qed.
End RKN.

(** * Interrupted integrations *)
Lemma Root_1 : forall n, Root n 1 = 1.
Proof. intros n. unfold Root. destruct (Rle_dec 1 0); [lra|]. unfold Rpower. rewrite ln_1, Rmult_0_r. apply exp_0. Qed.
Section Interrupted.
  Context {S M : Type}.
  Variables (time : S -> R) (attempt : bool -> R -> S -> M -> R -> S * M * Status * R) (begin : S -> Status * M)
            (stops : bool) (lower_order : nat).
  Variables (one : S -> R -> S) (good : S -> M -> Prop).
  Hypothesis Hattempt : forall at_end t_final s m h, good s m -> (at_end = true -> t_final = time s + h) ->
    exists m' st, attempt at_end t_final s m h = (one s h, m', st, 1) /\ good (one s h) m'.
  Hypothesis Hbegin : forall s, good s (snd (begin s)).
  Hypothesis Hok : forall at_end t_final s m h, snd (fst (attempt at_end t_final s m h)) = Ok.
  Hypothesis Htime : forall s h, time (one s h) = time s + h.
  Notation solve := (adaptive_solve S time M attempt begin stops lower_order).
  Definition halving (n : nat) : Parameters := mkParameters 1 (1 / 2) n false.
  Lemma sign_1 : sign 1 = 1.
  Proof. unfold sign. destruct (Rlt_dec 1 0); lra. Qed.
  Lemma adapt_halves : forall n h, adapt lower_order (halving n) h 1 = h / 2.
  Proof. intros n h. unfold adapt. rewrite Root_1. cbn [safety_factor halving]. field. Qed.
  (** One iteration that is not the last. *)
  Lemma halving_one : forall n fuel t_final s m h count status, good s m -> 0 < h -> time s + h <= t_final ->
    exists m', good (one s h) m' /\
      adaptive_loop S time M attempt stops lower_order (halving n) (Datatypes.S fuel) t_final s m h count status =
      if Nat.eqb (Datatypes.S count) n then Done [one s h] (mkAInstance (one s h) h false) ReachedMaximalStepCount
      else match adaptive_loop S time M attempt stops lower_order (halving n) fuel t_final (one s h) m' (h / 2) (Datatypes.S count) status with
           | Done l i status => Done (one s h :: l) i status
           | Fatal => Fatal
           | NoFuel => NoFuel
           end.
  Proof.
    intros n fuel t_final s m h count status G Hh T. cbn [adaptive_loop last_step_is_exact halving andb negb max_steps].
    destruct (Hattempt false t_final s m h G ltac:(discriminate)) as (m' & st & E & G').
    pose proof (Hok false t_final s m h) as O. rewrite E in O. cbn in O. subst st. exists m'. split; [exact G'|]. rewrite E.
    assert (R1 : Rltb 1 1 = false) by (apply Rltb_false; lra). rewrite R1.
    assert (R2 : Rgtb (time s + h) t_final = false) by (apply Rgtb_false; exact T). rewrite R2.
    cbn [IsAborted]. rewrite andb_false_r.
    assert (A : forall h, adapt lower_order (mkParameters 1 (1 / 2) n false) h 1 = h / 2) by (intros; apply adapt_halves). rewrite !A.
    assert (R3 : Reqb (time (one s h) + h / 2) (time (one s h)) = false).
    { destruct (Reqb _ _) eqn:Q; [|reflexivity]. apply Reqb_spec in Q. lra. }
    rewrite R3. rewrite andb_true_r.
    assert (US : Update status Ok = status) by (destruct status; reflexivity). rewrite ?US. reflexivity.
  Qed.
  (** Restarting after one step repeats it with the same length, without the interruption it is halved. *)
  Lemma restarted : forall s,
    (forall s, fst (begin s) = Ok) ->
    exists l i l', solve (halving 2) 2 (time s + 10) (new_instance S (halving 2) s) = Done l i ReachedMaximalStepCount /\
      (exists i1 i2 l1 l2, solve (halving 1) 1 (time s + 10) (new_instance S (halving 1) s) = Done l1 i1 ReachedMaximalStepCount /\
         solve (halving 1) 1 (time s + 10) i1 = Done l2 i2 ReachedMaximalStepCount /\ l' = l1 ++ l2) /\
      map time l = [time s + 1; time s + 3 / 2] /\ map time l' = [time s + 1; time s + 2].
  Proof.
    intros s B.
    assert (D : forall s', time s' < time s + 10 -> direction_check S time 1 (time s + 10) s' = true).
    { intros s' H. change 1 with (first_step (halving 0)) at 1. apply direction_sign. cbn. rewrite sign_1. lra. }
    exists [one s 1; one (one s 1) (1 / 2)], (mkAInstance (one (one s 1) (1 / 2)) (1 / 2) false), [one s 1; one (one s 1) 1].
    split; [|split].
    - unfold adaptive_solve, new_instance. cbn [a_state first_use orb a_step first_step halving]. rewrite (D s) by lra.
      specialize (B s). pose proof (Hbegin s) as G. destruct (begin s) as [st m]. cbn in B, G. subst st.
      destruct (halving_one 2 1 (time s + 10) s m 1 0 Ok G ltac:(lra) ltac:(lra)) as (m' & G' & E). rewrite E. clear E. cbn [Nat.eqb].
      destruct (halving_one 2 0 (time s + 10) (one s 1) m' (1 / 2) 1 Ok G' ltac:(lra) ltac:(rewrite Htime; lra)) as (m'' & G'' & E).
      rewrite E. reflexivity.
    - exists (mkAInstance (one s 1) 1 false), (mkAInstance (one (one s 1) 1) 1 false), [one s 1], [one (one s 1) 1]. split; [|split; [|reflexivity]].
      + unfold adaptive_solve, new_instance. cbn [a_state first_use orb a_step first_step halving]. rewrite (D s) by lra.
        specialize (B s). pose proof (Hbegin s) as G. destruct (begin s) as [st m]. cbn in B, G. subst st.
        destruct (halving_one 1 0 (time s + 10) s m 1 0 Ok G ltac:(lra) ltac:(lra)) as (m' & G' & E). rewrite E. reflexivity.
      + unfold adaptive_solve. cbn [a_state first_use orb a_step last_step_is_exact first_step halving negb]. rewrite D by (rewrite Htime; lra).
        specialize (B (one s 1)). pose proof (Hbegin (one s 1)) as G. destruct (begin (one s 1)) as [st m]. cbn in B, G. subst st.
        destruct (halving_one 1 0 (time s + 10) (one s 1) m 1 0 Ok G ltac:(lra) ltac:(rewrite Htime; lra)) as (m' & G' & E).
        rewrite E. reflexivity.
    - cbn [map]. rewrite !Htime. replace (time s + 1 + 1 / 2) with (time s + 3 / 2) by lra. replace (time s + 1 + 1) with (time s + 2) by lra. split; reflexivity.
  Qed.
End Interrupted.
Lemma erk_restarted : forall m f s, erk_checks m = true -> (0 < erk_stages m)%nat -> (forall s y, fst (f s y) = Ok) ->
  let tolerance := fun _ _ _ => 1 in
  exists l i l', erk_solve m f tolerance (halving 2) 2 (rk_s s + 10) (new_instance RKState (halving 2) s) = Done l i ReachedMaximalStepCount /\
    (exists i1 i2 l1 l2, erk_solve m f tolerance (halving 1) 1 (rk_s s + 10) (new_instance RKState (halving 1) s) = Done l1 i1 ReachedMaximalStepCount /\
       erk_solve m f tolerance (halving 1) 1 (rk_s s + 10) i1 = Done l2 i2 ReachedMaximalStepCount /\ l' = l1 ++ l2) /\
    map rk_s l = [rk_s s + 1; rk_s s + 3 / 2] /\ map rk_s l' = [rk_s s + 1; rk_s s + 2].
Proof.
  intros m f s C P O tolerance.
  refine (restarted rk_s (erk_attempt m f tolerance false) (erk_begin m f) true (erk_lower_order m) (erk_one m f) (rk_good (higher m) f) _ (erk_begin_good m f) _ (erk_one_time m f) s _).
  - intros at_end t_final s0 lf h G T. destruct (erk_attempt_spec m f tolerance false at_end t_final s0 lf h C P G T) as (m' & st & E & G').
    exists m', st. split; [exact E|exact G'].
  - intros. apply erk_attempt_ok; assumption.
  - intros s0. unfold erk_begin. destruct (erk_fsal m); [apply O|reflexivity].
Qed.

(** An acceleration that asks to stop, and an integration in two steps. *)
Definition aborting : GeneralAcceleration := fun _ _ _ => (Aborted, vzero).
Definition two_steps : Parameters := mkParameters 1 (1 / 2) 0 true.
Lemma aborting_attempt : forall m exact at_end t_final s g0 h, rkn_checks m = true -> (0 < rkn_stages m)%nat -> rkn_good m aborting s g0 ->
  (match g0 with None => True | Some _ => 1 < rkn_stages m end)%nat ->
  (at_end = true -> t_final = time s + h) ->
  rkn_attempt m aborting (fun _ _ _ _ => 1) exact at_end t_final s g0 h
  = (rkn_one m aborting (fun _ _ _ _ => 1) exact s h, if rkn_fsal m then Some vzero else g0, Aborted, 1).
Proof.
  intros m exact at_end t_final s g0 h C P G N T.
  assert (F : rkn_fsal m = true -> fsal_velocities m \/ (forall t q v v', aborting t q v = aborting t q v')) by (right; reflexivity).
  destruct (stages_exist m aborting P s h) as [k K].
  destruct (rkn_attempt_run m aborting (fun _ _ _ _ => 1) exact C P at_end t_final s g0 h k G T K) as [st E].
  destruct (rkn_attempt_run m aborting (fun _ _ _ _ => 1) exact C P false 0 s None h k I ltac:(discriminate) K) as [st' E'].
  assert (ST : snd (fst (rkn_attempt m aborting (fun _ _ _ _ => 1) exact at_end t_final s g0 h)) = Aborted).
  { unfold rkn_attempt.
    assert (X : forall l acc, l <> [] \/ snd acc = Aborted -> (snd acc = Ok \/ snd acc = Aborted) -> snd (fold_left (rkn_stage m aborting exact at_end t_final s h) l acc) = Aborted).
    { induction l as [|j l IH]; intros [g a] H1 H2; [destruct H1; [contradiction|assumption]|]. cbn [fold_left]. apply IH; cbn in *; destruct H2 as [->| ->]; auto. }
    destruct g0 as [g0|].
    - specialize (X (seq 1 (rkn_stages m - 1)) ([g0], Ok)). destruct (fold_left _ _ _) as [g a] in *. apply X; [left|left; reflexivity].
      destruct (rkn_stages m) as [|[|n]]; cbn; try lia; discriminate.
    - specialize (X (seq 0 (rkn_stages m)) ([], Ok)). destruct (fold_left _ _ _) as [g a] in *. apply X; [left|left; reflexivity].
      destruct (rkn_stages m) as [|n]; cbn; try lia; discriminate. }
  rewrite E in ST. cbn [fst snd] in ST. subst st. unfold rkn_one. rewrite E, E'. cbn [fst]. f_equal. f_equal. f_equal.
  destruct (rkn_fsal m); [|reflexivity]. f_equal. destruct (rkn_stages m) as [|n]; [lia|]. rewrite seq_S, map_app. cbn [map]. rewrite last_last. apply K.
Qed.
Lemma aborting_solve : forall generalized m s, rkn_checks m = true -> (1 < rkn_stages m)%nat ->
  exists l i, rkn_solve generalized m aborting (fun _ _ _ _ => 1) two_steps 2 (time s + 3 / 2) (new_instance State two_steps s) = Done l i Aborted /\
    length l = (if generalized then 1 else 2)%nat.
Proof.
  intros generalized m s C N.
  assert (T : forall s h, time (rkn_one m aborting (fun _ _ _ _ => 1) true s h) = time s + h) by (intros; apply rkn_one_time; [exact C|lia]).
  unfold rkn_solve, adaptive_solve, new_instance. cbn [a_state first_use orb a_step].
  assert (D : direction_check State time (first_step two_steps) (time s + 3 / 2) s = true) by (apply direction_sign; cbn; rewrite sign_1; lra).
  rewrite D. unfold rkn_begin. cbn [adaptive_loop last_step_is_exact two_steps first_step andb negb max_steps]. rewrite sign_1.
  assert (R1 : Rgeb (1 * 1) (1 * (time s + 3 / 2 - time s)) = false) by (apply Rgeb_false; lra). rewrite R1.
  rewrite aborting_attempt; [|exact C|lia|exact I|exact I|discriminate].
  assert (R2 : Rltb 1 1 = false) by (apply Rltb_false; lra). rewrite R2. cbn [IsAborted].
  destruct generalized; [cbn [andb]; eexists; eexists; split; reflexivity|]. cbn [andb Nat.eqb].
  set (s1 := rkn_one m aborting (fun _ _ _ _ => 1) true s 1).
  assert (A : adapt (rkn_lower_order m) two_steps 1 1 = 1 / 2).
  { unfold adapt. rewrite Root_1. cbn. field. }
  rewrite A.
  assert (R3 : Reqb (time s1 + 1 / 2) (time s1) = false) by (destruct (Reqb _ _) eqn:Q; [apply Reqb_spec in Q; lra|reflexivity]). rewrite R3.
  assert (T1 : time s1 = time s + 1) by apply T. rewrite T1.
  assert (R4 : Rgeb (1 * (1 / 2)) (1 * (time s + 3 / 2 - (time s + 1))) = true) by (apply Rgeb_spec; lra). rewrite R4.
  rewrite aborting_attempt; [| exact C|lia| | |intros _; rewrite T1; lra].
  - rewrite R2. cbn [Update IsAborted]. eexists. eexists. split; reflexivity.
  - destruct (rkn_fsal m) eqn:Q; [|exact I]. cbn [rkn_good]. split; [exact Q|reflexivity].
  - destruct (rkn_fsal m); [exact N|exact I].
Qed.

(** * The tables *)
Lemma Q2R_eqb : forall x y, Reqb (Q2R x) (Q2R y) = Qeq_bool x y.
Proof.
  intros x y. destruct (Qeq_bool x y) eqn:E.
  - apply Reqb_spec. apply Qeq_eqR. apply Qeq_bool_iff. exact E.
  - destruct (Reqb (Q2R x) (Q2R y)) eqn:F; [|reflexivity]. apply Reqb_spec in F. apply eqR_Qeq in F. apply Qeq_bool_iff in F. congruence.
Qed.
Lemma Q2R_0 : Q2R 0 = 0.
Proof. unfold Q2R. cbn. field. Qed.
Lemma Q2R_1 : Q2R 1 = 1.
Proof. unfold Q2R. cbn. field. Qed.
Lemma nth_reals : forall l i, nth i (reals l) 0 = Q2R (nth i l 0%Q).
Proof. intros. unfold reals. rewrite <- Q2R_0 at 1. apply map_nth. Qed.
Lemma nth2_reals : forall l i j, nth j (nth i (map reals l) []) 0 = Q2R (nth j (nth i l []) 0%Q).
Proof. intros. change (@nil R) with (reals []). rewrite map_nth. apply nth_reals. Qed.
Lemma all_below_eq : forall n p q, (forall i, p i = q i) -> all_below n p = all_below n q.
Proof. induction n as [|n IH]; intros p q H; [reflexivity|]. cbn. rewrite H. f_equal. apply IH, H. Qed.
Definition table_checks (fsal : bool) (c : list Q) (a : list (list Q)) (bhat : list Q) : bool :=
  let n := length bhat in
  Qeq_bool 0 (nth 0 c 0%Q)
  && (if fsal then Qeq_bool 1 (nth (n - 1) c 0%Q) && Qeq_bool 0 (nth (n - 1) bhat 0%Q)
        && all_below (n - 1) (fun j => Qeq_bool (nth j bhat 0%Q) (nth j (nth (n - 1) a []) 0%Q)) else true).
Lemma Reqb_0 : forall x, Reqb 0 (Q2R x) = Qeq_bool 0 x.
Proof. intros x. rewrite <- Q2R_eqb, Q2R_0. reflexivity. Qed.
Lemma Reqb_1 : forall x, Reqb 1 (Q2R x) = Qeq_bool 1 x.
Proof. intros x. rewrite <- Q2R_eqb, Q2R_1. reflexivity. Qed.
Lemma erk_of_checks : forall m, erk_checks (erk_of m) = table_checks (t_fsal m) (t_c m) (t_a m) (t_bhat m).
Proof.
  intros m. unfold erk_checks, table_checks, erk_stages. cbn [erk_of erk_fsal erk_c erk_a erk_bhat].
  assert (L : length (reals (t_bhat m)) = length (t_bhat m)) by apply map_length. rewrite L, !nth_reals, !Reqb_0, Reqb_1.
  destruct (t_fsal m); [|reflexivity]. f_equal. f_equal. apply all_below_eq. intros j. rewrite nth_reals, nth2_reals. apply Q2R_eqb.
Qed.
Lemma rkn_of_checks : forall m, rkn_checks (rkn_of m) = table_checks (n_fsal m) (n_c m) (n_a m) (n_bhat m).
Proof.
  intros m. unfold rkn_checks, table_checks, rkn_stages. cbn [rkn_of rkn_fsal rkn_c rkn_a rkn_bhat].
  assert (L : length (reals (n_bhat m)) = length (n_bhat m)) by apply map_length. rewrite L, !nth_reals, !Reqb_0, Reqb_1.
  destruct (n_fsal m); [|reflexivity]. f_equal. f_equal. apply all_below_eq. intros j. rewrite nth_reals, nth2_reals. apply Q2R_eqb.
Qed.
Lemma erk_tables_checked : erk_checks (erk_of DormandPrince1986RK547FC) = true.
Proof. rewrite erk_of_checks. vm_compute. reflexivity. Qed.
Lemma rkn_tables_checked : Forall (fun m => rkn_checks (rkn_of m) = true) [DormandElMikkawyPrince1986RKN434FM; Fine1987RKNG34; Fine1987RKNG45].
Proof. repeat constructor; rewrite rkn_of_checks; vm_compute; reflexivity. Qed.
Lemma fine45_fsal : fsal_velocities (rkn_of Fine1987RKNG45).
Proof.
  split.
  - cbn [rkn_of rkn_bhatʹ]. rewrite nth_reals. rewrite <- Q2R_0. apply Qeq_eqR. reflexivity.
  - intros j Hj. cbn [rkn_of rkn_bhatʹ rkn_aʹ]. rewrite nth_reals, nth2_reals. apply Qeq_eqR.
    do 6 (destruct j as [|j]; [reflexivity|]). unfold rkn_stages in Hj. cbn in Hj. lia.
Qed.
