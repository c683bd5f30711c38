(** Calls to [Solve] of the multistep integrators which go nowhere: repeated times and aborted startups. *)
From Coq Require Import Reals ZArith QArith Qreals List Bool Arith Lra Lia FunctionalExtensionality.
From Verif Require Import OneStep_Model Multistep_Tables Multistep_Model Multistep_Proofs Multistep_Proofs2 Multistep_Proofs3
                          OneStep_Proofs OneStep_Proofs2 OneStep_Proofs3 Multistep_Proofs4 Multistep_Proofs5.
Import ListNotations.
Open Scope R_scope.

Section Repeated.
  Context {S P : Type}.
  Variables (state_time : S -> R) (p_time : P -> R) (k : nat) (fill : S -> P)
            (startup_solve : R -> nat -> R -> S -> Outcome S S)
            (advance : list P -> R -> P * Status) (new_state : list P -> S) (h : R) (one : S -> S) (s0 : S).
  Notation solve := (multistep_solve S P state_time p_time k fill startup_solve advance new_state h).
  Notation sub := (h / INR startup_step_divisor).
  Notation t0 := (state_time s0).
  Hypothesis Hh : 0 < h.
  Hypothesis Hk : (3 <= k)%nat.
  Hypothesis Hstart : forall fuel t_final s N, state_time s <> t_final -> whole_steps sub (state_time s) t_final N -> (N <= fuel)%nat ->
    startup_solve sub fuel t_final s = Done (map (fun i => iterated i one s) (seq 1 N)) (iterated N one s) Ok.
  Hypothesis Hfatal : forall fuel s, startup_solve sub fuel (state_time s) s = Fatal.
  Hypothesis Hone : forall s, state_time (one s) = state_time s + sub.
  Hypothesis Hfill : forall s, p_time (fill s) = state_time s.
  Hypothesis Hnew : forall l p, state_time (new_state (l ++ [p])) = p_time p.
  Hypothesis Hadvance : forall l t, snd (advance l t) = Ok /\ p_time (fst (advance l t)) = t + h.

  Lemma at_one : forall m i, At state_time k fill advance new_state h one s0 m i -> m = 1%nat ->
    exists J, (J / startup_step_divisor = 1)%nat /\
      i = mkInstance (iterated J one s0) (map (nth_step state_time k fill advance h one s0) (seq 0 2)) J.
  Proof.
    intros m i A. destruct A as [|J LJ|M LM]; intros E; [lia| |lia]. exists J. split; [exact E|]. rewrite E. reflexivity.
  Qed.
  Lemma repeated_fatal : exists fuel0 s i, forall fuel, (fuel0 <= fuel)%nat ->
    solve fuel (t0 + h) (initial s0) = Done [s] i Ok /\ solve fuel (t0 + h) i = Fatal.
  Proof.
    destruct (solve_at state_time p_time k fill startup_solve advance new_state h one s0 Hh ltac:(lia) Hstart Hone Hfill Hnew Hadvance
                (initial s0) 0 (t0 + h) 1 (At_initial _ _ _ _ _ _ _ _)) as (f0 & i & S0 & A & _ & T).
    - cbn. lra.
    - replace ((t0 + h - t0) / h) with 1 by (field; lra). cbn. lra.
    - exists f0. eexists. exists i. intros fuel F. split; [apply (S0 fuel F)|].
      assert (SP : 0 < sub) by (rewrite sixteen; lra).
      destruct (at_one 1 i A eq_refl) as (J & E1 & E2). subst i. cbn [current_state] in T. rewrite (iterated_time state_time sub one Hone) in T.
      assert (J16 : J = startup_step_divisor).
      { destruct (div16 k ltac:(lia) J) as [D _]. rewrite E1 in D. apply Nat.le_antisymm; [|lia].
        apply INR_le. apply (Rmult_le_reg_r sub); [exact SP|]. rewrite sixteen in *. lra. }
      assert (TE : state_time (iterated J one s0) = t0 + h).
      { rewrite (iterated_time state_time sub one Hone), J16, sixteen. field. }
      unfold multistep_solve, started, starter_solve. cbn [previous_steps current_state].
      set (steps0 := nth_step _ _ _ _ _ _ _). cbn [seq map plus length].
      destruct (Nat.eqb_spec 2 k); [lia|]. destruct (Nat.ltb_spec 2 k); [|lia].
      rewrite Rmin_right.
      + rewrite <- TE, Hfatal. destruct (Nat.ltb _ k); reflexivity.
      + cbn [current_state previous_steps length]. rewrite TE. assert (0 <= INR (k - 2) * h) by (apply Rmult_le_pos; [apply pos_INR|lra]). lra.
  Qed.
End Repeated.

Section Stopped.
  Context {S P : Type}.
  Variables (state_time : S -> R) (p_time : P -> R) (k : nat) (fill : S -> P)
            (startup_solve : R -> nat -> R -> S -> Outcome S S)
            (advance : list P -> R -> P * Status) (new_state : list P -> S) (h : R) (s0 s1 : S) (t_final : R) (fuel : nat) (status : Status).
  Hypothesis Hk : (2 <= k)%nat.
  Hypothesis Hstop : startup_solve (h / INR startup_step_divisor) fuel (Rmin (state_time s0 + INR (k - 1) * h + h / 2) t_final) s0
                     = Done [s1] s1 status.
  Lemma stopped_ok :
    multistep_solve S P state_time p_time k fill startup_solve advance new_state h fuel t_final (initial s0)
    = Done [] (mkInstance s1 [fill s0] 1) Ok.
  Proof.
    unfold multistep_solve, started, starter_solve, initial. cbn [previous_steps current_state startup_step_index length].
    destruct (Nat.eqb_spec 0 k); [lia|]. destruct (Nat.ltb_spec 1 k); [|lia]. rewrite Hstop. cbn [fold_left].
    unfold startup_append_state. cbn [previous_steps current_state startup_step_index length].
    destruct (Nat.ltb_spec 1 k); [|lia]. change (Nat.eqb (1 mod startup_step_divisor) 0) with false. cbv iota.
    cbn [previous_steps length]. destruct (Nat.eqb_spec 1 k); [lia|reflexivity].
  Qed.
End Stopped.

Lemma direction_now : forall (S : Type) (time : S -> R) h s, direction_check S time h (time s) s = false.
Proof.
  intros. unfold direction_check. destruct (Rlt_dec h 0); destruct (Rlt_dec (time s) (time s)); try reflexivity; lra.
Qed.
Lemma explicit_repeated : forall startup m f h s0, rk_checks startup = true -> (0 < rk_stages startup)%nat -> In m explicit_methods ->
  (3 <= order m)%nat -> 0 < h -> (forall s y, fst (f s y) = Ok) ->
  exists fuel0 s i, forall fuel, (fuel0 <= fuel)%nat ->
    explicit_solve startup m f h fuel (rk_s s0 + h) (initial s0) = Done [s] i Ok /\
    explicit_solve startup m f h fuel (rk_s s0 + h) i = Fatal.
Proof.
  intros startup m f h s0 C P Hm Hk Hh O.
  assert (SP : 0 < h / INR startup_step_divisor) by (rewrite sixteen; lra).
  apply (repeated_fatal rk_s e_s (order m) (e_fill f) (fun h => rk_solve startup f h) (e_step m f h) e_new_state h
           (rk_one startup f (h / INR startup_step_divisor)) s0 Hh Hk).
  - intros. apply rk_solve_ok; try assumption. lra.
  - intros. unfold rk_solve. rewrite direction_now. reflexivity.
  - intros s. apply (rk_one_spec startup f _ s C).
  - reflexivity.
  - intros. unfold e_new_state. rewrite last_last. reflexivity.
  - intros l t. split; [|apply e_step_s]. unfold e_step. destruct (e_sums m l) as [a b].
    match goal with |- context [f ?u ?v] => specialize (O u v); destruct (f u v) as [o g] end. exact O.
Qed.
Lemma symmetric_repeated : forall startup m f h s0, srkn_checks startup = true -> (2 <= stages startup)%nat -> consistent startup ->
  In m symmetric_methods -> 0 < h -> (forall t q, fst (f t q) = Ok) ->
  exists fuel0 s i, forall fuel, (fuel0 <= fuel)%nat ->
    symmetric_solve startup m f h fuel (time s0 + h) (initial s0) = Done [s] i Ok /\
    symmetric_solve startup m f h fuel (time s0 + h) i = Fatal.
Proof.
  intros startup m f h s0 C P K Hm Hh O.
  assert (Hk : (3 <= order m)%nat) by (cbn in Hm; intuition (subst; cbn; lia)).
  assert (SP : 0 < h / INR startup_step_divisor) by (rewrite sixteen; lra).
  apply (repeated_fatal time step_time (order m) (s_fill f) (fun h => srkn_solve startup f h) (s_step m f h) (s_new_state m h) h
           (srkn_one startup f (h / INR startup_step_divisor)) s0 Hh Hk).
  - intros. apply srkn_solve_ok; try assumption. lra.
  - intros. unfold srkn_solve. rewrite direction_now. destruct (Req_EM_T _ _); reflexivity.
  - intros s. apply srkn_one_time.
  - reflexivity.
  - intros. unfold s_new_state. rewrite last_last. reflexivity.
  - intros l t. split; [|apply s_step_t]. unfold s_step. destruct (s_sums m l) as [a b].
    match goal with |- context [f ?u ?v] => specialize (O u v); destruct (f u v) as [o g] end. exact O.
Qed.

(** The equation that always asks to stop. *)
Definition always_aborted (t : R) (q : Vec) : Status * Vec := (Aborted, vzero).
Lemma symmetric_aborted : forall startup m h s0 t_final, srkn_checks startup = true -> (2 <= stages startup)%nat -> consistent startup ->
  In m symmetric_methods -> 0 < h -> time s0 + h <= t_final ->
  exists i, forall fuel, (1 <= fuel)%nat ->
    srkn_status startup always_aborted (h / INR startup_step_divisor) s0 = Aborted /\
    symmetric_solve startup m always_aborted h fuel t_final (initial s0) = Done [] i Ok.
Proof.
  intros startup m h s0 t_final C P K Hm Hh T.
  assert (Hk : (3 <= order m)%nat) by (cbn in Hm; intuition (subst; cbn; lia)).
  set (sub := h / INR startup_step_divisor).
  assert (SP : 0 < sub <= h) by (unfold sub; rewrite sixteen; lra).
  assert (St : forall g, exists s' g', srkn_iterate startup always_aborted sub s0 g = (s', g', Aborted)).
  { intros g. unfold srkn_iterate. match goal with |- context [let '(a, b) := ?x in _] => destruct x as [dq dv] end.
    assert (E : forall l acc, (1 <= length l)%nat \/ snd acc = Aborted -> snd acc = Ok \/ snd acc = Aborted ->
       snd (fold_left (srkn_stage startup always_aborted sub s0) l acc) = Aborted).
    { induction l as [|i l IH]; intros [[[a b] c] st] H1 H2; cbn in H1, H2.
      - destruct H1; [lia|assumption].
      - cbn [fold_left]. apply IH; cbn; destruct H2 as [->| ->]; cbn; tauto. }
    specialize (E (seq (first_stage startup) (stages startup - first_stage startup)) (dq, dv, g, Ok)).
    rewrite seq_length in E. cbn [snd] in E.
    assert (1 <= stages startup - first_stage startup)%nat by (unfold first_stage; destruct (composition startup); lia).
    specialize (E (or_introl H) (or_introl eq_refl)).
    destruct (fold_left _ _ _) as [[[dq' dv'] g'] st]. cbn in E. subst st. do 2 eexists. reflexivity. }
  assert (Status1 : srkn_status startup always_aborted sub s0 = Aborted).
  { unfold srkn_status. match goal with |- context [srkn_iterate _ _ _ _ ?g] => destruct (St g) as (? & ? & ->) end. reflexivity. }
  set (t := Rmin (time s0 + INR (order m - 1) * h + h / 2) t_final).
  assert (Tt : sub <= t - time s0).
  { unfold t. apply Rmin_case; [|lra]. assert (1 <= INR (order m - 1)) by (change 1 with (INR 1); apply le_INR; lia). nra. }
  assert (Run : exists s1, forall fuel, (1 <= fuel)%nat -> exists st, srkn_solve startup always_aborted sub fuel t s0 = Done [s1] s1 st).
  { set (g0 := if is_bab startup then vzero else vzero). destruct (St vzero) as (s1 & g1 & E). exists s1. intros fuel F.
    unfold srkn_solve. destruct (Req_EM_T sub 0); [lra|].
    assert (D : direction_check State time sub t s0 = true).
    { unfold direction_check. destruct (Rlt_dec sub 0); [lra|]. destruct (Rlt_dec (time s0) t); [reflexivity|lra]. }
    rewrite D. unfold always_aborted at 1. destruct fuel as [|fuel]; [lia|].
    assert (Q : Rabs sub <= Rabs (t - time s0)) by (rewrite !Rabs_pos_eq by lra; lra).
    destruct (is_bab startup); cbn [one_step_loop Update]; (destruct (Rle_dec (Rabs sub) (Rabs (t - time s0))); [|contradiction]); rewrite E; cbn;
      eexists; reflexivity. }
  destruct Run as (s1 & Run). eexists. intros fuel F. split; [exact Status1|]. destruct (Run fuel F) as (st & R).
  apply (stopped_ok time step_time (order m) (s_fill always_aborted) (fun h => srkn_solve startup always_aborted h) _ _ h s0 s1 t_final fuel st).
  - lia.
  - exact R.
Qed.
