(** The solutions computed by the multistep integrators. *)
From Coq Require Import Reals ZArith QArith Qreals List Bool Arith Lra Lia FunctionalExtensionality.
From Verif Require Import OneStep_Model Multistep_Tables Multistep_Model Multistep_Proofs Multistep_Proofs2 Multistep_Proofs3
                          OneStep_Proofs OneStep_Proofs2 OneStep_Proofs3 Multistep_Proofs4.
Import ListNotations.
Open Scope R_scope.

(** Successive calls to [Solve]: the states appended, the instance, and the first status that is not OK. *)
Fixpoint solve_all {I S : Type} (solve : R -> I -> Outcome I S) (ts : list R) (i : I) : Outcome I S :=
  match ts with
  | [] => Done [] i Ok
  | t :: ts =>
    match solve t i with
    | Done l i status =>
      match solve_all solve ts i with
      | Done l' i status' => Done (l ++ l') i (Update status status')
      | o => o
      end
    | o => o
    end
  end.
Fixpoint increasing (t : R) (ts : list R) : Prop :=
  match ts with [] => True | u :: ts => t < u /\ increasing u ts end.

Lemma last_cons : forall (l : list R) x y, last l x = last (x :: l) y.
Proof. induction l as [|z l IH]; intros x y; [reflexivity|]. change (last (z :: l) x) with (match l with [] => z | _ => last l x end).
  change (last (x :: z :: l) y) with (last (z :: l) y). destruct l; [reflexivity|]. rewrite <- (IH z y), (IH z x). reflexivity.
Qed.

Section Continuation.
  Context {S P : Type}.
  Variables (state_time : S -> R) (p_time : P -> R) (k : nat) (fill : S -> P)
            (startup_solve : R -> nat -> R -> S -> Outcome S S)
            (advance : list P -> R -> P * Status) (new_state : list P -> S) (h : R) (one : S -> S) (s0 : S).
  Notation solve := (multistep_solve S P state_time p_time k fill startup_solve advance new_state h).
  Notation sub := (h / INR startup_step_divisor).
  Notation t0 := (state_time s0).
  Hypothesis Hh : 0 < h.
  Hypothesis Hk : (2 <= k)%nat.
  Hypothesis Hstart : forall fuel t_final s N, state_time s <> t_final -> whole_steps sub (state_time s) t_final N -> (N <= fuel)%nat ->
    startup_solve sub fuel t_final s = Done (map (fun i => iterated i one s) (seq 1 N)) (iterated N one s) Ok.
  Hypothesis Hone : forall s, state_time (one s) = state_time s + sub.
  Hypothesis Hfill : forall s, p_time (fill s) = state_time s.
  Hypothesis Hnew : forall l p, state_time (new_state (l ++ [p])) = p_time p.
  Hypothesis Hadvance : forall l t, snd (advance l t) = Ok /\ p_time (fst (advance l t)) = t + h.
  Notation nth_state := (nth_state state_time k fill advance new_state h one s0).

  Lemma floor_exists : forall t, t0 <= t -> exists M, INR M <= (t - t0) / h < INR M + 1.
  Proof.
    intros t H. destruct (whole_steps_exists h t0 t) as [M [_ W]]; [|exists M; exact W].
    unfold Rdiv. apply Rmult_le_pos; [lra|]. apply Rlt_le. apply Rinv_0_lt_compat. exact Hh.
  Qed.
  Lemma solve_all_at : forall ts i m t, At state_time k fill advance new_state h one s0 m i -> state_time (current_state i) <= t ->
    t0 <= t -> INR m <= (t - t0) / h < INR m + 1 -> increasing t ts ->
    exists fuel0 M i', INR M <= (last ts t - t0) / h < INR M + 1 /\ (m <= M)%nat /\ state_time (current_state i') <= last ts t /\
      forall fuel, (fuel0 <= fuel)%nat ->
      solve_all (solve fuel) ts i = Done (map nth_state (seq (m + 1) (M - m))) i' Ok.
  Proof.
    induction ts as [|u ts IH]; intros i m t HA T T0 W Inc.
    - exists 0%nat, m, i. split; [exact W|]. split; [lia|]. split; [exact T|]. intros fuel _. rewrite Nat.sub_diag. reflexivity.
    - destruct Inc as [L Inc]. destruct (floor_exists u ltac:(lra)) as [M1 W1].
      destruct (solve_at state_time p_time k fill startup_solve advance new_state h one s0 Hh Hk Hstart Hone Hfill Hnew Hadvance
                  i m u M1 HA ltac:(lra) W1) as (f1 & i1 & S1 & A1 & M1m & T1).
      destruct (IH i1 M1 u A1 T1 ltac:(lra) W1 Inc) as (f2 & M & i' & W2 & M2 & T2 & S2).
      exists (f1 + f2)%nat, M, i'. rewrite <- (last_cons ts u t). split; [exact W2|]. split; [lia|]. split; [exact T2|].
      intros fuel F. cbn [solve_all]. rewrite S1 by lia. rewrite S2 by lia. f_equal. apply (seq_join k Hk). lia.
  Qed.
  Lemma solve_all_initial : forall ts, increasing t0 ts ->
    exists fuel0 M i', INR M <= (last ts t0 - t0) / h < INR M + 1 /\ state_time (current_state i') <= last ts t0 /\
      forall fuel, (fuel0 <= fuel)%nat -> solve_all (solve fuel) ts (initial s0) = Done (map nth_state (seq 1 M)) i' Ok.
  Proof.
    intros ts Inc. destruct (solve_all_at ts (initial s0) 0 t0) as (f & M & i' & W & _ & T & H).
    - apply At_initial.
    - cbn. lra.
    - lra.
    - replace ((t0 - t0) / h) with 0 by (field; lra). cbn. lra.
    - exact Inc.
    - exists f, M, i'. split; [exact W|]. split; [exact T|]. intros fuel F. rewrite H by exact F. rewrite Nat.sub_0_r. reflexivity.
  Qed.
End Continuation.

(** * ExplicitLinearMultistepIntegrator *)
(** The states [X] at the times t0, t0 + h, ...: the first are found by the startup method with a smaller step, the
    others satisfy the recurrence of the method. *)
Definition explicit_trajectory (startup : RK) (m : Multistep) (f : R -> Vec -> Vec) (h : R) (s0 : RKState) (X : nat -> RKState) : Prop :=
  (forall n, rk_s (X n) = rk_s s0 + INR n * h) /\
  (exists Y : nat -> RKState, Y 0%nat = s0 /\
     (forall i, rk_s (Y (S i)) = rk_s (Y i) + h / 16 /\
        exists k, runge_kutta_step startup f (h / 16) (rk_s (Y i)) (rk_y (Y i)) (rk_y (Y (S i))) k) /\
     forall n, (n < order m)%nat -> X n = Y (16 * n)%nat) /\
  (forall n d, (order m <= n)%nat ->
     sum_to (S (order m)) (fun j => Q2R (nth j (alpha m) 0%Q) * rk_y (X (n - j)%nat) d)
     = h * sum_to (S (order m)) (fun j => IZR (nth j (beta_numerator m) 0%Z) * f (rk_s (X (n - j)%nat)) (rk_y (X (n - j)%nat)) d)
         / IZR (beta_denominator m)).

Lemma rev_window : forall (A : Type) (g : nat -> A) n k i d, (i < k)%nat -> nth i (rev (map g (seq n k))) d = g (n + k - 1 - i)%nat.
Proof.
  intros A g n k i d H. rewrite rev_nth by (rewrite map_length, seq_length; exact H). rewrite map_length, seq_length.
  rewrite (nth_indep _ d (g 0%nat)) by (rewrite map_length, seq_length; lia). rewrite map_nth, seq_nth by lia. f_equal. lia.
Qed.
Lemma sixteen : INR startup_step_divisor = 16.
Proof. unfold startup_step_divisor. cbn [INR]. lra. Qed.

Lemma explicit_solution : forall startup m f h s0, rk_checks startup = true -> (0 < rk_stages startup)%nat -> In m explicit_methods ->
  0 < h -> (forall s y, fst (f s y) = Ok) ->
  exists X, explicit_trajectory startup m (rhs f) h s0 X /\
    forall ts, increasing (rk_s s0) ts ->
    exists fuel0 M i', INR M <= (last ts (rk_s s0) - rk_s s0) / h < INR M + 1 /\ forall fuel, (fuel0 <= fuel)%nat ->
      solve_all (explicit_solve startup m f h fuel) ts (initial s0) = Done (map X (seq 1 M)) i' Ok.
Proof.
  intros startup m f h s0 C P Hm Hh O.
  pose proof explicit_check as CK. rewrite forallb_forall in CK. specialize (CK m Hm).
  repeat rewrite andb_true_iff in CK. destruct CK as ((W & _) & _).
  apply well_formed_spec in W. destruct W as (_ & A0 & B0 & Dn & Hk).
  set (sub := h / INR startup_step_divisor). set (one := rk_one startup f sub).
  assert (SP : 0 < sub) by (unfold sub; rewrite sixteen; lra).
  assert (Hone : forall s, rk_s (one s) = rk_s s + sub) by (intros s; apply (rk_one_spec startup f sub s C)).
  assert (Hstart : forall fuel t_final s N, rk_s s <> t_final -> whole_steps sub (rk_s s) t_final N -> (N <= fuel)%nat ->
    rk_solve startup f sub fuel t_final s = Done (map (fun i => iterated i one s) (seq 1 N)) (iterated N one s) Ok).
  { intros. apply rk_solve_ok; try assumption. lra. }
  assert (Hfill : forall s, e_s (e_fill f s) = rk_s s) by reflexivity.
  assert (Hnew : forall l p, rk_s (e_new_state (l ++ [p])) = e_s p) by (intros; unfold e_new_state; rewrite last_last; reflexivity).
  assert (Hadv : forall l t, snd (e_step m f h l t) = Ok /\ e_s (fst (e_step m f h l t)) = t + h).
  { intros l t. split; [|apply e_step_s]. unfold e_step. destruct (e_sums m l) as [a b].
    match goal with |- context [f ?u ?v] => specialize (O u v); destruct (f u v) as [o g] end. exact O. }
  set (X := nth_state rk_s (order m) (e_fill f) (e_step m f h) e_new_state h one s0).
  set (p := nth_step rk_s (order m) (e_fill f) (e_step m f h) h one s0).
  assert (PX : forall n, X n = mkRKState (e_s (p n)) (e_y (p n))).
  { intros n. unfold X, nth_state. destruct (Nat.ltb_spec n (order m)) as [L|L].
    - unfold p. rewrite nth_step_start by assumption. cbn [e_fill e_s e_y]. destruct (iterated _ one s0); reflexivity.
    - unfold e_new_state. destruct (last_map _ Hk _ p (n + 1 - order m) (order m) e_default ltac:(lia)) as (l & _ & E). fold p. rewrite E.
      replace (n + 1 - order m + order m - 1)%nat with n by lia. reflexivity. }
  assert (PD : forall n, e_yd (p n) = rhs f (e_s (p n)) (e_y (p n))).
  { intros n. destruct (Nat.lt_ge_cases n (order m)) as [L|L].
    - unfold p. rewrite nth_step_start by assumption. reflexivity.
    - replace n with (order m + (n - order m))%nat by lia. unfold p. rewrite nth_step_next by assumption. rewrite e_step_yd, e_step_s. reflexivity. }
  exists X. split.
  - split; [|split].
    + intros n. unfold X. apply (nth_state_time rk_s e_s); assumption.
    + exists (fun i => iterated i one s0). split; [reflexivity|]. split.
      * intros i. rewrite iterated_S. destruct (rk_one_spec startup f sub (iterated i one s0) C) as [E1 E2].
        replace (h / 16) with sub by (unfold sub; rewrite sixteen; reflexivity). split; [exact E1|exact E2].
      * intros n L. unfold X, nth_state. destruct (Nat.ltb_spec n (order m)); [reflexivity|lia].
    + intros n d L.
      assert (E : e_y (p n) d = - sum_to (order m) (fun i => alpha_ m (S i) * rk_y (X (n - S i)%nat) d)
        + h * sum_to (order m) (fun i => beta_numerator_ m (S i) * rhs f (rk_s (X (n - S i)%nat)) (rk_y (X (n - S i)%nat)) d) / beta_denominator_ m).
      { replace n with (order m + (n - order m))%nat at 1 by lia. unfold p at 1. rewrite nth_step_next, e_step_y by assumption. fold p.
        rewrite (sum_to_ext (order m) (fun i => alpha_ m (S i) * e_y _ d) (fun i => alpha_ m (S i) * rk_y (X (n - S i)%nat) d)).
        - rewrite (sum_to_ext (order m) (fun i => beta_numerator_ m (S i) * e_yd _ d)
            (fun i => beta_numerator_ m (S i) * rhs f (rk_s (X (n - S i)%nat)) (rk_y (X (n - S i)%nat)) d)); [reflexivity|].
          intros i Hi. rewrite rev_window by exact Hi. rewrite PD, PX. cbn [rk_s rk_y].
          replace (n - order m + order m - 1 - i)%nat with (n - S i)%nat by lia. reflexivity.
        - intros i Hi. rewrite rev_window by exact Hi. rewrite PX. cbn [rk_y].
          replace (n - order m + order m - 1 - i)%nat with (n - S i)%nat by lia. reflexivity. }
      rewrite !sum_to_S. unfold e_alpha in A0. unfold e_beta in B0. rewrite A0, B0, Nat.sub_0_r.
      replace (rk_y (X n) d) with (e_y (p n) d) by (rewrite PX; reflexivity). rewrite E.
      unfold alpha_, beta_numerator_, beta_denominator_ in *.
      set (u := sum_to _ (fun i => Q2R _ * _)). set (v := sum_to _ (fun i => IZR _ * _)). field. exact Dn.
  - intros ts Inc.
    destruct (solve_all_initial rk_s e_s (order m) (e_fill f) (fun h => rk_solve startup f h) (e_step m f h) e_new_state h one s0
                Hh Hk Hstart Hone Hfill Hnew Hadv ts Inc) as (f0 & M & i' & W & _ & H).
    exists f0, M, i'. split; [exact W|exact H].
Qed.

(** * SymmetricLinearMultistepIntegrator *)
Definition symmetric_trajectory (startup : SRKN) (m : Multistep) (f : R -> Vec -> Vec) (h : R) (s0 : State) (X : nat -> State) : Prop :=
  let k := order m in
  let c := nth (k - 1) CohenHubbardOesterwinterOrder (mkCoefficients [] 0%Z) in
  let a n := f (time (X n)) (positions (X n)) in
  (forall n, time (X n) = time s0 + INR n * h) /\
  (exists Y : nat -> State, Y 0%nat = s0 /\ (forall i, Y (S i) = run f (ops startup (h / 16)) (Y i)) /\
     forall n, (n < k)%nat -> X n = Y (16 * n)%nat) /\
  (forall n d, (k <= n)%nat ->
     sum_to (S k) (fun j => Q2R (nth (Nat.min j (k - j)) (alpha m) 0%Q) * positions (X (n - j)%nat) d)
     = h * h * sum_to (S k) (fun j => IZR (nth (Nat.min j (k - j)) (beta_numerator m) 0%Z) * a (n - j)%nat d)
         / IZR (beta_denominator m)) /\
  (forall n d, (k <= n)%nat ->
     velocities (X n) d = (positions (X n) d - positions (X (n - 1)%nat) d) / h
       + h * sum_to k (fun i => IZR (nth i (numerators c) 0%Z) * a (n - i)%nat d) / IZR (denominator c)).

Lemma symmetric_solution : forall startup m f h s0, srkn_checks startup = true -> (2 <= stages startup)%nat -> consistent startup ->
  In m symmetric_methods -> 0 < h -> (forall t q, fst (f t q) = Ok) ->
  exists X, symmetric_trajectory startup m (field f) h s0 X /\
    forall ts, increasing (time s0) ts ->
    exists fuel0 M i', INR M <= (last ts (time s0) - time s0) / h < INR M + 1 /\ forall fuel, (fuel0 <= fuel)%nat ->
      solve_all (symmetric_solve startup m f h fuel) ts (initial s0) = Done (map X (seq 1 M)) i' Ok.
Proof.
  intros startup m f h s0 C P K Hm Hh O.
  destruct (symmetric_spec m Hm) as (_ & A0 & B0 & Dn & (Hk & Hk15) & Ev & _ & _).
  set (sub := h / INR startup_step_divisor). set (one := srkn_one startup f sub).
  assert (SP : 0 < sub) by (unfold sub; rewrite sixteen; lra).
  assert (Hone : forall s, time (one s) = time s + sub) by (intros s; apply srkn_one_time).
  assert (Hstart : forall fuel t_final s N, time s <> t_final -> whole_steps sub (time s) t_final N -> (N <= fuel)%nat ->
    srkn_solve startup f sub fuel t_final s = Done (map (fun i => iterated i one s) (seq 1 N)) (iterated N one s) Ok).
  { intros. apply srkn_solve_ok; try assumption. lra. }
  assert (Hfill : forall s, step_time (s_fill f s) = time s) by reflexivity.
  assert (Hnew : forall l p, time (s_new_state m h (l ++ [p])) = step_time p)
    by (intros; unfold s_new_state; rewrite last_last; reflexivity).
  assert (Hadv : forall l t, snd (s_step m f h l t) = Ok /\ step_time (fst (s_step m f h l t)) = t + h).
  { intros l t. split; [|apply s_step_t]. unfold s_step. destruct (s_sums m l) as [a b].
    match goal with |- context [f ?u ?v] => specialize (O u v); destruct (f u v) as [o g] end. exact O. }
  set (X := nth_state time (order m) (s_fill f) (s_step m f h) (s_new_state m h) h one s0).
  set (p := nth_step time (order m) (s_fill f) (s_step m f h) h one s0).
  assert (PX : forall n, time (X n) = step_time (p n) /\ positions (X n) = displacements (p n)).
  { intros n. unfold X, nth_state. destruct (Nat.ltb_spec n (order m)) as [L|L].
    - unfold p. rewrite nth_step_start by assumption. split; reflexivity.
    - unfold s_new_state. destruct (last_map _ Hk _ p (n + 1 - order m) (order m) default_step ltac:(lia)) as (l & _ & E). fold p. rewrite E.
      replace (n + 1 - order m + order m - 1)%nat with n by lia. split; reflexivity. }
  assert (PD : forall n, accelerations (p n) = field f (time (X n)) (positions (X n))).
  { intros n. destruct (PX n) as [-> ->]. destruct (Nat.lt_ge_cases n (order m)) as [L|L].
    - unfold p. rewrite nth_step_start by assumption. reflexivity.
    - replace n with (order m + (n - order m))%nat by lia. unfold p. rewrite nth_step_next by assumption. rewrite s_step_a, s_step_t. reflexivity. }
  exists X. split.
  - split; [|split; [|split]].
    + intros n. unfold X. apply (nth_state_time time step_time); assumption.
    + exists (fun i => iterated i one s0). split; [reflexivity|]. split.
      * intros i. rewrite iterated_S. unfold one at 1. rewrite srkn_one_spec by assumption.
        replace (h / 16) with sub by (unfold sub; rewrite sixteen; reflexivity). reflexivity.
      * intros n L. unfold X, nth_state. destruct (Nat.ltb_spec n (order m)); [reflexivity|lia].
    + intros n d L.
      assert (E : displacements (p n) d
        = - sum_to (order m) (fun j => Q2R (s_alpha m j) * positions (X (n - order m + j)%nat) d)
          + h * h * sum_to (order m) (fun j => IZR (s_beta m j)
               * field f (time (X (n - order m + j)%nat)) (positions (X (n - order m + j)%nat)) d) / beta_denominator_ m).
      { replace n with (order m + (n - order m))%nat at 1 by lia. unfold p at 1. rewrite nth_step_next by assumption.
        rewrite s_step_q by (try assumption; try lia; rewrite map_length, seq_length; reflexivity). fold p.
        assert (NN : forall j, (j < order m)%nat -> nth j (map p (seq (n - order m) (order m))) default_step = p (n - order m + j)%nat).
        { intros j Hj. rewrite (nth_indep _ default_step (p 0%nat)) by (rewrite map_length, seq_length; exact Hj).
          rewrite map_nth, seq_nth by exact Hj. reflexivity. }
        rewrite (sum_to_ext (order m) (fun j => Q2R (s_alpha m j) * displacements _ d)
                   (fun j => Q2R (s_alpha m j) * positions (X (n - order m + j)%nat) d))
          by (intros j Hj; rewrite NN by exact Hj; destruct (PX (n - order m + j)%nat) as [_ ->]; reflexivity).
        rewrite (sum_to_ext (order m) (fun j => IZR (s_beta m j) * accelerations _ d)
                   (fun j => IZR (s_beta m j) * field f (time (X (n - order m + j)%nat)) (positions (X (n - order m + j)%nat)) d))
          by (intros j Hj; rewrite NN, PD by exact Hj; reflexivity). reflexivity. }
      destruct (PX n) as [_ PXn].
      rewrite (sum_to_rev (S (order m)) (fun j => Q2R _ * _)), (sum_to_rev (S (order m)) (fun j => IZR _ * _)).
      rewrite !sum_to_last.
      rewrite (sum_to_ext (order m) (fun i => Q2R _ * _) (fun j => Q2R (s_alpha m j) * positions (X (n - order m + j)%nat) d)).
      2:{ intros j Hj. unfold s_alpha. replace (n - (S (order m) - 1 - j))%nat with (n - order m + j)%nat by lia.
          replace (Nat.min (S (order m) - 1 - j) (order m - (S (order m) - 1 - j))) with (Nat.min j (order m - j)) by lia. reflexivity. }
      rewrite (sum_to_ext (order m) (fun i => IZR _ * _) (fun j => IZR (s_beta m j)
                * field f (time (X (n - order m + j)%nat)) (positions (X (n - order m + j)%nat)) d)).
      2:{ intros j Hj. unfold s_beta. replace (n - (S (order m) - 1 - j))%nat with (n - order m + j)%nat by lia.
          replace (Nat.min (S (order m) - 1 - j) (order m - (S (order m) - 1 - j))) with (Nat.min j (order m - j)) by lia. reflexivity. }
      replace (S (order m) - 1 - order m)%nat with 0%nat by lia.
      replace (Nat.min 0 (order m - 0)) with 0%nat by lia. unfold s_alpha in A0. unfold s_beta in B0.
      replace (Nat.min 0 (order m - 0)) with 0%nat in A0, B0 by lia. rewrite A0, B0, Nat.sub_0_r, PXn, E.
      unfold beta_denominator_ in *.
      set (u := sum_to _ (fun i => Q2R _ * _)). set (v := sum_to _ (fun i => IZR _ * _)). field. exact Dn.
    + intros n d L.
      assert (V : velocities (X n) d = ComputeVelocity m h (map p (seq (n + 1 - order m) (order m))) d).
      { unfold X, nth_state. destruct (Nat.ltb_spec n (order m)); [lia|]. reflexivity. }
      rewrite V. unfold ComputeVelocity. rewrite fold_sum. fold (cho m).
      destruct (cohen_hubbard_oesterwinter (order m) ltac:(lia)) as (c & Ec & Ln & _).
      assert (Ec' : cho m = c) by (unfold cho; apply nth_error_nth; exact Ec). rewrite Ec', Ln.
      rewrite !rev_window by lia. destruct (PX n) as [_ Pn]. destruct (PX (n - 1)%nat) as [_ Pn1]. rewrite Pn, Pn1.
      replace (n + 1 - order m + order m - 1 - 0)%nat with n by lia.
      replace (n + 1 - order m + order m - 1 - 1)%nat with (n - 1)%nat by lia.
      rewrite (sum_to_ext (order m) (fun i => IZR (nth (0 + i) _ _) * _)
                 (fun i => IZR (nth i (numerators c) 0%Z) * field f (time (X (n - i)%nat)) (positions (X (n - i)%nat)) d)).
      * set (u := sum_to _ _). unfold Rdiv. ring.
      * intros i Hi. cbn [plus]. rewrite rev_window by exact Hi. replace (n + 1 - order m + order m - 1 - i)%nat with (n - i)%nat by lia.
        rewrite PD. reflexivity.
  - intros ts Inc.
    destruct (solve_all_initial time step_time (order m) (s_fill f) (fun h => srkn_solve startup f h) (s_step m f h) (s_new_state m h) h one s0
                Hh Hk Hstart Hone Hfill Hnew Hadv ts Inc) as (f0 & M & i' & W & _ & H).
    exists f0, M, i'. split; [exact W|exact H].
Qed.
