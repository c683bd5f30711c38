(** The instances of the multistep integrators: startup, steps and continuation. *)
From Coq Require Import Reals ZArith QArith Qreals List Bool Arith Lra Lia FunctionalExtensionality.
From Verif Require Import OneStep_Model Multistep_Tables Multistep_Model Multistep_Proofs Multistep_Proofs2 Multistep_Proofs3
                          OneStep_Proofs OneStep_Proofs2 OneStep_Proofs3.
Import ListNotations.
Open Scope R_scope.

Section Generic.
  Context {S P : Type}.
  Variables (state_time : S -> R) (p_time : P -> R) (k : nat) (fill : S -> P)
            (startup_solve : R -> nat -> R -> S -> Outcome S S)
            (advance : list P -> R -> P * Status) (new_state : list P -> S) (h : R) (one : S -> S) (s0 : S).
  Notation solve := (multistep_solve S P state_time p_time k fill startup_solve advance new_state h).
  Notation sub := (h / INR startup_step_divisor).
  Notation t0 := (state_time s0).
  Hypothesis Hh : 0 < h.
  Hypothesis Hk : (2 <= k)%nat.
  (** The startup integrator. *)
  Hypothesis Hstart : forall fuel t_final s N, state_time s <> t_final -> whole_steps sub (state_time s) t_final N -> (N <= fuel)%nat ->
    startup_solve sub fuel t_final s = Done (map (fun i => iterated i one s) (seq 1 N)) (iterated N one s) Ok.
  Hypothesis Hone : forall s, state_time (one s) = state_time s + sub.
  Hypothesis Hfill : forall s, p_time (fill s) = state_time s.
  Hypothesis Hnew : forall l p, state_time (new_state (l ++ [p])) = p_time p.
  Hypothesis Hadvance : forall l t, snd (advance l t) = Ok /\ p_time (fst (advance l t)) = t + h.

  (** The steps computed: the first [k] by the startup integrator, the others by the multistep method. *)
  Definition window (steps : list P) : list P := skipn (length steps - k) steps.
  Fixpoint all_steps (n : nat) : list P :=
    match n with
    | O => map (fun i => fill (iterated (startup_step_divisor * i) one s0)) (seq 0 k)
    | Datatypes.S n => let l := all_steps n in l ++ [fst (advance (window l) (t0 + INR (length l - 1) * h))]
    end.
  Lemma all_steps_length : forall n, length (all_steps n) = (k + n)%nat.
  Proof.
    induction n as [|n IH]; cbn [all_steps]; [rewrite map_length, seq_length; lia|]. cbv zeta. rewrite app_length, IH. cbn. lia.
  Qed.
  Definition nth_step (n : nat) : P := nth n (all_steps (n + 1 - k)) (fill s0).
  Lemma all_steps_nth : forall m n, (n < k + m)%nat -> nth n (all_steps m) (fill s0) = nth_step n.
  Proof.
    intros m n H. unfold nth_step.
    assert (E : forall j i, nth n (all_steps (n + 1 - k + j)) (fill s0) = nth n (all_steps (n + 1 - k)) (fill s0) \/ i = n).
    { induction j as [|j IH]; intros i; [left; rewrite Nat.add_0_r; reflexivity|]. left.
      replace (n + 1 - k + Datatypes.S j)%nat with (Datatypes.S (n + 1 - k + j)) by lia. cbn [all_steps]. cbv zeta.
      rewrite app_nth1 by (rewrite all_steps_length; lia). destruct (IH (Datatypes.S n)) as [E|E]; [exact E|lia]. }
    destruct (E (m - (n + 1 - k))%nat (Datatypes.S n)) as [E1|E1]; [|lia].
    replace (n + 1 - k + (m - (n + 1 - k)))%nat with m in E1 by lia. exact E1.
  Qed.
  Lemma list_nth_map : forall (A : Type) (l : list A) d, l = map (fun i => nth i l d) (seq 0 (length l)).
  Proof.
    intros A l d. induction l as [|x l IH]; [reflexivity|]. cbn [length seq map nth]. f_equal.
    rewrite <- seq_shift, map_map. exact IH.
  Qed.
  Lemma all_steps_map : forall m, all_steps m = map nth_step (seq 0 (k + m)).
  Proof.
    intros m. rewrite (list_nth_map _ (all_steps m) (fill s0)), all_steps_length. apply map_ext_in. intros i Hi.
    rewrite in_seq in Hi. apply all_steps_nth. lia.
  Qed.
  Lemma skipn_seq : forall j n s, skipn j (seq s n) = seq (s + j) (n - j).
  Proof.
    induction j as [|j IH]; intros n s; [rewrite Nat.add_0_r, Nat.sub_0_r; reflexivity|].
    destruct n as [|n]; [reflexivity|]. cbn [seq skipn]. rewrite IH. f_equal; lia.
  Qed.
  Lemma window_map : forall m, window (all_steps m) = map nth_step (seq m k).
  Proof.
    intros m. unfold window. rewrite all_steps_length, all_steps_map, skipn_map, skipn_seq. f_equal. f_equal; lia.
  Qed.
  Lemma nth_step_start : forall n, (n < k)%nat -> nth_step n = fill (iterated (startup_step_divisor * n) one s0).
  Proof.
    intros n H. unfold nth_step. replace (n + 1 - k)%nat with 0%nat by lia. cbn [all_steps].
    rewrite (nth_indep _ (fill s0) (fill (iterated (startup_step_divisor * 0) one s0))) by (rewrite map_length, seq_length; exact H).
    rewrite (map_nth (fun i => fill (iterated (startup_step_divisor * i) one s0))), seq_nth by exact H. reflexivity.
  Qed.
  Lemma nth_step_next : forall n, nth_step (k + n) = fst (advance (map nth_step (seq n k)) (t0 + INR (k + n - 1) * h)).
  Proof.
    intros n. rewrite <- (all_steps_nth (Datatypes.S n)) by lia. cbn [all_steps]. cbv zeta.
    rewrite app_nth2 by (rewrite all_steps_length; lia). rewrite all_steps_length, Nat.sub_diag. cbn [nth].
    rewrite window_map. reflexivity.
  Qed.
  (** The states given to [append_state]. *)
  Definition nth_state (n : nat) : S :=
    if Nat.ltb n k then iterated (startup_step_divisor * n) one s0 else new_state (map nth_step (seq (n + 1 - k) k)).
  Lemma sub16 : INR startup_step_divisor * sub = h.
  Proof. unfold startup_step_divisor. cbn [INR]. field. Qed.
  Lemma sub16_n : forall n, INR (startup_step_divisor * n) * sub = INR n * h.
  Proof. intros n. rewrite mult_INR, (Rmult_comm _ (INR n)), Rmult_assoc, sub16. reflexivity. Qed.
  Lemma sub_pos : 0 < sub.
  Proof. unfold startup_step_divisor. cbn [INR]. lra. Qed.
  Lemma one_time : forall n, state_time (iterated n one s0) = t0 + INR n * sub.
  Proof. intros n. apply iterated_time. exact Hone. Qed.
  Lemma nth_step_time : forall n, p_time (nth_step n) = t0 + INR n * h.
  Proof.
    intros n. destruct (Nat.lt_ge_cases n k) as [H|H].
    - rewrite nth_step_start, Hfill, one_time, sub16_n by exact H. ring.
    - replace n with (k + (n - k))%nat at 1 by lia. rewrite nth_step_next. destruct (Hadvance (map nth_step (seq (n - k) k)) (t0 + INR (k + (n - k) - 1) * h)) as [_ ->].
      replace (k + (n - k) - 1)%nat with (n - 1)%nat by lia. rewrite minus_INR by lia. cbn [INR]. ring.
  Qed.

  (** * The states of an instance *)
  (** After [J] steps of the startup integrator; after [M] steps of the multistep method. *)
  Notation before J := (mkInstance (iterated J one s0) (map nth_step (seq 0 (J / startup_step_divisor + 1))) J).
  Notation after M := (mkInstance (nth_state M) (map nth_step (seq (M + 1 - k) k)) (startup_step_divisor * (k - 1))).
  Inductive At : nat -> Instance S P -> Prop :=
  | At_initial : At 0 (initial s0)
  | At_startup J : (J < startup_step_divisor * (k - 1))%nat -> At (J / startup_step_divisor) (before J)
  | At_started M : (k - 1 <= M)%nat -> At M (after M).

  Lemma div16 : forall J, (startup_step_divisor * (J / startup_step_divisor) <= J < startup_step_divisor * (J / startup_step_divisor) + startup_step_divisor)%nat.
  Proof.
    intros J. assert (startup_step_divisor <> 0)%nat by (unfold startup_step_divisor; lia).
    pose proof (Nat.div_mod J startup_step_divisor H). pose proof (Nat.mod_upper_bound J startup_step_divisor H). lia.
  Qed.
  Lemma div16_eq : forall J q, (startup_step_divisor * q <= J < startup_step_divisor * q + startup_step_divisor)%nat -> (J / startup_step_divisor = q)%nat.
  Proof. intros J q H. symmetry. apply (Nat.div_unique J startup_step_divisor q (J - startup_step_divisor * q)); lia. Qed.
  Notation fold_startup := (fold_left (startup_append_state S P k fill)).
  Notation last_startup := (startup_step_divisor * (k - 1))%nat.
  Lemma fold_done : forall l i acc, (length (previous_steps i) >= k)%nat -> fold_startup l (i, acc) = (i, acc).
  Proof.
    induction l as [|s l IH]; intros i acc H; [reflexivity|]. cbn [fold_left startup_append_state].
    destruct (Nat.ltb_spec (length (previous_steps i)) k); [lia|]. apply IH. exact H.
  Qed.
  Lemma mod_div : forall J, ((Datatypes.S J) mod startup_step_divisor = 0 -> (Datatypes.S J / startup_step_divisor = J / startup_step_divisor + 1)%nat
                                        /\ Datatypes.S J = (startup_step_divisor * (J / startup_step_divisor + 1))%nat)%nat
                         /\ ((Datatypes.S J) mod startup_step_divisor <> 0 -> (Datatypes.S J / startup_step_divisor = J / startup_step_divisor)%nat)%nat.
  Proof.
    intros J. assert (D : (startup_step_divisor <> 0)%nat) by (unfold startup_step_divisor; lia).
    pose proof (div16 J) as A. pose proof (Nat.div_mod (Datatypes.S J) startup_step_divisor D) as B.
    pose proof (Nat.mod_upper_bound (Datatypes.S J) startup_step_divisor D) as C.
    set (q := (J / startup_step_divisor)%nat) in *. set (q' := (Datatypes.S J / startup_step_divisor)%nat) in *. set (r := (Datatypes.S J mod startup_step_divisor)%nat) in *.
    clearbody q q' r. unfold startup_step_divisor in *. lia.
  Qed.
  Lemma fold_startup_spec : forall n J acc, (J <= last_startup)%nat ->
    let J' := Nat.min (J + n) last_startup in
    fold_startup (map (fun i => iterated i one s0) (seq (Datatypes.S J) n)) (before J, acc)
    = (before J', acc ++ map nth_state (seq (J / startup_step_divisor + 1) (J' / startup_step_divisor - J / startup_step_divisor))).
  Proof.
    induction n as [|n IH]; intros J acc L J'.
    - subst J'. replace (Nat.min (J + 0) last_startup) with J by lia. rewrite Nat.sub_diag. cbn [seq map fold_left]. rewrite app_nil_r. reflexivity.
    - destruct (Nat.eq_dec J last_startup) as [E|E].
      + rewrite fold_done.
        * subst J'. replace (Nat.min (J + Datatypes.S n) last_startup) with J by lia. rewrite Nat.sub_diag. cbn [seq map]. rewrite app_nil_r. reflexivity.
        * cbn [previous_steps]. rewrite map_length, seq_length. subst J. rewrite Nat.mul_comm, Nat.div_mul by (unfold startup_step_divisor; lia). lia.
      + assert (L2 : (J / startup_step_divisor + 1 < k)%nat).
        { pose proof (div16 J). set (q := (J / startup_step_divisor)%nat) in *. clearbody q. unfold startup_step_divisor in *. lia. }
        cbn [seq map fold_left startup_append_state previous_steps startup_step_index].
        rewrite map_length, seq_length.
        destruct (Nat.ltb_spec (J / startup_step_divisor + 1) k); [|lia].
        destruct (mod_div J) as [M1 M2].
        assert (EJ : Nat.min (Datatypes.S J + n) last_startup = J') by (subst J'; lia).
        assert (MON : (Datatypes.S J / startup_step_divisor <= J' / startup_step_divisor)%nat) by (rewrite <- EJ; apply Nat.div_le_mono; unfold startup_step_divisor in *; lia).
        destruct (Nat.eqb_spec (Datatypes.S J mod startup_step_divisor) 0) as [Q|Q].
        * destruct (M1 Q) as [Q1 Q2]. specialize (IH (Datatypes.S J) (acc ++ [iterated (Datatypes.S J) one s0]) ltac:(lia)).
          cbv zeta in IH. rewrite EJ in IH. rewrite Q1 in IH.
          replace (map nth_step (seq 0 (J / startup_step_divisor + 1)) ++ [fill (iterated (Datatypes.S J) one s0)])
            with (map nth_step (seq 0 (J / startup_step_divisor + 1 + 1))).
          -- rewrite IH. f_equal. rewrite <- app_assoc. f_equal.
             replace (J' / startup_step_divisor - J / startup_step_divisor)%nat with (Datatypes.S (J' / startup_step_divisor - (J / startup_step_divisor + 1))) by (rewrite <- Q1; lia).
             cbn [seq map]. replace (Datatypes.S (J / startup_step_divisor + 1)) with (J / startup_step_divisor + 1 + 1)%nat by lia.
             cbn [app]. f_equal. unfold nth_state. destruct (Nat.ltb_spec (J / startup_step_divisor + 1) k); [|lia]. rewrite <- Q2. reflexivity.
          -- rewrite (Nat.add_comm (J / startup_step_divisor + 1) 1) at 1. rewrite Nat.add_1_l, seq_S, map_app. f_equal. cbn [map plus]. f_equal.
             rewrite nth_step_start by lia. rewrite <- Q2. reflexivity.
        * specialize (M2 Q). specialize (IH (Datatypes.S J) acc ltac:(lia)). cbv zeta in IH. rewrite EJ in IH. rewrite M2 in IH. exact IH.
  Qed.

  (** * The loop *)
  Lemma last_map : forall (A : Type) (g : nat -> A) s n d, (0 < n)%nat -> exists l, rev (map g (seq s n)) = g (s + n - 1)%nat :: l /\ last (map g (seq s n)) d = g (s + n - 1)%nat.
  Proof.
    intros A g s n d H. destruct n as [|n]; [lia|]. rewrite seq_S, map_app, rev_app_distr. cbn [map rev app].
    replace (s + Datatypes.S n - 1)%nat with (s + n)%nat by lia. exists (rev (map g (seq s n))). split; [reflexivity|]. apply last_last.
  Qed.
  Lemma push_map : forall M, (k - 1 <= M)%nat ->
    Push (map nth_step (seq (M + 1 - k) k)) (nth_step (Datatypes.S M)) = map nth_step (seq (Datatypes.S M + 1 - k) k).
  Proof.
    intros M H. unfold Push. replace (map nth_step (seq (M + 1 - k) k) ++ [nth_step (Datatypes.S M)]) with (map nth_step (seq (M + 1 - k) (Datatypes.S k))).
    - cbn [seq map tl]. f_equal. f_equal. lia.
    - rewrite seq_S, map_app. cbn [map]. do 3 f_equal. lia.
  Qed.
  Lemma loop_spec : forall N fuel t_final M, (k - 1 <= M)%nat -> (N <= fuel)%nat ->
    (INR N <= (t_final - (t0 + INR M * h)) / h \/ N = 0%nat) -> (t_final - (t0 + INR M * h)) / h < INR N + 1 ->
    multistep_loop S P advance new_state h fuel t_final (after M) (t0 + INR M * h) Ok
    = Done (map nth_state (seq (M + 1) N)) (after (M + N)) Ok.
  Proof.
    assert (X : forall x, h <= x <-> 1 <= x / h).
    { intros x. split; intros H1.
      - apply (Rmult_le_reg_r h); [exact Hh|]. replace (x / h * h) with x by (field; lra). lra.
      - replace x with (x / h * h) by (field; lra). replace h with (1 * h) at 1 by ring. apply Rmult_le_compat_r; lra. }
    induction N as [|N IH]; intros fuel t_final M HM F W1 W2.
    - cbn [INR] in W2. rewrite Nat.add_0_r.
      destruct fuel; cbn [multistep_loop]; (destruct (Rle_dec h (t_final - (t0 + INR M * h))) as [Q|Q]; [apply X in Q; lra|reflexivity]).
    - destruct W1 as [W1|W1]; [|discriminate]. destruct fuel as [|fuel]; [lia|]. cbn [multistep_loop].
      destruct (Rle_dec h (t_final - (t0 + INR M * h))) as [Q|Q].
      2:{ exfalso. apply Q. apply X. apply Rle_trans with (2 := W1). apply (le_INR 1). lia. }
      cbn [previous_steps startup_step_index].
      assert (A : fst (advance (map nth_step (seq (M + 1 - k) k)) (t0 + INR M * h)) = nth_step (Datatypes.S M)).
      { replace (Datatypes.S M) with (k + (M + 1 - k))%nat at 1 by lia. rewrite nth_step_next. do 3 f_equal. do 2 f_equal. lia. }
      destruct (Hadvance (map nth_step (seq (M + 1 - k) k)) (t0 + INR M * h)) as [A2 _].
      destruct (advance (map nth_step (seq (M + 1 - k) k)) (t0 + INR M * h)) as [p st]. cbn [fst snd] in A, A2. subst p st.
      cbn [Update IsAborted]. rewrite push_map by exact HM.
      assert (NS : new_state (map nth_step (seq (Datatypes.S M + 1 - k) k)) = nth_state (Datatypes.S M)).
      { unfold nth_state. destruct (Nat.ltb_spec (Datatypes.S M) k); [lia|reflexivity]. }
      rewrite NS.
      replace (t0 + INR M * h + h) with (t0 + INR (Datatypes.S M) * h) by (rewrite S_INR; ring).
      assert (Y : (t_final - (t0 + INR (Datatypes.S M) * h)) / h = (t_final - (t0 + INR M * h)) / h - 1)
        by (rewrite S_INR; field; lra).
      rewrite (IH fuel t_final (Datatypes.S M)); [|lia|lia| |].
      + f_equal.
        * cbn [seq map]. rewrite (Nat.add_1_r M). replace (Datatypes.S M + 1)%nat with (Datatypes.S (Datatypes.S M)) by lia. reflexivity.
        * replace (Datatypes.S M + N)%nat with (M + Datatypes.S N)%nat by lia. reflexivity.
      + left. rewrite Y. rewrite S_INR in W1. lra.
      + rewrite Y. rewrite S_INR in W2. lra.
  Qed.

  (** * Solve *)
  Lemma after_startup : before last_startup = after (k - 1).
  Proof.
    f_equal.
    - unfold nth_state. destruct (Nat.ltb_spec (k - 1) k); [reflexivity|lia].
    - rewrite Nat.mul_comm, Nat.div_mul by (unfold startup_step_divisor; lia). f_equal. f_equal; lia.
  Qed.
  Lemma started_after : forall M, (k - 1 <= M)%nat -> started S P k (after M) = true.
  Proof. intros M H. unfold started. cbn [previous_steps]. rewrite map_length, seq_length. apply Nat.eqb_refl. Qed.
  Lemma solve_started : forall fuel t_final M N, (k - 1 <= M)%nat -> (N <= fuel)%nat ->
    (INR N <= (t_final - (t0 + INR M * h)) / h \/ N = 0%nat) -> (t_final - (t0 + INR M * h)) / h < INR N + 1 ->
    solve fuel t_final (after M) = Done (map nth_state (seq (M + 1) N)) (after (M + N)) Ok.
  Proof.
    intros fuel t_final M N HM F W1 W2. unfold multistep_solve. rewrite started_after by exact HM. cbv iota beta.
    rewrite started_after by exact HM. destruct (Rlt_dec 0 h) as [_|]; [|contradiction]. cbn [previous_steps].
    destruct (last_map _ nth_step (M + 1 - k) k (fill s0) ltac:(lia)) as (l & -> & _).
    replace (M + 1 - k + k - 1)%nat with M by lia. rewrite nth_step_time, (loop_spec N) by assumption. reflexivity.
  Qed.
  Lemma startup_fold : forall fuel t_final J N, (J < last_startup)%nat ->
    let target := Rmin (t0 + INR J * sub + INR (k - (J / startup_step_divisor + 1)) * h + h / 2) t_final in
    t0 + INR J * sub < t_final -> whole_steps sub (t0 + INR J * sub) target N -> (N <= fuel)%nat ->
    forall i, (i = before J \/ (J = 0%nat /\ i = initial s0)) ->
    starter_solve S P state_time k fill startup_solve h fuel t_final i
    = Done (map nth_state (seq (J / startup_step_divisor + 1) (Nat.min (J + N) last_startup / startup_step_divisor - J / startup_step_divisor)))
           (before (Nat.min (J + N) last_startup)) Ok.
  Proof.
    intros fuel t_final J N L target T W F i Hi. unfold starter_solve.
    replace (match previous_steps i with
             | [] => mkInstance (current_state i) [fill (current_state i)] (startup_step_index i)
             | _ :: _ => i end) with (before J).
    2:{ destruct Hi as [->|[-> ->]].
        - cbn [previous_steps]. rewrite Nat.add_1_r. reflexivity.
        - cbn [initial previous_steps current_state startup_step_index]. f_equal. change (0 / startup_step_divisor + 1)%nat with 1%nat. cbn [seq map].
          rewrite nth_step_start by lia. reflexivity. }
    cbn [previous_steps current_state]. rewrite map_length, seq_length.
    assert (L2 : (J / startup_step_divisor + 1 < k)%nat).
    { pose proof (div16 J). set (q := (J / startup_step_divisor)%nat) in *. clearbody q. unfold startup_step_divisor in *. lia. }
    destruct (Nat.ltb_spec (J / startup_step_divisor + 1) k); [|lia]. cbv zeta. rewrite one_time. fold target.
    rewrite (Hstart fuel target (iterated J one s0) N); [| |rewrite one_time; exact W|exact F].
    - replace (map (fun i0 => iterated i0 one (iterated J one s0)) (seq 1 N)) with (map (fun i => iterated i one s0) (seq (Datatypes.S J) N)).
      + pose proof (fold_startup_spec N J [] ltac:(lia)) as E. cbv zeta in E. rewrite E. reflexivity.
      + rewrite <- (Nat.add_1_r J). generalize 1%nat. clear. induction N as [|N IH]; intros j; [reflexivity|]. cbn [seq map]. rewrite iterated_plus. f_equal.
        rewrite <- IH. do 2 f_equal. lia.
    - rewrite one_time. unfold target. apply Rlt_not_eq. apply Rmin_glb_lt; [|exact T].
      assert (0 <= INR (k - (J / startup_step_divisor + 1)) * h) by (apply Rmult_le_pos; [apply pos_INR|lra]). lra.
  Qed.
  Lemma nth_state_time : forall n, state_time (nth_state n) = t0 + INR n * h.
  Proof.
    intros n. unfold nth_state. destruct (Nat.ltb_spec n k) as [H|H].
    - rewrite one_time, sub16_n. ring.
    - replace k with (Datatypes.S (k - 1)) at 2 by lia. rewrite seq_S, map_app. cbn [map]. rewrite Hnew, nth_step_time.
      do 3 f_equal. lia.
  Qed.
  Lemma seq_join : forall (A : Type) (g : nat -> A) a b c, (a <= b <= c)%nat ->
    map g (seq (a + 1) (b - a)) ++ map g (seq (b + 1) (c - b)) = map g (seq (a + 1) (c - a)).
  Proof.
    intros A g a b c H. replace (c - a)%nat with (b - a + (c - b))%nat by lia. rewrite seq_app, map_app. do 3 f_equal. lia.
  Qed.
  Lemma solve_at : forall i m t_final M, At m i -> state_time (current_state i) < t_final -> INR M <= (t_final - t0) / h < INR M + 1 ->
    exists fuel0 i', (forall fuel, (fuel0 <= fuel)%nat -> solve fuel t_final i = Done (map nth_state (seq (m + 1) (M - m))) i' Ok) /\
      At M i' /\ (m <= M)%nat /\ state_time (current_state i') <= t_final.
  Proof.
    intros i m t_final M HA T W.
    pose proof sub_pos as SP. pose proof sub16 as S16.
    assert (WT : INR M * h <= t_final - t0 < (INR M + 1) * h).
    { split.
      - replace (t_final - t0) with ((t_final - t0) / h * h) by (field; lra). apply Rmult_le_compat_r; lra.
      - replace (t_final - t0) with ((t_final - t0) / h * h) by (field; lra). apply Rmult_lt_compat_r; lra. }
    assert (ST : forall J i, (J < last_startup)%nat -> (i = before J \/ (J = 0%nat /\ i = initial s0)) ->
      t0 + INR J * sub < t_final ->
      exists fuel0 i', (forall fuel, (fuel0 <= fuel)%nat -> solve fuel t_final i = Done (map nth_state (seq (J / startup_step_divisor + 1) (M - J / startup_step_divisor))) i' Ok) /\
      At M i' /\ (J / startup_step_divisor <= M)%nat /\ state_time (current_state i') <= t_final).
    { clear i m HA T. intros J i L Hi T.
      set (q := (J / startup_step_divisor)%nat). pose proof (div16 J) as DJ. fold q in DJ.
      assert (Lq : (q + 1 < k)%nat) by (clearbody q; unfold startup_step_divisor in *; lia).
      assert (Nst : started S P k i = false).
      { unfold started. destruct Hi as [->|[_ ->]]; cbn [previous_steps initial length].
        - rewrite map_length, seq_length. fold q. apply Nat.eqb_neq. lia.
        - apply Nat.eqb_neq. lia. }
      assert (Jq : INR q * h <= INR J * sub < (INR q + 1) * h).
      { rewrite <- (sub16_n q).
        replace ((INR q + 1) * h) with (INR (startup_step_divisor * q + startup_step_divisor) * sub)
          by (rewrite plus_INR, Rmult_plus_distr_r, sub16_n, S16; ring).
        split; [apply Rmult_le_compat_r; [lra|apply le_INR; lia]|apply Rmult_lt_compat_r; [lra|apply lt_INR; lia]]. }
      assert (qM : (q <= M)%nat).
      { apply Nat.lt_succ_r. apply INR_lt. rewrite S_INR. apply (Rmult_lt_reg_r h); lra. }
      set (target := Rmin (t0 + INR J * sub + INR (k - (J / startup_step_divisor + 1)) * h + h / 2) t_final).
      assert (kq : INR (k - (q + 1)) = INR k - 1 - INR q) by (rewrite minus_INR by lia; rewrite plus_INR; cbn [INR]; ring).
      assert (kl : INR last_startup * sub = (INR k - 1) * h).
      { rewrite sub16_n, minus_INR by lia. reflexivity. }
      assert (TG : t0 + INR J * sub < target).
      { unfold target. apply Rmin_glb_lt; [|exact T].
        assert (0 <= INR (k - (J / startup_step_divisor + 1)) * h) by (apply Rmult_le_pos; [apply pos_INR|lra]). lra. }
      destruct (whole_steps_exists sub (t0 + INR J * sub) target) as [N WN].
      { apply Rlt_le. apply Rdiv_lt_0_compat; lra. }
      assert (WS : INR (J + N) * sub <= target - t0 < (INR (J + N) + 1) * sub).
      { destruct WN as (_ & A & B). rewrite plus_INR.
        assert (Z : target - (t0 + INR J * sub) = (target - (t0 + INR J * sub)) / sub * sub)
          by (symmetry; unfold Rdiv at 1; rewrite Rmult_assoc, Rinv_l, Rmult_1_r by lra; reflexivity).
        set (y := (target - (t0 + INR J * sub)) / sub) in *. clearbody y. clear WT Jq kl kq. clearbody target.
        set (e := sub) in *. clearbody e.
        assert (A2 := Rmult_le_compat_r e _ _ (Rlt_le _ _ SP) A). assert (B2 := Rmult_lt_compat_r e _ _ SP B). lra. }
      destruct (Rlt_dec t_final (t0 + (INR k - 1) * h)) as [Q|Q].
      - (* the startup is not finished *)
        assert (TT : target = t_final).
        { unfold target. apply Rmin_right. fold q. rewrite kq. lra. }
        assert (JN : (J + N < last_startup)%nat).
        { apply INR_lt. apply (Rmult_lt_reg_r sub); [exact SP|]. rewrite kl, TT in *. lra. }
        assert (EM : ((J + N) / startup_step_divisor = M)%nat).
        { apply div16_eq.
          split; [apply Nat.lt_succ_r|]; apply INR_lt; apply (Rmult_lt_reg_r sub); try exact SP; rewrite TT in WS.
          - rewrite S_INR, sub16_n. lra.
          - rewrite (plus_INR (startup_step_divisor * M)), Rmult_plus_distr_r, sub16_n, S16. lra. }
        exists N, (before (J + N)). split; [|split; [|split]].
        + intros fuel F. unfold multistep_solve. rewrite Nst.
          rewrite (startup_fold fuel t_final J N L T WN F i Hi). replace (Nat.min (J + N) last_startup) with (J + N)%nat by lia.
          assert (NS2 : started S P k (before (J + N)) = false).
          { unfold started. cbn [previous_steps]. rewrite map_length, seq_length, EM. apply Nat.eqb_neq.
            intros E. rewrite <- E in JN. pose proof (div16 (J + N)) as DN. rewrite EM in DN. clear - DN JN E Hk. unfold startup_step_divisor in *. lia. }
          rewrite NS2, EM. reflexivity.
        + rewrite <- EM at 1. apply At_startup. exact JN.
        + exact qM.
        + cbn [current_state]. rewrite one_time, TT in *. lra.
      - (* the startup is finished *)
        assert (TT : t0 + (INR k - 1) * h <= target).
        { unfold target. apply Rmin_glb; [|lra]. fold q. rewrite kq. lra. }
        assert (JN : (last_startup <= J + N)%nat).
        { apply Nat.lt_succ_r. apply INR_lt. apply (Rmult_lt_reg_r sub); [exact SP|]. rewrite kl, S_INR. lra. }
        assert (kM : (k - 1 <= M)%nat).
        { apply Nat.lt_succ_r. apply INR_lt. rewrite S_INR, minus_INR by lia. cbn [INR]. apply (Rmult_lt_reg_r h); lra. }
        exists (N + M)%nat, (after M). split; [|split; [|split]].
        + intros fuel F. unfold multistep_solve. rewrite Nst.
          rewrite (startup_fold fuel t_final J N L T WN ltac:(lia) i Hi). replace (Nat.min (J + N) last_startup) with last_startup by lia.
          rewrite after_startup.
          replace (last_startup / startup_step_divisor)%nat with (k - 1)%nat
            by (rewrite Nat.mul_comm, Nat.div_mul by (unfold startup_step_divisor; lia); reflexivity).
          fold q.
          assert (X : (t_final - (t0 + INR (k - 1) * h)) / h = (t_final - t0) / h - INR (k - 1)) by (field; lra).
          pose proof (solve_started fuel t_final (k - 1) (M - (k - 1)) ltac:(lia) ltac:(lia)) as SS.
          unfold multistep_solve in SS. rewrite started_after in SS by lia. cbv iota beta in SS. rewrite started_after in SS by lia.
          cbv iota beta. rewrite started_after by lia.
          assert (SS' := SS ltac:(left; rewrite X, (minus_INR M (k - 1)) by exact kM; lra) ltac:(rewrite X, (minus_INR M (k - 1)) by exact kM; lra)).
          destruct (Rlt_dec 0 h) as [_|]; [|contradiction].
          destruct (rev (previous_steps (after (k - 1)))) as [|p l]; [discriminate|].
          destruct (multistep_loop S P advance new_state h fuel t_final (after (k - 1)) (p_time p) Ok) as [l' i' st| |]; try discriminate.
          cbn [app] in SS'. injection SS' as -> -> ->. replace (k - 1 + (M - (k - 1)))%nat with M by lia. f_equal.
          apply (seq_join _ nth_state q (k - 1) M). lia.
        + apply At_started. exact kM.
        + exact qM.
        + cbn [current_state]. rewrite nth_state_time. lra. }
    destruct HA as [|J L|M0 L].
    - apply (ST 0%nat (initial s0)); [unfold startup_step_divisor; lia|right; split; reflexivity|]. cbn [initial current_state INR] in *. lra.
    - apply (ST J (before J)); [exact L|left; reflexivity|]. cbn [current_state] in T. rewrite one_time in T. exact T.
    - cbn [current_state] in T. rewrite nth_state_time in T.
      assert (MM : (M0 <= M)%nat) by (apply Nat.lt_succ_r; apply INR_lt; rewrite S_INR; apply (Rmult_lt_reg_r h); lra).
      assert (X : (t_final - (t0 + INR M0 * h)) / h = (t_final - t0) / h - INR M0) by (field; lra).
      exists (M - M0)%nat, (after M). split; [|split; [|split]].
      + intros fuel F. rewrite (solve_started fuel t_final M0 (M - M0)); [|assumption|assumption| |].
        * replace (M0 + (M - M0))%nat with M by lia. reflexivity.
        * left. rewrite X, minus_INR by exact MM. lra.
        * rewrite X, minus_INR by exact MM. lra.
      + apply At_started. lia.
      + exact MM.
      + cbn [current_state]. rewrite nth_state_time. lra.
  Qed.
End Generic.
