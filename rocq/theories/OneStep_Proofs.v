(** The one-step integrators with a fixed step size: the loop. *)
From Coq Require Import Reals List Bool Arith Lra Lia FunctionalExtensionality.
From Verif Require Import OneStep_Model Multistep_Proofs Multistep_Proofs2.
Import ListNotations.
Open Scope R_scope.

(** The [n]-th iterate. *)
Fixpoint iterated {S : Type} (n : nat) (one : S -> S) (s : S) : S :=
  match n with O => s | Datatypes.S n => iterated n one (one s) end.
Lemma iterated_S : forall (S : Type) n (one : S -> S) s, iterated (Datatypes.S n) one s = one (iterated n one s).
Proof. intros S n one. induction n as [|n IH]; intros s; [reflexivity|]. cbn [iterated] in *. rewrite IH. reflexivity. Qed.
Lemma iterated_plus : forall (S : Type) m n (one : S -> S) s, iterated m one (iterated n one s) = iterated (n + m) one s.
Proof. intros S m n one. induction n as [|n IH]; intros s; [reflexivity|]. cbn [iterated plus]. apply IH. Qed.
(** The status after [n] steps starting from [s]: the first which is not OK. *)
Fixpoint accumulated {S : Type} (n : nat) (one : S -> S) (st : S -> Status) (s : S) (status : Status) : Status :=
  match n with O => status | Datatypes.S n => accumulated n one st (one s) (Update status (st s)) end.
Lemma accumulated_S : forall (S : Type) n (one : S -> S) st s status,
  accumulated (Datatypes.S n) one st s status = Update (accumulated n one st s status) (st (iterated n one s)).
Proof. intros S n one st. induction n as [|n IH]; intros s status; [reflexivity|]. cbn [accumulated iterated] in *. rewrite IH. reflexivity. Qed.
Lemma accumulated_ok : forall (S : Type) n (one : S -> S) st s, (forall s, st s = Ok) -> accumulated n one st s Ok = Ok.
Proof. intros S n one st s H. revert s. induction n as [|n IH]; intros s; [reflexivity|]. cbn. rewrite H. apply IH. Qed.

(** [n] is the number of whole steps of [h] from [t] to [t_final], in the direction of [h]. *)
Definition whole_steps (h t t_final : R) (n : nat) : Prop :=
  0 <= (t_final - t) / h /\ INR n <= (t_final - t) / h < INR n + 1.
Lemma whole_steps_unique : forall h t t_final m n, whole_steps h t t_final m -> whole_steps h t t_final n -> m = n.
Proof.
  intros h t t_final m n (_ & A) (_ & B). apply Nat.le_antisymm; apply Nat.lt_succ_r; apply INR_lt; rewrite S_INR; lra.
Qed.
Lemma whole_steps_exists : forall h t t_final, 0 <= (t_final - t) / h -> exists n, whole_steps h t t_final n.
Proof.
  intros h t t_final H. set (x := (t_final - t) / h) in *. destruct (archimed x) as [A B].
  assert (0 < up x)%Z by (apply lt_IZR; lra).
  exists (Z.to_nat (up x - 1)). split; [exact H|]. fold x. rewrite INR_IZR_INZ, Z2Nat.id by lia. rewrite minus_IZR. lra.
Qed.
Lemma more_steps : forall h x, h <> 0 -> 0 <= x / h -> (Rabs h <= Rabs x <-> 1 <= x / h).
Proof.
  intros h x Hh Hx. assert (0 < Rabs h) by (apply Rabs_pos_lt; exact Hh).
  replace (Rabs x) with (x / h * Rabs h).
  - split; intros H1; [apply (Rmult_le_reg_r (Rabs h)); lra|].
    replace (Rabs h) with (1 * Rabs h) at 1 by ring. apply Rmult_le_compat_r; lra.
  - rewrite <- (Rabs_right (x / h)) by lra. rewrite <- Rabs_mult. f_equal. field. exact Hh.
Qed.

Section Loop.
  Context {S M : Type}.
  Variables (time : S -> R) (iterate : S -> M -> S * M * Status) (h : R).
  Variables (one : S -> S) (st : S -> Status) (good : S -> M -> Prop).
  Hypothesis Hh : h <> 0.
  Hypothesis Hone : forall s m, good s m -> exists m', iterate s m = (one s, m', st s) /\ good (one s) m'.
  Hypothesis Htime : forall s, time (one s) = time s + h.

  Lemma iterated_time : forall n s, time (iterated n one s) = time s + INR n * h.
  Proof. induction n as [|n IH]; intros s; [cbn; ring|]. cbn [iterated]. rewrite IH, Htime, S_INR. ring. Qed.

  (** [n] steps are done, either all, or until the status is [Aborted]. *)
  Lemma loop_run : forall n N fuel t_final s m status, good s m -> whole_steps h (time s) t_final N -> (N <= fuel)%nat ->
    (n <= N)%nat ->
    (forall i, (1 <= i < n)%nat -> IsAborted (accumulated i one st s status) = false) ->
    (n = N /\ ((1 <= n)%nat -> IsAborted (accumulated n one st s status) = false)
     \/ (1 <= n)%nat /\ IsAborted (accumulated n one st s status) = true) ->
    one_step_loop S time M iterate h fuel t_final s m status
    = Done (map (fun i => iterated i one s) (seq 1 n)) (iterated n one s) (accumulated n one st s status).
  Proof.
    induction n as [|n IH]; intros N fuel t_final s m status G W F L A E.
    - destruct E as [[<- _]|[E _]]; [|lia]. destruct W as (W0 & W1 & W2). cbn in W2.
      destruct fuel; cbn [one_step_loop]; (destruct (Rle_dec (Rabs h) (Rabs (t_final - time s))) as [Q|Q]; [|reflexivity]);
        apply (more_steps h _ Hh W0) in Q; lra.
    - destruct W as (W0 & W1 & W2). destruct fuel as [|fuel]; [lia|]. cbn [one_step_loop].
      destruct (Rle_dec (Rabs h) (Rabs (t_final - time s))) as [Q|Q].
      2:{ exfalso. apply Q. apply (more_steps h _ Hh W0). apply Rle_trans with (2 := W1). change 1 with (INR 1). apply le_INR. lia. }
      destruct (Hone s m G) as (m' & -> & G'). cbn [seq map iterated]. cbn [iterated accumulated] in A, E |- *.
      destruct N as [|N]; [lia|].
      destruct (IsAborted (Update status (st s))) eqn:Ab.
      + destruct n as [|n]; [reflexivity|]. exfalso. specialize (A 1%nat ltac:(lia)). cbn in A. congruence.
      + assert (W' : whole_steps h (time (one s)) t_final N).
        { rewrite Htime. rewrite S_INR in W1, W2. unfold whole_steps.
          replace ((t_final - (time s + h)) / h) with ((t_final - time s) / h - 1) by (field; exact Hh).
          pose proof (pos_INR N). lra. }
        rewrite (IH N fuel t_final (one s) m' _ G' W') ; try lia.
        * rewrite <- (seq_shift n 1), map_map. reflexivity.
        * intros i Hi. apply (A (Datatypes.S i)). lia.
        * destruct E as [[E1 E2]|[E1 E2]]; [left; split; [lia|intros; apply E2; lia]|].
          destruct n as [|n]; [cbn in E2; congruence|right; split; [lia|exact E2]].
  Qed.
  Lemma loop_ok : forall N fuel t_final s m, good s m -> whole_steps h (time s) t_final N -> (N <= fuel)%nat ->
    (forall s, st s = Ok) ->
    one_step_loop S time M iterate h fuel t_final s m Ok
    = Done (map (fun i => iterated i one s) (seq 1 N)) (iterated N one s) Ok.
  Proof.
    intros N fuel t_final s m G W F O. rewrite (loop_run N N fuel t_final s m Ok G W F); try lia.
    - rewrite accumulated_ok by exact O. reflexivity.
    - intros i _. rewrite accumulated_ok by exact O. reflexivity.
    - left. split; [reflexivity|]. intros _. rewrite accumulated_ok by exact O. reflexivity.
  Qed.
  Lemma direction_ok : forall t_final s, (direction_check S time h t_final s = true <-> 0 < (t_final - time s) / h).
  Proof.
    intros t_final s. unfold direction_check.
    destruct (Rlt_dec h 0) as [Q|Q].
    - assert (/ h < 0) by (apply Rinv_lt_0_compat; lra). unfold Rdiv.
      destruct (Rlt_dec t_final (time s)); split; intros; try reflexivity; try discriminate; nra.
    - assert (0 < / h) by (apply Rinv_0_lt_compat; lra). unfold Rdiv.
      destruct (Rlt_dec (time s) t_final); split; intros; try reflexivity; try discriminate; nra.
  Qed.
End Loop.

(** * Explicit Runge-Kutta methods *)
Lemma weighted_gen : forall w k sum j d,
  fst (fold_left (fun '(sum, j) kj => (vadd sum (vscal (w j) kj), S j)) k (sum, j)) d
  = sum d + sum_to (length k) (fun i => w (j + i)%nat * nth i k vzero d).
Proof.
  intros w k. induction k as [|x k IH]; intros sum j d; [unfold sum_to; cbn; ring|].
  cbn [fold_left length]. rewrite IH, sum_to_S. unfold vadd, vscal. cbn [nth]. rewrite Nat.add_0_r.
  rewrite (sum_to_ext _ _ (fun i => w (j + S i)%nat * nth i k vzero d)) by
    (intros i _; replace (S j + i)%nat with (j + S i)%nat by lia; reflexivity). ring.
Qed.
Lemma weighted_sum : forall w k d, weighted w k d = sum_to (length k) (fun i => w i * nth i k vzero d).
Proof. intros. unfold weighted. rewrite weighted_gen. unfold vzero at 1. cbn [plus]. ring. Qed.

Lemma all_below_spec : forall n p, all_below n p = true -> forall i, (i < n)%nat -> p i = true.
Proof.
  induction n as [|n IH]; intros p H i Hi; [lia|]. cbn in H. apply andb_prop in H. destruct H as [H1 H2].
  destruct (Nat.eq_dec i n) as [->|]; [exact H1|apply IH; [exact H2|lia]].
Qed.
Lemma Reqb_eq : forall x y, Reqb x y = true -> x = y.
Proof. intros x y H. unfold Reqb in H. destruct (Req_EM_T x y); [assumption|discriminate]. Qed.

(** A step of the method with coefficients [m], in the usual form: the derivatives [k] at the stages, and the weighted
    sum. *)
Definition runge_kutta_step (m : RK) (f : R -> Vec -> Vec) (h s : R) (y y' : Vec) (k : nat -> Vec) : Prop :=
  (forall i, (i < rk_stages m)%nat ->
     k i = f (s + rk_c_ m i * h) (fun d => y d + h * sum_to i (fun j => rk_a_ m i j * k j d))) /\
  y' = (fun d => y d + h * sum_to (rk_stages m) (fun i => rk_b_ m i * k i d)).

Section RungeKutta.
  Variables (m : RK) (f : Derivative) (h : R).
  Definition rhs (s : R) (y : Vec) : Vec := snd (f s y).
  (** The increments, after the stages 0, ..., n - 1. *)
  Definition rk_run (s : RKState) (last_f : Vec) (n : nat) : list Vec * Vec * Status :=
    fold_left (rk_stage m f h s last_f) (seq 0 n) ([], last_f, Ok).
  Lemma rk_run_S : forall s last_f n, rk_run s last_f (S n) = rk_stage m f h s last_f (rk_run s last_f n) n.
  Proof. intros. unfold rk_run. rewrite seq_S, fold_left_app. reflexivity. Qed.
  Definition rk_good (s : RKState) (last_f : Vec) : Prop :=
    if first_same_as_last m then last_f = rhs (rk_s s) (rk_y s) else True.
  Definition rk_one (s : RKState) : RKState := fst (fst (rk_iterate m f h s (rhs (rk_s s) (rk_y s)))).
  Definition rk_status (s : RKState) : Status := snd (rk_iterate m f h s (rhs (rk_s s) (rk_y s))).

  (** The derivatives at the stages. *)
  Lemma rk_run_spec : forall s last_f, rk_checks m = true -> rk_good s last_f -> exists k : nat -> Vec,
    (forall i, k i = rhs (rk_s s + rk_c_ m i * h) (fun d => rk_y s d + h * sum_to i (fun j => rk_a_ m i j * k j d))) /\
    forall n, (fst (fst (rk_run s last_f n)) = map (fun i => vscal h (k i)) (seq 0 n)) /\
              snd (fst (rk_run s last_f n)) = match n with O => last_f | S n => k n end.
  Proof.
    intros s last_f C G.
    assert (K : exists k : nat -> Vec,
      forall i, k i = rhs (rk_s s + rk_c_ m i * h) (fun d => rk_y s d + h * sum_to i (fun j => rk_a_ m i j * k j d))).
    { set (F := fun l : list Vec => let i := length l in
        rhs (rk_s s + rk_c_ m i * h) (fun d => rk_y s d + h * sum_to i (fun j => rk_a_ m i j * nth j l vzero d))).
      set (L := fun n => nat_rect (fun _ => list Vec) [] (fun _ l => l ++ [F l]) n).
      assert (LL : forall n, length (L n) = n) by
        (induction n as [|n IH]; [reflexivity|]; cbn; rewrite app_length; cbn; fold (L n); lia).
      assert (LN : forall n j, (j < n)%nat -> nth j (L n) vzero = F (L j)).
      { induction n as [|n IH]; intros j Hj; [lia|]. change (L (S n)) with (L n ++ [F (L n)]).
        destruct (Nat.eq_dec j n) as [->|].
        - rewrite app_nth2 by (rewrite LL; lia). rewrite LL, Nat.sub_diag. reflexivity.
        - rewrite app_nth1 by (rewrite LL; lia). apply IH. lia. }
      exists (fun i => F (L i)). intros i. unfold F at 1. cbv zeta. rewrite LL. f_equal. apply functional_extensionality. intros d.
      f_equal. f_equal. apply sum_to_ext. intros j Hj. rewrite LN by exact Hj. reflexivity. }
    destruct K as [k K]. exists k. split; [exact K|]. induction n as [|n [IH1 IH2]]; [split; reflexivity|].
    rewrite rk_run_S. destruct (rk_run s last_f n) as [[ks lf] st]. cbn [fst snd] in IH1, IH2. cbn [rk_stage]. subst ks.
    assert (Y : rhs (rk_s s + rk_c_ m n * h) (vadd (rk_y s) (weighted (rk_a_ m n) (map (fun i => vscal h (k i)) (seq 0 n)))) = k n).
    { rewrite (K n). f_equal. apply functional_extensionality. intros d. unfold vadd. f_equal. rewrite weighted_sum, map_length, seq_length.
      rewrite <- sum_to_scal. apply sum_to_ext. intros j Hj.
      rewrite (nth_indep _ vzero (vscal h (k 0%nat))) by (rewrite map_length, seq_length; exact Hj).
      rewrite (map_nth (fun i => vscal h (k i))), seq_nth by exact Hj. unfold vscal. cbn [plus]. ring. }
    destruct (Nat.eqb n 0 && first_same_as_last m) eqn:Q.
    - apply andb_prop in Q. destruct Q as [Q1 Q2]. apply Nat.eqb_eq in Q1. subst n. cbn.
      unfold rk_good in G. rewrite Q2 in G.
      assert (last_f = k 0%nat).
      { rewrite (K 0%nat), G. unfold rk_checks in C. rewrite Q2 in C. apply andb_prop in C. destruct C as [C _].
        apply Reqb_eq in C. rewrite <- C. f_equal; [ring|]. apply functional_extensionality. intros d. unfold sum_to. cbn. ring. }
      subst last_f. split; congruence.
    - unfold rhs in Y. destruct (f (rk_s s + rk_c_ m n * h) _) as [st' g]. cbn [snd] in Y. subst g. cbn [fst snd].
      split; [|reflexivity]. rewrite seq_S, map_app. reflexivity.
  Qed.
  (** An iteration is a step of the method. *)
  Lemma rk_iterate_spec : forall s last_f, rk_checks m = true -> rk_good s last_f ->
    let '(s', last_f', _) := rk_iterate m f h s last_f in
    rk_s s' = rk_s s + h /\ (exists k, runge_kutta_step m rhs h (rk_s s) (rk_y s) (rk_y s') k) /\
    ((0 < rk_stages m)%nat -> rk_good s' last_f').
  Proof.
    intros s last_f C G. destruct (rk_run_spec s last_f C G) as (k & K & R). specialize (R (rk_stages m)). destruct R as [R1 R2].
    unfold rk_iterate. fold (rk_run s last_f (rk_stages m)). destruct (rk_run s last_f (rk_stages m)) as [[ks lf] st].
    cbn [fst snd] in R1, R2. cbn [rk_s rk_y].
    assert (Y : vadd (rk_y s) (weighted (rk_b_ m) ks) = fun d => rk_y s d + h * sum_to (rk_stages m) (fun i => rk_b_ m i * k i d)).
    { subst ks. apply functional_extensionality. intros d. unfold vadd. f_equal. rewrite weighted_sum, map_length, seq_length.
      rewrite <- sum_to_scal. apply sum_to_ext. intros j Hj.
      rewrite (nth_indep _ vzero (vscal h (k 0%nat))) by (rewrite map_length, seq_length; exact Hj).
      rewrite (map_nth (fun i => vscal h (k i))), seq_nth by exact Hj. unfold vscal. cbn [plus]. ring. }
    split; [reflexivity|]. split.
    - exists k. split; [intros i _; apply K|exact Y].
    - intros P. unfold rk_good. destruct (first_same_as_last m) eqn:Q; [|exact I]. cbn [rk_s rk_y].
      destruct (rk_stages m) as [|n] eqn:N; [lia|]. subst lf. rewrite (K n), Y.
      unfold rk_checks in C. rewrite Q, N in C. apply andb_prop in C. destruct C as [_ C].
      apply andb_prop in C. destruct C as [C C3]. apply andb_prop in C. destruct C as [C1 C2].
      replace (S n - 1)%nat with n in * by lia. apply Reqb_eq in C1, C2. rewrite <- C1.
      f_equal; [ring|]. apply functional_extensionality. intros d. rewrite sum_to_last, <- C2.
      f_equal. rewrite Rmult_0_l, Rplus_0_r. f_equal. apply sum_to_ext. intros j Hj.
      pose proof (all_below_spec _ _ C3 j Hj) as E. apply Reqb_eq in E. rewrite E. reflexivity.
  Qed.
  Lemma rk_memory : forall s m1 m2, first_same_as_last m = false ->
    fst (fst (rk_iterate m f h s m1)) = fst (fst (rk_iterate m f h s m2)) /\
    snd (rk_iterate m f h s m1) = snd (rk_iterate m f h s m2).
  Proof.
    intros s m1 m2 Q. unfold rk_iterate. fold (rk_run s m1 (rk_stages m)). fold (rk_run s m2 (rk_stages m)).
    assert (E : forall n, fst (fst (rk_run s m1 n)) = fst (fst (rk_run s m2 n)) /\ snd (rk_run s m1 n) = snd (rk_run s m2 n)).
    { induction n as [|n [IH1 IH2]]; [split; reflexivity|]. rewrite !rk_run_S.
      destruct (rk_run s m1 n) as [[k1 f1] s1]. destruct (rk_run s m2 n) as [[k2 f2] s2]. cbn [fst snd] in *. subst k2 s2.
      cbn [rk_stage]. rewrite Q, andb_false_r. destruct (f _ _). split; reflexivity. }
    destruct (E (rk_stages m)) as [E1 E2].
    destruct (rk_run s m1 (rk_stages m)) as [[k1 f1] s1]. destruct (rk_run s m2 (rk_stages m)) as [[k2 f2] s2]. cbn [fst snd] in *.
    subst. split; reflexivity.
  Qed.
  Lemma rk_hone : rk_checks m = true -> (0 < rk_stages m)%nat -> forall s last_f, rk_good s last_f ->
    exists last_f', rk_iterate m f h s last_f = (rk_one s, last_f', rk_status s) /\ rk_good (rk_one s) last_f'.
  Proof.
    intros C P s last_f G. pose proof (rk_iterate_spec s last_f C G) as H.
    destruct (rk_iterate m f h s last_f) as [[s' last_f'] st] eqn:E. destruct H as (_ & _ & H). specialize (H P).
    exists last_f'. assert (F : rk_one s = s' /\ rk_status s = st).
    { unfold rk_one, rk_status. destruct (first_same_as_last m) eqn:Q.
      - unfold rk_good in G. rewrite Q in G. rewrite <- G, E. split; reflexivity.
      - destruct (rk_memory s last_f (rhs (rk_s s) (rk_y s)) Q) as [<- <-]. rewrite E. split; reflexivity. }
    destruct F as [F1 F2]. rewrite F1, F2. split; [reflexivity|exact H].
  Qed.
  Lemma rk_one_good : forall s, rk_good s (rhs (rk_s s) (rk_y s)).
  Proof. intros s. unfold rk_good. destruct (first_same_as_last m); [reflexivity|exact I]. Qed.
  Lemma rk_one_spec : forall s, rk_checks m = true ->
    rk_s (rk_one s) = rk_s s + h /\ exists k, runge_kutta_step m rhs h (rk_s s) (rk_y s) (rk_y (rk_one s)) k.
  Proof.
    intros s C. pose proof (rk_iterate_spec s _ C (rk_one_good s)) as H. unfold rk_one.
    destruct (rk_iterate m f h s (rhs (rk_s s) (rk_y s))) as [[s' l] st]. destruct H as (H1 & H2 & _). split; assumption.
  Qed.
  Lemma rk_status_ok : (forall s y, fst (f s y) = Ok) -> forall s, rk_status s = Ok.
  Proof.
    intros O s. unfold rk_status, rk_iterate. fold (rk_run s (rhs (rk_s s) (rk_y s)) (rk_stages m)).
    assert (E : forall n, snd (rk_run s (rhs (rk_s s) (rk_y s)) n) = Ok).
    { induction n as [|n IH]; [reflexivity|]. rewrite rk_run_S. destruct (rk_run s _ n) as [[k g] st]. cbn [snd] in IH. subst st.
      cbn [rk_stage]. destruct (Nat.eqb n 0 && first_same_as_last m); [reflexivity|].
      match goal with |- context [f ?a ?b] => specialize (O a b); destruct (f a b) as [o g'] end. cbn in O. subst o. reflexivity. }
    specialize (E (rk_stages m)). destruct (rk_run s _ (rk_stages m)) as [[k g] st]. exact E.
  Qed.
  Lemma rk_solve_ok : forall fuel s_final s N, rk_checks m = true -> (0 < rk_stages m)%nat -> h <> 0 ->
    (forall s y, fst (f s y) = Ok) -> rk_s s <> s_final -> whole_steps h (rk_s s) s_final N -> (N <= fuel)%nat ->
    rk_solve m f h fuel s_final s = Done (map (fun i => iterated i rk_one s) (seq 1 N)) (iterated N rk_one s) Ok.
  Proof.
    intros fuel s_final s N C P Hh O Ne W F. unfold rk_solve.
    assert (D : direction_check RKState rk_s h s_final s = true).
    { apply (direction_ok rk_s h Hh). destruct W as [W _]. destruct W as [W|W]; [exact W|]. exfalso. apply Ne.
      apply (Rmult_eq_reg_r (/ h)); [|apply Rinv_neq_0_compat; exact Hh]. unfold Rdiv in W. lra. }
    rewrite D.
    assert (R : forall g, rk_good s g -> one_step_loop RKState rk_s Vec (rk_iterate m f h) h fuel s_final s g Ok
      = Done (map (fun i => iterated i rk_one s) (seq 1 N)) (iterated N rk_one s) Ok).
    { intros g G. apply (loop_ok rk_s (rk_iterate m f h) h rk_one rk_status rk_good Hh (rk_hone C P)); try assumption.
      - intros s'. apply (rk_one_spec s' C).
      - apply rk_status_ok. exact O. }
    destruct (first_same_as_last m) eqn:Q.
    - pose proof (O (rk_s s) (rk_y s)) as E. destruct (f (rk_s s) (rk_y s)) as [st g] eqn:Ef. cbn in E. subst st. apply R.
      unfold rk_good, rhs. rewrite Q, Ef. reflexivity.
    - apply R. unfold rk_good. rewrite Q. exact I.
  Qed.
End RungeKutta.
