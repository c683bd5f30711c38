(** Proofs about ThreadPool_Model. *)
From Coq Require Import List Arith Bool ZArith Lia Permutation.
From Verif Require Import ThreadPool_Model.
Import ListNotations.

Fixpoint sum (f : thread -> nat) (l : list thread) : nat := match l with [] => 0 | w :: l' => f w + sum f l' end.
Definition is_busy (t : thread) : nat := match t with TRun _ | TRan => 1 | _ => 0 end.
Definition is_waiting (t : thread) : nat := match t with TWait => 1 | _ => 0 end.
Definition is_exited (t : thread) : nat := match t with TExit => 1 | _ => 0 end.
Definition running (t : thread) : list nat := match t with TRun c => [c] | _ => [] end.
(** The number of threads blocked at the top of their loop. *)
Definition waiting (s : state) : nat := sum is_waiting (threads s).

Lemma sum_set f : forall l i w w', nth_error l i = Some w -> sum f (set_nth i w' l) + f w = sum f l + f w'.
Proof.
  induction l; intros [|i] w w' H; cbn [nth_error set_nth sum] in *; try discriminate.
  - injection H as ->. lia.
  - specialize (IHl i w w' H). lia.
Qed.

Lemma sum_ge f : forall l i w, nth_error l i = Some w -> f w <= sum f l.
Proof. induction l; intros [|i] w H; cbn [nth_error sum] in *; try discriminate. { injection H as ->. lia. } apply IHl in H. lia. Qed.

Lemma set_length : forall l i w, length (set_nth i w l) = length l.
Proof. induction l; intros [|i] w; cbn [set_nth length]; auto. Qed.

Lemma nth_set : forall l i j w, nth_error (set_nth i w l) j = if Nat.eqb i j then (match nth_error l i with Some _ => Some w | None => None end) else nth_error l j.
Proof.
  induction l; intros [|i] [|j] w; cbn [set_nth nth_error Nat.eqb]; auto.
  destruct (Nat.eqb i j); auto.
Qed.

Lemma flat_map_set (f : thread -> list nat) : forall l i w w', nth_error l i = Some w ->
  exists l1 l2, flat_map f l = l1 ++ f w ++ l2 /\ flat_map f (set_nth i w' l) = l1 ++ f w' ++ l2.
Proof.
  induction l; intros [|i] w w' H; cbn [nth_error set_nth flat_map] in *; try discriminate.
  - injection H as ->. exists [], (flat_map f l). auto.
  - destruct (IHl i w w' H) as (l1 & l2 & H1 & H2). exists (f a ++ l1), l2. rewrite H1, H2, !app_assoc. auto.
Qed.

Lemma sum_pos f l : 0 < sum f l -> exists i w, nth_error l i = Some w /\ 0 < f w.
Proof.
  induction l; cbn [sum]; [lia|]. intros Hs. destruct (Nat.eq_dec (f a) 0).
  - destruct IHl as (i & w & Hi & Hw); [lia|]. exists (S i), w. auto.
  - exists 0, a. split; [reflexivity|lia].
Qed.

Lemma sum_length l : sum is_busy l + sum is_waiting l + sum is_exited l = length l.
Proof. induction l; cbn [sum length]; [reflexivity|]. destruct a; cbn [is_busy is_waiting is_exited]; lia. Qed.

Record inv (n : nat) (s : state) : Prop := Inv {
  inv_length : length (threads s) = n;
  inv_fifo : started s ++ calls s = seq 0 (accepted s);
  inv_executed : Permutation (started s) (executed s ++ flat_map running (threads s));
  inv_busy : busy s = Z.of_nat (sum is_busy (threads s));
  inv_shutdown : shutdown s = match dtor s with DNone => false | _ => true end;
  inv_exited : shutdown s = false -> sum is_exited (threads s) = 0;
  inv_tried : shutdown s = false -> forall c k, In c (tried s) -> nth_error (calls s) k = Some c -> k < waiting s;
  inv_tried_accepted : forall c, In c (tried s) -> c < accepted s;
  inv_join : forall i, dtor s = DJoin i -> i <= n /\ forall j, j < i -> nth_error (threads s) j = Some TExit;
  inv_gone : dtor s = DGone -> Forall (eq TExit) (threads s) }.

Lemma sum_repeat f n : sum f (repeat TWait n) = n * f TWait.
Proof. induction n; cbn [repeat sum]; lia. Qed.

Lemma inv_initial n : inv n (initial n).
Proof.
  constructor; cbn [initial threads started calls accepted executed busy shutdown dtor tried]; try discriminate.
  - apply repeat_length.
  - reflexivity.
  - cbn [app]. replace (flat_map running (repeat TWait n)) with (@nil nat); [constructor|]. induction n; cbn; auto.
  - rewrite sum_repeat. cbn [is_busy]. lia.
  - reflexivity.
  - intros _. rewrite sum_repeat. cbn [is_exited]. lia.
  - intros _ c k [].
  - intros c [].
Qed.

Lemma started_lt n s c : inv n s -> In c (calls s) -> c < accepted s.
Proof.
  intros HI Hc. assert (In c (seq 0 (accepted s))) as H by (rewrite <- (inv_fifo n s HI); apply in_or_app; auto).
  apply in_seq in H. lia.
Qed.

Lemma nth_app_last {A} (l : list A) x k y : nth_error (l ++ [x]) k = Some y -> nth_error l k = Some y \/ k = length l /\ y = x.
Proof.
  intros H. destruct (lt_eq_lt_dec k (length l)) as [[Hk|Hk]|Hk].
  - rewrite nth_error_app1 in H by assumption. auto.
  - subst. rewrite nth_error_app2, Nat.sub_diag in H by lia. cbn in H. injection H as ->. auto.
  - rewrite nth_error_app2 in H by lia. destruct (k - length l) as [|m] eqn:E; [lia|]. cbn in H. now destruct m.
Qed.

Lemma inv_step n s s' : inv n s -> step s s' -> inv n s'.
Proof.
  intros HI H. pose proof HI as [H1 H2 H3 H4 H5 H6 H7 H7' H8 H9]. destruct H.
  - constructor; cbn [Add threads started calls accepted executed busy shutdown dtor tried]; auto.
    + rewrite app_assoc, H2. rewrite seq_S. reflexivity.
    + intros Hs c k Hc Hk. apply nth_app_last in Hk. destruct Hk as [Hk|[Hk Hy]]; [exact (H7 Hs c k Hc Hk)|].
      specialize (H7' c Hc). lia.
    + intros c Hc. specialize (H7' c Hc). lia.
  - unfold TryAdd in H0. destruct (can_schedule_immediately s) eqn:E; [|discriminate]. injection H0 as <-.
    unfold can_schedule_immediately in E. apply Z.leb_le in E.
    constructor; cbn [Add threads started calls accepted executed busy shutdown dtor tried]; auto.
    + rewrite app_assoc, H2. rewrite seq_S. reflexivity.
    + intros Hs c k Hc Hk. unfold waiting in *. cbn [threads]. pose proof (sum_length (threads s)) as Hl. specialize (H6 Hs). rewrite H4 in E.
      apply nth_app_last in Hk. destruct Hk as [Hk|[Hk Hy]]; [|lia].
      assert (k < length (calls s)) by (apply nth_error_Some; congruence). lia.
    + intros c Hc. apply in_app_iff in Hc. destruct Hc as [Hc|[Hc|[]]]; [specialize (H7' c Hc)|]; lia.
  - unfold thread_step in H. destruct (nth_error (threads s) i) as [w|] eqn:E; [|discriminate].
    pose proof (fun f w' => sum_set f _ _ _ w' E) as Hset. pose proof (fun f => sum_ge f _ _ _ E) as Hge.
    assert (Hj : w <> TExit -> forall w' k, dtor s = DJoin k -> k <= n /\ forall j, j < k -> nth_error (set_nth i w' (threads s)) j = Some TExit).
    { intros Hne w' k Hk. destruct (H8 k Hk) as [? HH]. split; [assumption|]. intros j Hjk. rewrite nth_set.
      destruct (Nat.eqb_spec i j); [|auto]. subst. rewrite HH in E by assumption. congruence. }
    assert (Hg : w <> TExit -> dtor s = DGone -> False).
    { intros Hne Hd. apply H9 in Hd. rewrite Forall_forall in Hd. apply nth_error_In in E. apply Hd in E. congruence. }
    destruct w as [|c| |]; try discriminate.
    + destruct (shutdown s) eqn:Es.
      * injection H as <-. constructor; cbn [threads started calls accepted executed busy shutdown dtor tried]; auto; try congruence; try (rewrite set_length; assumption).
        -- destruct (flat_map_set running _ _ _ TExit E) as (l1 & l2 & E1 & E2). rewrite E2. rewrite E1 in H3. exact H3.
        -- specialize (Hset is_busy TExit). cbn [is_busy] in Hset. lia.
        -- apply Hj. discriminate.
        -- intros Hd. exfalso. apply Hg; [discriminate|assumption].
      * destruct (calls s) as [|c cs] eqn:Ec; [discriminate|]. injection H as <-.
        constructor; cbn [threads started calls accepted executed busy shutdown dtor tried]; auto; try (rewrite set_length; assumption).
        -- rewrite <- app_assoc. exact H2.
        -- destruct (flat_map_set running _ _ _ (TRun c) E) as (l1 & l2 & E1 & E2). rewrite E2. rewrite E1 in H3. cbn [running app] in *.
           apply perm_trans with (c :: started s); [apply Permutation_sym, Permutation_cons_append|].
           rewrite app_assoc. apply perm_trans with (c :: (executed s ++ l1) ++ l2); [constructor; rewrite <- app_assoc; exact H3|apply Permutation_middle].
        -- specialize (Hset is_busy (TRun c)). cbn [is_busy] in Hset. lia.
        -- intros _. specialize (Hset is_exited (TRun c)). cbn [is_exited] in Hset. specialize (H6 eq_refl). lia.
        -- intros _ c' k Hc' Hk. specialize (H7 eq_refl c' (S k) Hc' Hk). unfold waiting in *. cbn [threads].
           specialize (Hset is_waiting (TRun c)). cbn [is_waiting] in Hset. lia.
        -- apply Hj. discriminate.
        -- intros Hd. exfalso. apply Hg; [discriminate|assumption].
    + injection H as <-. constructor; cbn [threads started calls accepted executed busy shutdown dtor tried]; auto; try (rewrite set_length; assumption).
      * destruct (flat_map_set running _ _ _ TRan E) as (l1 & l2 & E1 & E2). rewrite E2. rewrite E1 in H3. cbn [running app] in *.
        rewrite H3, <- app_assoc. apply Permutation_app_head. cbn [app]. apply Permutation_sym, Permutation_middle.
      * specialize (Hset is_busy TRan). cbn [is_busy] in Hset. lia.
      * intros Hs. specialize (Hset is_exited TRan). cbn [is_exited] in Hset. specialize (H6 Hs). lia.
      * intros Hs c' k Hc' Hk. specialize (H7 Hs c' k Hc' Hk). unfold waiting in *. cbn [threads].
        specialize (Hset is_waiting TRan). cbn [is_waiting] in Hset. lia.
      * apply Hj. discriminate.
      * intros Hd. exfalso. apply Hg; [discriminate|assumption].
    + injection H as <-. constructor; cbn [threads started calls accepted executed busy shutdown dtor tried]; auto; try (rewrite set_length; assumption).
      * destruct (flat_map_set running _ _ _ TWait E) as (l1 & l2 & E1 & E2). rewrite E2. rewrite E1 in H3. exact H3.
      * specialize (Hset is_busy TWait). specialize (Hge is_busy). cbn [is_busy] in *. lia.
      * intros Hs. specialize (Hset is_exited TWait). cbn [is_exited] in Hset. specialize (H6 Hs). lia.
      * intros Hs c' k Hc' Hk. specialize (H7 Hs c' k Hc' Hk). unfold waiting in *. cbn [threads].
        specialize (Hset is_waiting TWait). cbn [is_waiting] in Hset. lia.
      * apply Hj. discriminate.
      * intros Hd. exfalso. apply Hg; [discriminate|assumption].
  - unfold dtor_step in H. destruct (dtor s) as [|i|] eqn:E; try discriminate.
    + injection H as <-. constructor; cbn [threads started calls accepted executed busy shutdown dtor tried]; auto; try discriminate.
      intros i Hi. injection Hi as <-. split; [lia|]. intros; lia.
    + destruct (H8 i eq_refl) as [Hi Hx]. destruct (nth_error (threads s) i) as [[]|] eqn:Ei; try discriminate; injection H as <-;
        (constructor; cbn [threads started calls accepted executed busy shutdown dtor tried]; auto; try congruence).
      * intros k Hk. injection Hk as <-. assert (i < length (threads s)) by (apply nth_error_Some; congruence).
        split; [lia|]. intros j Hjk. destruct (Nat.eq_dec j i); [subst; assumption|]. apply Hx. lia.
      * intros _. apply nth_error_None in Ei. rewrite Forall_forall. intros t Ht. apply In_nth_error in Ht. destruct Ht as [j Hjt].
        assert (j < length (threads s)) by (apply nth_error_Some; congruence). rewrite Hx in Hjt by lia. congruence.
Qed.

Lemma inv_steps n s : steps (initial n) s -> inv n s.
Proof. intros H. remember (initial n) as s0. induction H; subst; eauto using inv_initial, inv_step. Qed.

(** * Specifications *)

Theorem in_order_at_most_once n s : steps (initial n) s ->
  started s ++ calls s = seq 0 (accepted s) /\ NoDup (executed s) /\ (forall c, In c (executed s) -> In c (started s)) /\
  busy s = Z.of_nat (length (filter (fun t => match t with TRun _ | TRan => true | _ => false end) (threads s))) /\
  length (threads s) = n.
Proof.
  intros H. pose proof (inv_steps _ _ H) as [H1 H2 H3 H4 H5 H6 H7 H7' H8 H9]. repeat split; auto.
  - assert (NoDup (executed s ++ flat_map running (threads s))) as Hn.
    { eapply Permutation_NoDup; [eassumption|].
      assert (NoDup (started s ++ calls s)) as Hn by (rewrite H2; apply seq_NoDup).
      clear - Hn. induction (started s) as [|x l IH]; [constructor|]. cbn [app] in Hn. inversion Hn; subst. constructor; auto.
      intros ?. apply H1. apply in_or_app; auto. }
    clear - Hn. induction (executed s) as [|x l IH]; [constructor|]. cbn [app] in Hn. inversion Hn; subst. constructor; auto.
    intros ?. apply H1. apply in_or_app; auto.
  - intros c Hc. eapply Permutation_in; [apply Permutation_sym; eassumption|]. apply in_or_app; auto.
  - rewrite H4. f_equal. clear. induction (threads s) as [|t l IH]; [reflexivity|]. cbn [sum filter].
    destruct t; cbn [is_busy length]; lia.
Qed.

(** As long as the destructor is not called, the threads can run as long as some call is not executed. *)
Theorem progress n s : steps (initial n) s -> 0 < n -> dtor s = DNone ->
  (forall i, thread_step s i = None) -> Permutation (executed s) (seq 0 (accepted s)).
Proof.
  intros H Hn Hd Hi. pose proof (inv_steps _ _ H) as [H1 H2 H3 H4 H5 H6 H7 H7' H8 H9].
  rewrite Hd in H5. specialize (H6 H5).
  assert (Hall : forall i t, nth_error (threads s) i = Some t -> t = TWait /\ calls s = []).
  { intros i t Ht. specialize (Hi i). unfold thread_step in Hi. rewrite Ht, H5 in Hi.
    destruct t; try discriminate.
    - destruct (calls s); [auto|discriminate].
    - pose proof (sum_ge is_exited _ _ _ Ht) as Hge. cbn [is_exited] in Hge. lia. }
  assert (Hc : calls s = []).
  { destruct (nth_error (threads s) 0) as [t|] eqn:E; [apply (Hall 0 t E)|]. apply nth_error_None in E. lia. }
  assert (Hr : flat_map running (threads s) = []).
  { assert (Hw : forall t, In t (threads s) -> t = TWait).
    { intros t Ht. destruct (In_nth_error _ _ Ht) as [i Hti]. apply (Hall i t Hti). }
    clear - Hw. induction (threads s) as [|t l IH]; [reflexivity|]. cbn [flat_map]. rewrite (Hw t) by (left; reflexivity).
    apply IH. intros; apply Hw; right; assumption. }
  rewrite Hc, app_nil_r in H2. rewrite Hr, app_nil_r, H2 in H3. apply Permutation_sym. exact H3.
Qed.

(** The threads cannot run forever without new calls. *)
Definition tm (t : thread) : nat := match t with TRun _ => 3 | TRan => 2 | TWait => 1 | TExit => 0 end.
Definition measure (s : state) : nat := 3 * length (calls s) + sum tm (threads s) +
  match dtor s with DNone => 2 * length (threads s) + 2 | DJoin i => length (threads s) - i + 1 | DGone => 0 end.

Theorem threads_terminate s i s' : thread_step s i = Some s' -> measure s' < measure s.
Proof.
  unfold thread_step. destruct (nth_error (threads s) i) as [w|] eqn:E; [|discriminate].
  pose proof (fun w' => sum_set tm _ _ _ w' E) as Hset.
  destruct w as [|c| |]; try discriminate; [destruct (shutdown s); [|destruct (calls s) as [|c cs] eqn:Ec; [discriminate|]]| |];
    intros [= <-]; unfold measure; cbn [threads calls dtor length]; rewrite set_length, ?Ec; cbn [length].
  - specialize (Hset TExit). cbn [tm] in Hset. destruct (dtor s); lia.
  - specialize (Hset (TRun c)). cbn [tm] in Hset. destruct (dtor s); lia.
  - specialize (Hset TRan). cbn [tm] in Hset. destruct (dtor s); lia.
  - specialize (Hset TWait). cbn [tm] in Hset. destruct (dtor s); lia.
Qed.

Theorem dtor_terminates n s s' : steps (initial n) s -> dtor_step s = Some s' -> measure s' < measure s.
Proof.
  intros H. pose proof (inv_steps _ _ H) as [H1 H2 H3 H4 H5 H6 H7 H7' H8 H9].
  unfold dtor_step, measure. destruct (dtor s) as [|i|] eqn:E; try discriminate.
  - intros [= <-]. cbn [threads calls dtor]. lia.
  - destruct (nth_error (threads s) i) as [[]|] eqn:Ei; try discriminate; intros [= <-]; cbn [threads calls dtor]; [|lia].
    assert (i < length (threads s)) by (apply nth_error_Some; congruence). lia.
Qed.

(** TryAdd succeeds exactly if more threads are waiting than calls are queued... *)
Theorem try_add_iff n s : steps (initial n) s -> dtor s = DNone ->
  (TryAdd s <> None <-> length (calls s) < waiting s).
Proof.
  intros H Hd. pose proof (inv_steps _ _ H) as [H1 H2 H3 H4 H5 H6 H7 H7' H8 H9].
  rewrite Hd in H5. specialize (H6 H5). pose proof (sum_length (threads s)) as Hl. unfold waiting.
  unfold TryAdd, can_schedule_immediately. rewrite H4.
  destruct (Z.leb_spec (Z.of_nat (length (calls s)) + 1) (Z.of_nat (length (threads s)) - Z.of_nat (sum is_busy (threads s)))); split; intros; try discriminate; try congruence; try lia.
Qed.

(** ... and then a call accepted by TryAdd never has to wait for another call to complete: until it starts there are
    waiting threads for it and for all the calls before it in the queue. *)
Theorem try_add_no_wait n s c k : steps (initial n) s -> dtor s = DNone ->
  In c (tried s) -> nth_error (calls s) k = Some c -> k < waiting s /\ exists i s', thread_step s i = Some s' /\ started s' = started s ++ firstn 1 (calls s).
Proof.
  intros H Hd Hc Hk. pose proof (inv_steps _ _ H) as [H1 H2 H3 H4 H5 H6 H7 H7' H8 H9]. rewrite Hd in H5.
  pose proof (H7 H5 c k Hc Hk) as Hw. split; [assumption|].
  destruct (sum_pos is_waiting (threads s)) as (i & t & Ht & Hp); [unfold waiting in Hw; lia|].
  destruct t; cbn [is_waiting] in Hp; try lia. exists i. unfold thread_step. rewrite Ht, H5.
  destruct (calls s) as [|c0 cs]; [destruct k; discriminate|]. eexists. split; reflexivity.
Qed.

(** When the destructor returns, the calls that were started have been executed and the others never will be. *)
Theorem destroyed n s : steps (initial n) s -> dtor s = DGone ->
  Permutation (started s) (executed s) /\ Forall (eq TExit) (threads s) /\ forall s', ~ step s s'.
Proof.
  intros H Hd. pose proof (inv_steps _ _ H) as [H1 H2 H3 H4 H5 H6 H7 H7' H8 H9]. specialize (H9 Hd).
  split; [|split; [assumption|]].
  - replace (flat_map running (threads s)) with (@nil nat) in H3; [rewrite app_nil_r in H3; assumption|].
    clear - H9. induction H9; cbn; subst; auto.
  - intros s' Hs. destruct Hs; try congruence.
    + unfold thread_step in H0. destruct (nth_error (threads s) i) as [t|] eqn:E; [|discriminate].
      rewrite Forall_forall in H9. apply nth_error_In in E. apply H9 in E. subst. discriminate.
    + unfold dtor_step in H0. rewrite Hd in H0. discriminate.
Qed.

(** The destructor does not block forever. *)
Theorem destructor_progress n s : steps (initial n) s -> dtor s <> DNone -> dtor s <> DGone -> exists s', step s s'.
Proof.
  intros H Hn Hg. pose proof (inv_steps _ _ H) as [H1 H2 H3 H4 H5 H6 H7 H7' H8 H9].
  destruct (dtor s) as [|i|] eqn:E; try congruence.
  destruct (nth_error (threads s) i) as [t|] eqn:Ei.
  - destruct t.
    + eexists. apply (step_thread s i). unfold thread_step. rewrite Ei, H5. reflexivity.
    + eexists. apply (step_thread s i). unfold thread_step. rewrite Ei. reflexivity.
    + eexists. apply (step_thread s i). unfold thread_step. rewrite Ei. reflexivity.
    + eexists. apply step_dtor. unfold dtor_step. rewrite E, Ei. reflexivity.
  - eexists. apply step_dtor. unfold dtor_step. rewrite E, Ei. reflexivity.
Qed.

(** * Schedules *)
Inductive action := PAdd | PTryAdd | PThread (i : nat) | PDtor.
Definition execute (s : state) (a : action) : option state :=
  match a with
  | PAdd => match dtor s with DNone => Some (Add s) | _ => None end
  | PTryAdd => match dtor s with DNone => TryAdd s | _ => None end
  | PThread i => thread_step s i
  | PDtor => dtor_step s
  end.
Fixpoint schedule (s : state) (l : list action) : option state :=
  match l with [] => Some s | a :: l' => match execute s a with Some s' => schedule s' l' | None => None end end.
Lemma schedule_steps l : forall s0 s s', steps s0 s -> schedule s l = Some s' -> steps s0 s'.
Proof.
  induction l as [|a l IH]; cbn [schedule]; intros s0 s s' H Hs; [congruence|].
  destruct (execute s a) as [s1|] eqn:E; [|discriminate]. eapply IH; [|eassumption].
  econstructor; [eassumption|]. destruct a; cbn [execute] in E.
  - destruct (dtor s) eqn:Ed; try discriminate. injection E as <-. now constructor.
  - destruct (dtor s) eqn:Ed; try discriminate. eapply step_try_add; eauto.
  - eapply step_thread; eauto.
  - eapply step_dtor; eauto.
Qed.
