(** Proofs about Bundle_Model. *)
From Coq Require Import List Arith Bool ZArith Lia Permutation.
From Verif Require Import Bundle_Model.
Import ListNotations.

Definition errors (l : list (option error)) : list error := flat_map (fun r => match r with Some e => [e] | None => [] end) l.

Definition pending (w : worker) : list error := match w with WRun (Some e) => [e] | WUpdate e => [e] | _ => [] end.
Definition counted (w : worker) : Z := match w with WRun _ | WUpdate _ | WDecrement => 1 | _ => 0 end.
Definition adding (a : adder) : Z := match a with ACounted _ => 1 | _ => 0 end.
Fixpoint sum (f : worker -> Z) (l : list worker) : Z := match l with [] => 0 | w :: l' => f w + sum f l' end%Z.

Lemma sum_app f l1 l2 : sum f (l1 ++ l2) = (sum f l1 + sum f l2)%Z.
Proof. induction l1; cbn [sum app]; lia. Qed.

Lemma sum_set f : forall l i w w', nth_error l i = Some w -> sum f (set_nth i w' l) = (sum f l - f w + f w')%Z.
Proof.
  induction l; intros [|i] w w' H; cbn [nth_error set_nth sum] in *; try discriminate.
  - injection H as ->. lia.
  - rewrite (IHl i w w' H). lia.
Qed.

Lemma set_length : forall l i w, length (set_nth i w l) = length l.
Proof. induction l; intros [|i] w; cbn [set_nth length]; auto. Qed.

Lemma nth_set : forall l i j w, nth_error (set_nth i w l) j = if Nat.eqb i j then (match nth_error l i with Some _ => Some w | None => None end) else nth_error l j.
Proof.
  induction l; intros [|i] [|j] w; cbn [set_nth nth_error Nat.eqb]; auto.
  destruct (Nat.eqb i j); auto.
Qed.

Lemma flat_map_set (f : worker -> list error) : forall l i w w', nth_error l i = Some w ->
  exists l1 l2, flat_map f l = l1 ++ f w ++ l2 /\ flat_map f (set_nth i w' l) = l1 ++ f w' ++ l2.
Proof.
  induction l; intros [|i] w w' H; cbn [nth_error set_nth flat_map] in *; try discriminate.
  - injection H as ->. exists [], (flat_map f l). auto.
  - destruct (IHl i w w' H) as (l1 & l2 & H1 & H2). exists (f a ++ l1), l2. rewrite H1, H2, !app_assoc. auto.
Qed.

Lemma sum_nonneg f l : (forall w, (0 <= f w)%Z) -> (0 <= sum f l)%Z.
Proof. intros H. induction l; cbn [sum]; [lia|]. specialize (H a). lia. Qed.

Lemma sum_pos f l : (forall w, (0 <= f w)%Z) -> (0 < sum f l)%Z -> exists i w, nth_error l i = Some w /\ (0 < f w)%Z.
Proof.
  intros H. induction l; cbn [sum]; [lia|]. intros Hs.
  destruct (Z_lt_dec 0 (f a)) as [Ha|Ha].
  - exists 0%nat, a. auto.
  - destruct IHl as (i & w & Hi & Hw); [specialize (H a); lia|]. exists (S i), w. auto.
Qed.

(** The pieces of state of the joining thread. *)
Definition past_wait (j : joiner) : Prop := match j with JLock | JJoin _ | JStatus | JReturned _ | JTimeout => True | _ => False end.
Definition locked (j : joiner) : Prop := match j with JJoin _ | JStatus | JReturned _ => True | _ => False end.

Definition triggers (w : worker) : Z := match w with WCheck n => if (n =? 0)%Z then 1 else 0 | WNotify => 1 | _ => 0 end.

Record inv (s : state) : Prop := Inv {
  inv_active : active s = (sum counted (workers s) + adding (add s))%Z;
  inv_joining : joining s = match join s with JIdle => false | _ => true end;
  inv_perm : Permutation (errors (added s)) (failures s ++ flat_map pending (workers s));
  inv_len : length (added s) = length (workers s);
  inv_wait : join s = JWait -> (0 < active s)%Z \/ (0 < sum triggers (workers s))%Z \/ (0 < notifications s)%nat;
  inv_locked : locked (join s) -> add s = ANone;
  inv_join : forall i, join s = JJoin i -> (i <= length (workers s))%nat /\ forall j, (j < i)%nat -> nth_error (workers s) j = Some WDone;
  inv_done : (match join s with JStatus | JReturned _ => True | _ => False end) -> Forall (eq WDone) (workers s) }.

Lemma counted_nonneg w : (0 <= counted w)%Z. Proof. destruct w; cbn; lia. Qed.
Lemma triggers_nonneg w : (0 <= triggers w)%Z. Proof. destruct w; cbn; try lia. destruct (n =? 0)%Z; lia. Qed.

Lemma errors_app l1 l2 : errors (l1 ++ l2) = errors l1 ++ errors l2.
Proof. apply flat_map_app. Qed.

Lemma inv_initial : inv initial.
Proof. constructor; cbn; try discriminate; try tauto; auto. Qed.

Lemma all_done_nth l : Forall (eq WDone) l -> forall i w, nth_error l i = Some w -> w = WDone.
Proof. intros H i w Hi. apply nth_error_In in Hi. rewrite Forall_forall in H. symmetry. auto. Qed.

Lemma all_done_of_nth l : (forall j, (j < length l)%nat -> nth_error l j = Some WDone) -> Forall (eq WDone) l.
Proof.
  intros H. rewrite Forall_forall. intros x Hx. destruct (In_nth_error _ _ Hx) as [i Hi].
  assert (i < length l)%nat by (apply nth_error_Some; congruence).
  rewrite H in Hi by auto. congruence.
Qed.

(** A worker step preserves the invariant, whatever it does to its pc. *)
Lemma inv_worker timed s i s' : inv s -> worker_step s i = Some s' -> inv s' /\ step timed s s'.
Proof.
  intros [Ha Hj Hp Hn Hw Hl Hi Hd] H. split; [|econstructor 4; eassumption].
  unfold worker_step in H. destruct (nth_error (workers s) i) as [w|] eqn:E; [|discriminate].
  assert (Hnd : w <> WDone -> forall (X : Prop), (match join s with JStatus | JReturned _ => True | _ => False end) -> X).
  { intros Hne X HX. apply Hd in HX. apply (all_done_nth _ HX) in E. congruence. }
  assert (Hjj : w <> WDone -> forall w' k, join s = JJoin k ->
            (k <= length (set_nth i w' (workers s)))%nat /\ forall j, (j < k)%nat -> nth_error (set_nth i w' (workers s)) j = Some WDone).
  { intros Hne w' k Hk. destruct (Hi k Hk) as [H1 H2]. rewrite set_length. split; [assumption|].
    intros j Hjk. rewrite nth_set. destruct (Nat.eqb i j) eqn:Eij; auto.
    apply Nat.eqb_eq in Eij. subst. rewrite H2 in E by assumption. congruence. }
  pose proof (sum_nonneg counted (workers s) counted_nonneg) as Hc0.
  pose proof (sum_nonneg triggers (workers s) triggers_nonneg) as Ht0.
  assert (Hc1 : forall w', sum counted (set_nth i w' (workers s)) = (sum counted (workers s) - counted w + counted w')%Z) by (intros; apply sum_set; auto).
  assert (Ht1 : forall w', sum triggers (set_nth i w' (workers s)) = (sum triggers (workers s) - triggers w + triggers w')%Z) by (intros; apply sum_set; auto).
  destruct w as [[e|]|e| |n| |]; try discriminate; injection H as <-;
    (constructor; cbn [status joining notifications active workers add join failures added];
     [ rewrite ?Hc1; cbn [counted]; try (destruct (joining s && (n =? 0)%Z)); cbn [counted]; lia
     | assumption
     |
     | rewrite set_length; assumption
     | intros Hjw; specialize (Hw Hjw); rewrite Ht1; cbn [triggers]
     | assumption
     | apply Hjj; discriminate
     | apply Hnd; discriminate ]).
  - destruct (flat_map_set pending _ _ _ (WUpdate e) E) as (l1 & l2 & E1 & E2). rewrite E2. rewrite E1 in Hp. exact Hp.
  - lia.
  - destruct (flat_map_set pending _ _ _ WDecrement E) as (l1 & l2 & E1 & E2). rewrite E2. rewrite E1 in Hp. exact Hp.
  - lia.
  - destruct (flat_map_set pending _ _ _ WDecrement E) as (l1 & l2 & E1 & E2). rewrite E2. rewrite E1 in Hp. cbn [pending app] in *.
    rewrite Hp, <- app_assoc. apply Permutation_app_head. cbn [app]. apply Permutation_sym, Permutation_middle.
  - lia.
  - destruct (flat_map_set pending _ _ _ (WCheck (active s - 1)) E) as (l1 & l2 & E1 & E2). rewrite E2. rewrite E1 in Hp. exact Hp.
  - destruct (Z.eqb_spec (active s - 1) 0); lia.
  - destruct (flat_map_set pending _ _ _ (if joining s && (n =? 0)%Z then WNotify else WDone) E) as (l1 & l2 & E1 & E2). rewrite E2. rewrite E1 in Hp.
    destruct (joining s && (n =? 0)%Z); exact Hp.
  - rewrite Hjw in Hj. rewrite Hj. cbn [andb]. destruct (n =? 0)%Z; cbn [triggers]; lia.
  - destruct (flat_map_set pending _ _ _ WDone E) as (l1 & l2 & E1 & E2). rewrite E2. rewrite E1 in Hp. exact Hp.
  - lia.
Qed.

Lemma inv_joinstep s s' : inv s -> join_step s = Some s' -> inv s'.
Proof.
  intros [Ha Hj Hp Hn Hw Hl Hi Hd] H. unfold join_step in H.
  destruct (join s) as [| | | | |i| |r] eqn:E; try discriminate.
  - injection H as <-. constructor; cbn [status joining notifications active workers add join failures added locked]; auto; try discriminate; tauto.
  - injection H as <-. destruct (Z.ltb_spec 0 (active s)); constructor; cbn [set_join status joining notifications active workers add join failures added locked]; auto; try discriminate; tauto.
  - destruct (0 <? notifications s)%nat; [|discriminate]. injection H as <-.
    constructor; cbn [set_join status joining notifications active workers add join failures added locked]; auto; try discriminate; tauto.
  - injection H as <-. constructor; cbn [status joining notifications active workers add join failures added locked]; auto; try discriminate; tauto.
  - destruct (add s) eqn:Ea; try discriminate. injection H as <-.
    constructor; cbn [set_join status joining notifications active workers add join failures added locked]; auto; try discriminate; try tauto.
    + rewrite Ea. exact Ha.
    + intros i Hi0. injection Hi0 as <-. split; [lia|]. intros; lia.
  - destruct (Hi i eq_refl) as [H1 H2].
    destruct (nth_error (workers s) i) as [w|] eqn:Ei.
    + destruct w; try discriminate. injection H as <-.
      constructor; cbn [set_join status joining notifications active workers add join failures added locked]; auto; try discriminate; try tauto.
      intros k Hk. injection Hk as <-.
      assert (i < length (workers s))%nat by (apply nth_error_Some; congruence). split; [lia|].
      intros j Hjk. destruct (Nat.eq_dec j i); [subst; assumption|]. apply H2. lia.
    + injection H as <-.
      constructor; cbn [set_join status joining notifications active workers add join failures added locked]; auto; try discriminate; try tauto.
      intros _. apply nth_error_None in Ei. apply all_done_of_nth. intros j Hjl. apply H2. lia.
  - injection H as <-.
    constructor; cbn [set_join status joining notifications active workers add join failures added locked]; auto; try discriminate; tauto.
Qed.

Lemma inv_step timed s s' : inv s -> step timed s s' -> inv s'.
Proof.
  intros HI H. pose proof HI as [Ha Hj Hp Hn Hw Hl Hi Hd]. destruct H.
  - assert (Hidle : join s = JIdle) by (destruct (join s); congruence).
    constructor; cbn [set_add status joining notifications active workers add join failures added]; auto.
    + rewrite Ha, H. reflexivity.
    + rewrite Hidle. intros [].
  - constructor; cbn [status joining notifications active workers add join failures added]; auto.
    + rewrite Ha, H. cbn [adding]. lia.
    + intros Hw'. specialize (Hw Hw'). lia.
    + intros Hk. apply Hl in Hk. congruence.
  - assert (Hnl : ~ locked (join s)) by (intros Hk; apply Hl in Hk; congruence).
    constructor; cbn [status joining notifications active workers add join failures added]; auto.
    + rewrite Ha, H, sum_app. cbn [adding sum counted]. lia.
    + rewrite errors_app, flat_map_app, app_assoc. apply Permutation_app; [assumption|].
      destruct r; cbn; apply Permutation_refl.
    + rewrite !app_length. cbn [length]. lia.
    + intros Hw'. specialize (Hw Hw'). rewrite sum_app. cbn [sum triggers]. lia.
    + intros i Hk. rewrite Hk in Hnl. cbn in Hnl. tauto.
    + intros Hk. destruct (join s); cbn in *; tauto.
  - eapply inv_worker; eauto.
  - eapply inv_joinstep; eauto.
  - constructor; cbn [set_join status joining notifications active workers add join failures added locked]; auto; try discriminate; try tauto.
    rewrite Hj, H0. reflexivity.
Qed.

Lemma inv_steps timed s : steps timed initial s -> inv s.
Proof. intros H. remember initial as s0. induction H; subst; eauto using inv_initial, inv_step. Qed.

(** The status. *)
Definition status_inv (timed : bool) (s : state) : Prop :=
  status s = hd_error (failures s) \/ timed = true /\ status s = Some DeadlineExceeded.

Lemma status_step timed s s' : status_inv timed s -> (timed = false -> join s <> JTimeout) -> step timed s s' -> status_inv timed s'.
Proof.
  intros HI Ht H. unfold status_inv in *. destruct H; cbn [set_add set_join status failures]; auto.
  - unfold worker_step in H. destruct (nth_error (workers s) i) as [[[e|]|e| |n| |]|]; try discriminate; injection H as <-; cbn [status failures]; auto.
    destruct HI as [HI|[? HI]].
    + left. rewrite HI. destruct (failures s); reflexivity.
    + right. rewrite HI. auto.
  - unfold join_step in H. destruct (join s) eqn:E; try discriminate.
    + injection H as <-; auto.
    + injection H as <-; auto.
    + destruct (0 <? notifications s)%nat; [|discriminate]. injection H as <-; auto.
    + injection H as <-. right. cbn. split; auto. destruct timed; auto. now destruct Ht.
    + destruct (add s); try discriminate. injection H as <-; auto.
    + destruct (nth_error (workers s) i) as [[]|]; try discriminate; injection H as <-; auto.
    + injection H as <-; auto.
Qed.

Lemma no_timeout s : steps false initial s -> join s <> JTimeout.
Proof.
  intros H. remember initial as s0. induction H; subst; [discriminate|].
  specialize (IHsteps eq_refl). destruct H0; cbn [set_add set_join join]; auto; try discriminate.
  - unfold worker_step in H0. destruct (nth_error (workers s2) i) as [[[e|]|e| |n| |]|]; try discriminate; injection H0 as <-; cbn [join]; auto.
  - unfold join_step in H0. destruct (join s2) eqn:E; try discriminate; try tauto.
    + injection H0 as <-; cbn; discriminate.
    + injection H0 as <-; cbn. destruct (0 <? active s2)%Z; discriminate.
    + destruct (0 <? notifications s2)%nat; [|discriminate]. injection H0 as <-; cbn; discriminate.
    + destruct (add s2); try discriminate. injection H0 as <-; cbn; discriminate.
    + destruct (nth_error (workers s2) i) as [[]|]; try discriminate; injection H0 as <-; cbn; discriminate.
    + injection H0 as <-; cbn; discriminate.
Qed.

Lemma status_steps timed s : steps timed initial s -> status_inv timed s.
Proof.
  intros H. remember initial as s0. induction H; subst; [left; reflexivity|].
  eapply status_step; eauto. intros ->. apply no_timeout. assumption.
Qed.

(** The value returned is the status at the time of the return and never changes afterwards. *)
Lemma returned_status timed s r : steps timed initial s -> join s = JReturned r -> r = status s.
Proof.
  intros H. revert r. remember initial as s0. induction H; subst; [discriminate|].
  specialize (IHsteps eq_refl). pose proof (inv_steps _ _ H) as [Ha Hj Hp Hn Hw Hl Hi Hd]. intros r Hr.
  destruct H0; cbn [set_add set_join join status] in *; auto; try discriminate.
  - unfold worker_step in H0. destruct (nth_error (workers s2) i) as [w|] eqn:E; [|discriminate].
    assert (join s2 = JReturned r) as Hr2.
    { destruct w as [[e|]|e| |n| |]; try discriminate; injection H0 as <-; exact Hr. }
    rewrite Hr2 in Hd. specialize (Hd I). apply (all_done_nth _ Hd) in E. subst. discriminate.
  - unfold join_step in H0. destruct (join s2) eqn:E; try discriminate.
    + injection H0 as <-; discriminate.
    + injection H0 as <-; cbn in Hr. destruct (0 <? active s2)%Z; discriminate.
    + destruct (0 <? notifications s2)%nat; [|discriminate]. injection H0 as <-; discriminate.
    + injection H0 as <-; discriminate.
    + destruct (add s2); try discriminate. injection H0 as <-; discriminate.
    + destruct (nth_error (workers s2) i) as [[]|]; try discriminate; injection H0 as <-; discriminate.
    + injection H0 as <-; cbn in *. congruence.
Qed.

Lemma all_done_pending l : Forall (eq WDone) l -> flat_map pending l = [].
Proof. induction 1; cbn; subst; auto. Qed.

Theorem join_returns timed s r : steps timed initial s -> join s = JReturned r ->
  Forall (eq WDone) (workers s) /\ length (workers s) = length (added s) /\ add s = ANone /\
  Permutation (errors (added s)) (failures s) /\
  (r = hd_error (failures s) \/ timed = true /\ r = Some DeadlineExceeded).
Proof.
  intros H Hr. pose proof (inv_steps _ _ H) as [Ha Hj Hp Hn Hw Hl Hi Hd]. rewrite Hr in *.
  specialize (Hd I). repeat split; auto.
  - apply Hl. exact I.
  - rewrite (all_done_pending _ Hd), app_nil_r in Hp. exact Hp.
  - rewrite (returned_status _ _ _ H Hr). apply status_steps. assumption.
Qed.

(** * No deadlock *)

Lemma worker_can_step s i w : nth_error (workers s) i = Some w -> w <> WDone -> exists s', worker_step s i = Some s'.
Proof. intros H Hw. unfold worker_step. rewrite H. destruct w as [[e|]|e| |n| |]; try (eexists; reflexivity). congruence. Qed.

Theorem progress timed s : steps timed initial s -> (forall r, join s <> JReturned r) -> exists s', step timed s s'.
Proof.
  intros H Hr. pose proof (inv_steps _ _ H) as [Ha Hj Hp Hn Hw Hl Hi Hd].
  assert (Hadd : add s <> ANone -> exists s', step timed s s').
  { intros Hne. destruct (add s) eqn:E; [congruence|eexists; eapply step_add_count; eauto|eexists; eapply step_add_start; eauto]. }
  destruct (add s) eqn:Ea; [|apply Hadd; discriminate|apply Hadd; discriminate].
  assert (Hws : forall i w, nth_error (workers s) i = Some w -> w <> WDone -> exists s', step timed s s').
  { intros i w H1 H2. destruct (worker_can_step _ _ _ H1 H2). eauto using step_worker. }
  destruct (join s) as [| | | | |i| |r] eqn:E.
  - eexists. eapply step_join. unfold join_step. rewrite E. reflexivity.
  - eexists. eapply step_join. unfold join_step. rewrite E. reflexivity.
  - destruct (Nat.ltb_spec 0 (notifications s)) as [Hlt|Hlt].
    + eexists. eapply step_join. unfold join_step. rewrite E. apply Nat.ltb_lt in Hlt. rewrite Hlt. reflexivity.
    + destruct (Hw eq_refl) as [Hact|[Htr|Hno]]; [| |lia].
      * rewrite Ha in Hact. cbn [adding] in Hact.
        destruct (sum_pos counted (workers s) counted_nonneg) as (i & w & Hn1 & Hn2); [lia|].
        apply (Hws i w); auto. intros ->. cbn in Hn2. lia.
      * destruct (sum_pos triggers (workers s) triggers_nonneg) as (i & w & Hn1 & Hn2); [lia|].
        apply (Hws i w); auto. intros ->. cbn in Hn2. lia.
  - eexists. eapply step_join. unfold join_step. rewrite E. reflexivity.
  - eexists. eapply step_join. unfold join_step. rewrite E, Ea. reflexivity.
  - destruct (nth_error (workers s) i) as [w|] eqn:Ei.
    + destruct w; try (apply (Hws i _ Ei); discriminate).
      eexists. eapply step_join. unfold join_step. rewrite E, Ei. reflexivity.
    + eexists. eapply step_join. unfold join_step. rewrite E, Ei. reflexivity.
  - eexists. eapply step_join. unfold join_step. rewrite E. reflexivity.
  - exfalso. apply (Hr r). reflexivity.
Qed.

(** * Termination: once the joining thread has set joining_, every step decreases a measure. *)
Definition wm (w : worker) : Z := match w with WRun _ => 6 | WUpdate _ => 5 | WDecrement => 4 | WCheck _ => 3 | WNotify => 2 | WDone => 1 end%Z.
Definition am (a : adder) : Z := match a with ANone => 0 | AChecked _ => 9 | ACounted _ => 8 end.
Definition jm (s : state) : Z :=
  let n := Z.of_nat (length (workers s)) in
  match join s with JIdle => 7 | JRead => 6 | JWait => 5 | JTimeout => 4 | JLock => 3
  | JJoin i => 2 - Z.of_nat i | JStatus => 1 - n | JReturned _ => - n end.
Definition measure (s : state) : Z := 2 * sum wm (workers s) + 2 * am (add s) + jm s.

Lemma sum_wm l : (Z.of_nat (length l) <= sum wm l)%Z.
Proof. induction l; cbn [sum length]; [lia|]. assert (1 <= wm a)%Z by (destruct a; cbn; lia). lia. Qed.

Lemma measure_nonneg timed s : steps timed initial s -> (0 <= measure s)%Z.
Proof.
  intros H. pose proof (inv_steps _ _ H) as [Ha Hj Hp Hn Hw Hl Hi Hd]. unfold measure, jm.
  pose proof (sum_wm (workers s)). assert (0 <= am (add s))%Z by (destruct (add s); cbn; lia).
  destruct (join s) eqn:E; try lia. destruct (Hi _ eq_refl). lia.
Qed.

Theorem measure_decreases timed s s' : steps timed initial s -> joining s = true -> step timed s s' -> (measure s' < measure s)%Z.
Proof.
  intros H Hjo Hs. pose proof (inv_steps _ _ H) as [Ha Hj Hp Hn Hw Hl Hi Hd].
  destruct Hs; unfold measure, jm; cbn [set_add set_join workers add join].
  - congruence.
  - rewrite H0. cbn [am]. lia.
  - rewrite H0, sum_app, app_length. cbn [am sum wm length].
    destruct (join s) eqn:E; try lia.
  - unfold worker_step in H0. destruct (nth_error (workers s) i) as [w|] eqn:E; [|discriminate].
    assert (Hc1 : forall w', sum wm (set_nth i w' (workers s)) = (sum wm (workers s) - wm w + wm w')%Z) by (intros; apply sum_set; auto).
    destruct w as [[e|]|e| |n| |]; try discriminate; injection H0 as <-; cbn [workers add join]; rewrite Hc1, set_length; cbn [wm];
      try lia. destruct (joining s && (n =? 0)%Z); cbn [wm]; lia.
  - unfold join_step in H0. destruct (join s) eqn:E; try discriminate.
    + injection H0 as <-; cbn [workers add join]; lia.
    + injection H0 as <-; cbn [set_join workers add join]. destruct (0 <? active s)%Z; lia.
    + destruct (0 <? notifications s)%nat; [|discriminate]. injection H0 as <-; cbn [set_join workers add join]; lia.
    + injection H0 as <-; cbn [workers add join]; lia.
    + destruct (add s) eqn:Ea; try discriminate. injection H0 as <-; cbn [set_join workers add join]; rewrite ?Ea; cbn [am]; lia.
    + destruct (nth_error (workers s) i) as [w|] eqn:Ei.
      * destruct w; try discriminate; injection H0 as <-; cbn [set_join workers add join]; lia.
      * injection H0 as <-; cbn [set_join workers add join]. destruct (Hi i eq_refl). apply nth_error_None in Ei. lia.
    + injection H0 as <-; cbn [set_join workers add join]; lia.
  - rewrite H1. lia.
Qed.

(** * Notifications *)

(** Executions in which, before [joining_] is set, the counter never drops to 0, and no call to Add is in
    progress when [joining_] is set. *)
Definition calm (s : state) : Prop :=
  (joining s = false -> forall n, In (WCheck n) (workers s) -> n <> 0%Z) /\ (joining s = true -> add s = ANone).

Inductive calm_steps (timed : bool) : state -> state -> Prop :=
| calm_refl s : calm_steps timed s s
| calm_step s1 s2 s3 : calm_steps timed s1 s2 -> step timed s2 s3 -> calm s3 -> calm_steps timed s1 s3.

Lemma calm_steps_steps timed s1 s2 : calm_steps timed s1 s2 -> steps timed s1 s2.
Proof. induction 1; eauto using steps. Qed.

Definition once (s : state) : Prop :=
  (joining s = false -> notifications s = 0%nat /\ ~ In WNotify (workers s)) /\
  (joining s = true -> add s = ANone) /\
  (Z.of_nat (notifications s) + sum triggers (workers s) <= 1)%Z /\
  ((0 < active s)%Z -> (Z.of_nat (notifications s) + sum triggers (workers s) = 0)%Z).

Lemma no_triggers l : (forall n, In (WCheck n) l -> n <> 0%Z) -> ~ In WNotify l -> sum triggers l = 0%Z.
Proof.
  induction l as [|w l IH]; intros H1 H2; [reflexivity|]. cbn [sum].
  rewrite IH; [|intros; apply H1; right; assumption|intros ?; apply H2; right; assumption].
  destruct w; cbn [triggers]; try lia.
  - destruct (Z.eqb_spec n 0); [|lia]. exfalso. apply (H1 n); [left; reflexivity|assumption].
  - exfalso. apply H2. left. reflexivity.
Qed.

Lemma In_set l : forall i w x, In x (set_nth i w l) -> x = w \/ In x l.
Proof.
  induction l; intros [|i] w x H; cbn [set_nth In] in *; try tauto.
  - destruct H; [left; auto|tauto].
  - destruct H; [tauto|]. apply IHl in H. tauto.
Qed.

Lemma once_step timed s s' : inv s -> once s -> step timed s s' -> calm s' -> once s'.
Proof.
  intros HI (H1 & H2 & H3 & H4) Hs (C1 & C2). pose proof HI as [Ha Hj Hp Hn Hw Hl Hi Hd].
  destruct (joining s') eqn:Ej'.
  2: { (* before Join *)
    assert (Hq : notifications s' = 0%nat /\ ~ In WNotify (workers s')).
    { destruct Hs; cbn [set_add set_join joining notifications workers] in *.
      - auto.
      - auto.
      - destruct (H1 Ej'). split; auto. rewrite in_app_iff. intros [?|[?|[]]]; [tauto|discriminate].
      - unfold worker_step in H. destruct (nth_error (workers s) i) as [w|] eqn:E; [|discriminate].
        assert (Hjs : joining s = false) by (destruct w as [[e|]|e| |n| |]; try discriminate; injection H as <-; exact Ej').
        destruct (H1 Hjs) as [Hn0 Hn1].
        assert (w <> WNotify) by (intros ->; apply Hn1; eapply nth_error_In; eauto).
        rewrite Hjs in H. cbn [andb] in H.
        destruct w as [[e|]|e| |n| |]; try discriminate; try congruence; injection H as <-; cbn [notifications workers];
          (split; [assumption|]); intros Hin; apply In_set in Hin; destruct Hin as [Hin|Hin]; try discriminate; tauto.
      - exfalso. unfold join_step in H. destruct (join s) eqn:E; try discriminate.
        + injection H as <-; discriminate.
        + injection H as <-; cbn in Ej'; congruence.
        + destruct (0 <? notifications s)%nat; [|discriminate]. injection H as <-; cbn in Ej'; congruence.
        + injection H as <-; cbn in Ej'; congruence.
        + destruct (add s); try discriminate. injection H as <-; cbn in Ej'; congruence.
        + destruct (nth_error (workers s) i) as [[]|]; try discriminate; injection H as <-; cbn in Ej'; congruence.
        + injection H as <-; cbn in Ej'; congruence.
      - rewrite Hj, H0 in Ej'. discriminate. }
    destruct Hq as [Hq1 Hq2]. specialize (C1 eq_refl). pose proof (no_triggers _ C1 Hq2).
    unfold once. rewrite Ej'. repeat split; auto; try discriminate; lia. }
  specialize (C2 eq_refl).
  unfold once. rewrite Ej'. split; [discriminate|]. split; [auto|].
  pose proof (sum_nonneg counted (workers s) counted_nonneg) as Hc0.
  destruct Hs; cbn [set_add set_join joining notifications workers active add] in *; try congruence; try (split; assumption).
  - (* the last phase of an Add cannot be concurrent with joining *)
    specialize (H2 Ej'). congruence.
  - unfold worker_step in H. destruct (nth_error (workers s) i) as [w|] eqn:E; [|discriminate].
    assert (Hc1 : forall w', sum counted (set_nth i w' (workers s)) = (sum counted (workers s) - counted w + counted w')%Z) by (intros; apply sum_set; auto).
    assert (Ht1 : forall w', sum triggers (set_nth i w' (workers s)) = (sum triggers (workers s) - triggers w + triggers w')%Z) by (intros; apply sum_set; auto).
    destruct w as [[e|]|e| |n| |]; try discriminate; injection H as <-; cbn [notifications workers active joining add] in *; rewrite Ht1; cbn [triggers] in *;
      try (split; [lia|]; intros Hpos; specialize (H4 Hpos); lia).
    + (* decrement *)
      assert (Hpos : (0 < active s)%Z).
      { rewrite Ha, C2. cbn [adding].
        specialize (Hc1 WDone). cbn [counted] in Hc1. pose proof (sum_nonneg counted (set_nth i WDone (workers s)) counted_nonneg). lia. }
      specialize (H4 Hpos). destruct (Z.eqb_spec (active s - 1) 0); lia.
    + rewrite Ej'. cbn [andb]. destruct (n =? 0)%Z; cbn [triggers]; (split; [lia|]; intros Hpos; specialize (H4 Hpos); lia).
  - unfold join_step in H. destruct (join s) eqn:E; try discriminate.
    + injection H as <-; cbn [notifications workers active]; split; assumption.
    + injection H as <-; cbn [set_join notifications workers active]; split; assumption.
    + destruct (0 <? notifications s)%nat; [|discriminate]. injection H as <-; cbn [set_join notifications workers active]; split; assumption.
    + injection H as <-; cbn [notifications workers active]; split; assumption.
    + destruct (add s); try discriminate. injection H as <-; cbn [set_join notifications workers active]; split; assumption.
    + destruct (nth_error (workers s) i) as [[]|]; try discriminate; injection H as <-; cbn [set_join notifications workers active]; split; assumption.
    + injection H as <-; cbn [set_join notifications workers active]; split; assumption.
Qed.

Theorem notified_at_most_once timed s : calm_steps timed initial s -> (notifications s <= 1)%nat.
Proof.
  intros H. assert (Ho : once s).
  { remember initial as s0. induction H; subst.
    - unfold once; cbn. repeat split; auto; try discriminate; lia.
    - eapply once_step; eauto. eapply inv_steps, calm_steps_steps; eauto. }
  destruct Ho as (_ & _ & H3 & _). pose proof (sum_nonneg triggers (workers s) triggers_nonneg). lia.
Qed.

(** * The races *)

(** Executes the steps chosen by a schedule. *)
Inductive action := AAdd (r : option error) | AAdder | AWorker (i : nat) | AJoin.
Definition execute (s : state) (a : action) : option state :=
  match a with
  | AAdd r => match add s, joining s with ANone, false => Some (set_add (AChecked r) s) | _, _ => None end
  | AAdder => match add s with
      | AChecked r => Some (State (status s) (joining s) (notifications s) (active s + 1) (workers s) (ACounted r) (join s) (failures s) (added s))
      | ACounted r => Some (State (status s) (joining s) (notifications s) (active s) (workers s ++ [WRun r]) ANone (join s) (failures s) (added s ++ [r]))
      | ANone => None end
  | AWorker i => worker_step s i
  | AJoin => join_step s
  end.
Fixpoint schedule (s : state) (l : list action) : option state :=
  match l with [] => Some s | a :: l' => match execute s a with Some s' => schedule s' l' | None => None end end.

Lemma execute_step timed s a s' : execute s a = Some s' -> step timed s s'.
Proof.
  destruct a; cbn [execute].
  - destruct (add s) eqn:E1, (joining s) eqn:E2; try discriminate. intros [= <-]. now constructor.
  - destruct (add s) eqn:E1; try discriminate; intros [= <-]; [eapply step_add_count|eapply step_add_start]; eauto.
  - apply step_worker.
  - apply step_join.
Qed.

Lemma schedule_steps timed l : forall s0 s s', steps timed s0 s -> schedule s l = Some s' -> steps timed s0 s'.
Proof.
  induction l as [|a l IH]; cbn [schedule]; intros s0 s s' H Hs; [congruence|].
  destruct (execute s a) as [s1|] eqn:E; [|discriminate]. eapply IH; [|eassumption].
  econstructor; [eassumption|]. eapply execute_step; eauto.
Qed.
