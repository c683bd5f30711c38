(** The symplectic Runge-Kutta-Nyström integrators. *)
From Coq Require Import Reals List Bool Arith Lra Lia FunctionalExtensionality.
From Verif Require Import OneStep_Model Multistep_Proofs Multistep_Proofs2 OneStep_Proofs.
Import ListNotations.
Open Scope R_scope.

(** * Kicks and drifts *)
(** The motions without velocity changes and without position changes; time passes in the former. *)
Inductive Op := Kick (tau : R) | Drift (tau : R).
Definition act (f : R -> Vec -> Vec) (o : Op) (s : State) : State :=
  match o with
  | Kick tau => mkState (time s) (positions s) (fun d => velocities s d + tau * f (time s) (positions s) d)
  | Drift tau => mkState (time s + tau) (fun d => positions s d + tau * velocities s d) (velocities s)
  end.
Definition run (f : R -> Vec -> Vec) (l : list Op) (s : State) : State := fold_left (fun s o => act f o s) l s.
Definition kick_drift (m : SRKN) (h : R) (i : nat) : list Op := [Kick (h * b_ m i); Drift (h * a_ m i)].
(** The composition of a method: alternating kicks and drifts, starting and ending with the letters of its name. *)
Definition ops (m : SRKN) (h : R) : list Op :=
  let n := stages m in
  match composition m with
  | BA => flat_map (kick_drift m h) (seq 0 n)
  | ABA => Drift (h * a_ m 0) :: flat_map (kick_drift m h) (seq 1 (n - 1))
  | BAB => flat_map (kick_drift m h) (seq 0 (n - 1)) ++ [Kick (h * b_ m (n - 1))]
  end.
Lemma run_app : forall f l1 l2 s, run f (l1 ++ l2) s = run f l2 (run f l1 s).
Proof. intros. unfold run. apply fold_left_app. Qed.

Lemma kick_0 : forall f s, act f (Kick 0) s = s.
Proof. intros f [t q v]. cbn. f_equal. apply functional_extensionality. intros d. ring. Qed.
Lemma drift_0 : forall f s, act f (Drift 0) s = s.
Proof. intros f [t q v]. cbn. f_equal; [ring|]. apply functional_extensionality. intros d. ring. Qed.

Lemma fold_plus : forall l z, fold_left Rplus l z = z + fold_left Rplus l 0.
Proof.
  induction l as [|x l IH]; intros z; cbn; [ring|]. rewrite IH, (IH (0 + x)). ring.
Qed.
Lemma c_S : forall m i, c_ m (S i) = c_ m i + a_ m i.
Proof.
  intros m i. unfold c_, a_. generalize (srkn_a m). intros l. revert i. induction l as [|x l IH]; intros i.
  - destruct i; cbn; ring.
  - destruct i as [|i].
    + cbn. destruct l; cbn; ring.
    + change (firstn (S (S i)) (x :: l)) with (x :: firstn (S i) l). change (firstn (S i) (x :: l)) with (x :: firstn i l).
      cbn [fold_left nth]. rewrite fold_plus, (fold_plus (firstn i l)), IH. ring.
Qed.
Lemma c_0 : forall m, c_ m 0 = 0.
Proof. reflexivity. Qed.

Section Srkn.
  Variables (m : SRKN) (f : Acceleration) (h : R).
  Definition field (t : R) (q : Vec) : Vec := snd (f t q).
  (** The kicks and drifts of the stages up to [i], and the values of the code. *)
  Definition upto (s : State) (i : nat) (acc : Vec * Vec * Vec * Status) : Prop :=
    let '(dq, dv, g, st) := acc in
    run field (flat_map (kick_drift m h) (seq 0 i)) s
    = mkState (time s + c_ m i * h) (vadd (positions s) dq) (vadd (velocities s) dv).
  Lemma stage_upto : forall s i acc, upto s i acc -> upto s (S i) (srkn_stage m f h s acc i).
  Proof.
    intros s i [[[dq dv] g] st] H. unfold upto in *. cbn [srkn_stage].
    destruct (f (time s + c_ m i * h) (vadd (positions s) dq)) as [st' g'] eqn:E.
    rewrite seq_S, flat_map_app, run_app, H. cbn [plus flat_map app kick_drift run fold_left act time positions velocities].
    unfold field. rewrite E. cbn [snd]. f_equal.
    - rewrite c_S. ring.
    - apply functional_extensionality. intros d. unfold vadd, vscal. ring.
    - apply functional_extensionality. intros d. unfold vadd, vscal. ring.
  Qed.
  Lemma stages_upto : forall n s i acc, upto s i acc -> upto s (i + n) (fold_left (srkn_stage m f h s) (seq i n) acc).
  Proof.
    induction n as [|n IH]; intros s i acc H; [rewrite Nat.add_0_r; exact H|].
    cbn [seq fold_left]. replace (i + S n)%nat with (S i + n)%nat by lia. apply IH. apply stage_upto. exact H.
  Qed.
  (** The accelerations after the last stage are those of its positions. *)
  Lemma last_stage : forall n s i acc, (0 < n)%nat ->
    let '(dq0, _, _, _) := fold_left (srkn_stage m f h s) (seq i (n - 1)) acc in
    let '(_, _, g, _) := fold_left (srkn_stage m f h s) (seq i n) acc in
    g = field (time s + c_ m (i + n - 1) * h) (vadd (positions s) dq0).
  Proof.
    intros n s i acc Hn. destruct n as [|n]; [lia|]. replace (S n - 1)%nat with n by lia. rewrite seq_S, fold_left_app.
    destruct (fold_left (srkn_stage m f h s) (seq i n) acc) as [[[dq dv] g] st]. cbn [fold_left srkn_stage].
    replace (i + S n - 1)%nat with (i + n)%nat by lia. unfold field.
    destruct (f (time s + c_ m (i + n) * h) (vadd (positions s) dq)) as [st' g']. reflexivity.
  Qed.

  Definition srkn_good (s : State) (g : Vec) : Prop :=
    match composition m with BAB => g = field (time s) (positions s) | _ => True end.
  Definition srkn_one (s : State) : State := fst (fst (srkn_iterate m f h s (field (time s) (positions s)))).
  Definition srkn_status (s : State) : Status := snd (srkn_iterate m f h s (field (time s) (positions s))).
  (** The drifts take one step. *)
  Definition consistent : Prop := c_ m (stages m) = 1.

  Lemma all_ops : srkn_checks m = true -> (0 < stages m)%nat -> forall s,
    run field (flat_map (kick_drift m h) (seq 0 (stages m))) s = run field (ops m h) s.
  Proof.
    intros C P s. unfold ops, srkn_checks in *. destruct (composition m).
    - reflexivity.
    - destruct (stages m) as [|n]; [lia|]. replace (S n - 1)%nat with n in * by lia. cbn [seq flat_map kick_drift app].
      cbn [run fold_left]. apply andb_prop in C. destruct C as [C _]. apply Reqb_eq in C. rewrite <- C, Rmult_0_r, kick_0. reflexivity.
    - destruct (stages m) as [|n]; [lia|]. replace (S n - 1)%nat with n in * by lia. rewrite seq_S, flat_map_app, !run_app.
      cbn [plus flat_map kick_drift app run fold_left].
      apply andb_prop in C. destruct C as [C _]. apply Reqb_eq in C. rewrite <- C, Rmult_0_r, drift_0. reflexivity.
  Qed.
  Lemma srkn_iterate_spec : srkn_checks m = true -> (0 < stages m)%nat -> consistent -> forall s g, srkn_good s g ->
    let '(s', g', _) := srkn_iterate m f h s g in
    s' = run field (ops m h) s /\ (is_bab m = true -> (2 <= stages m)%nat -> g' = field (time s') (positions s')).
  Proof.
    intros C P K s g G. rewrite <- (all_ops C P).
    assert (Z : upto s 0 (vzero, vzero, g, Ok)).
    { unfold upto. cbn [seq flat_map run fold_left]. rewrite c_0. destruct s as [t q v]. cbn [time positions velocities]. f_equal.
      - ring.
      - apply functional_extensionality. intros d. unfold vadd, vzero. ring.
      - apply functional_extensionality. intros d. unfold vadd, vzero. ring. }
    assert (F : forall k dq dv, upto s k (dq, dv, g, Ok) -> (k <= stages m)%nat ->
      let '(dq', dv', g', st) := fold_left (srkn_stage m f h s) (seq k (stages m - k)) (dq, dv, g, Ok) in
      mkState (time s + h) (vadd (positions s) dq') (vadd (velocities s) dv')
      = run field (flat_map (kick_drift m h) (seq 0 (stages m))) s).
    { intros k dq dv U L. pose proof (stages_upto (stages m - k) s k _ U) as H.
      destruct (fold_left (srkn_stage m f h s) (seq k (stages m - k)) (dq, dv, g, Ok)) as [[[dq' dv'] g'] st].
      unfold upto in H. replace (k + (stages m - k))%nat with (stages m) in H by lia. rewrite H, K. f_equal. ring. }
    assert (U1 : composition m <> BA ->
       upto s 1 (vadd vzero (vscal (h * a_ m 0) (vadd (velocities s) (if is_bab m then vadd vzero (vscal (h * b_ m 0) g) else vzero))),
                 if is_bab m then vadd vzero (vscal (h * b_ m 0) g) else vzero, g, Ok)).
    { intros N. unfold upto. cbn [seq flat_map kick_drift app run fold_left act time positions velocities]. rewrite c_S, c_0.
      unfold is_bab, srkn_good, srkn_checks in *. destruct (composition m); [congruence| |].
      - apply andb_prop in C. destruct C as [C _]. apply Reqb_eq in C. rewrite <- C. f_equal.
        + ring.
        + apply functional_extensionality. intros d. unfold vadd, vscal, vzero. ring.
        + apply functional_extensionality. intros d. unfold vadd, vscal, vzero. ring.
      - subst g. f_equal.
        + ring.
        + apply functional_extensionality. intros d. unfold vadd, vscal, vzero. ring.
        + apply functional_extensionality. intros d. unfold vadd, vscal, vzero. ring. }
    unfold srkn_iterate, first_stage. destruct (composition m) eqn:Co.
    - pose proof (F 0%nat vzero vzero Z ltac:(lia)) as H.
      destruct (fold_left (srkn_stage m f h s) _ _) as [[[dq' dv'] g'] st]. split; [exact H|].
      unfold is_bab. rewrite Co. discriminate.
    - pose proof (F 1%nat _ _ (U1 ltac:(discriminate)) ltac:(lia)) as H.
      destruct (fold_left (srkn_stage m f h s) _ _) as [[[dq' dv'] g'] st]. split; [exact H|].
      unfold is_bab. rewrite Co. discriminate.
    - specialize (U1 ltac:(discriminate)).
      match type of U1 with upto s 1 ?acc => set (acc0 := acc) in U1 end.
      pose proof (F 1%nat _ _ U1 ltac:(lia)) as H. fold acc0 in H.
      cbv zeta. match goal with |- context [fold_left ?F ?l ?a] => change a with acc0 end.
      intros. destruct (fold_left (srkn_stage m f h s) (seq 1 (stages m - 1)) acc0) as [[[dq' dv'] g'] st] eqn:E. split; [exact H|].
      intros _ S2. cbn [time positions].
      pose proof (last_stage (stages m - 1) s 1 acc0 ltac:(lia)) as L.
      pose proof (stages_upto (stages m - 1 - 1) s 1 acc0 U1) as U2.
      destruct (fold_left (srkn_stage m f h s) (seq 1 (stages m - 1 - 1)) acc0) as [[[dq0 dv0] g0] st0] eqn:E0.
      rewrite E in L.
      pose proof (stage_upto s _ _ U2) as U3.
      assert (A : a_ m (stages m - 1) = 0).
      { unfold srkn_checks in C. rewrite Co in C. apply andb_prop in C. destruct C as [C _]. apply Reqb_eq in C. symmetry. exact C. }
      assert (Q : vadd (positions s) dq' = vadd (positions s) dq0).
      { assert (X : fold_left (srkn_stage m f h s) (seq 1 (stages m - 1)) acc0
                    = srkn_stage m f h s (dq0, dv0, g0, st0) (stages m - 1)).
        { replace (stages m - 1)%nat with (S (stages m - 1 - 1)) at 1 by lia. rewrite seq_S, fold_left_app, E0. cbn [fold_left].
          f_equal. lia. }
        rewrite E in X. cbn [srkn_stage] in X. destruct (f _ _) as [st1 g1]. rewrite A in X.
        injection X as -> _ _ _. apply functional_extensionality. intros d. unfold vadd, vscal. ring. }
      rewrite L, Q. f_equal. replace (1 + (stages m - 1) - 1)%nat with (stages m - 1)%nat by lia.
      unfold consistent in K. assert (E1 : stages m = S (stages m - 1)) by lia. rewrite E1, c_S, A in K.
      rewrite Rplus_0_r in K. rewrite K. ring.
  Qed.
End Srkn.

(** * The solution *)
Section SrknSolve.
  Variables (m : SRKN) (f : Acceleration) (h : R).
  Hypothesis C : srkn_checks m = true.
  Hypothesis P : (2 <= stages m)%nat.
  Hypothesis K : consistent m.
  Notation one := (srkn_one m f h).
  Notation fld := (field f).

  Lemma srkn_one_good : forall s, srkn_good m f s (fld (time s) (positions s)).
  Proof. intros s. unfold srkn_good. destruct (composition m); [exact I|exact I|reflexivity]. Qed.
  Lemma srkn_one_spec : forall s, one s = run fld (ops m h) s.
  Proof.
    intros s. pose proof (srkn_iterate_spec m f h C ltac:(lia) K s _ (srkn_one_good s)) as H. unfold srkn_one.
    destruct (srkn_iterate m f h s (fld (time s) (positions s))) as [[s' g'] st]. destruct H as [H _]. exact H.
  Qed.
  Lemma srkn_one_time : forall s, time (one s) = time s + h.
  Proof.
    intros s. unfold srkn_one, srkn_iterate. match goal with |- context [let '(_, _) := ?x in _] => destruct x as [dq dv] end.
    destruct (fold_left _ _ _) as [[[dq' dv'] g'] st]. reflexivity.
  Qed.
  Lemma srkn_memory : forall s g1 g2, composition m <> BAB ->
    fst (fst (srkn_iterate m f h s g1)) = fst (fst (srkn_iterate m f h s g2)) /\
    snd (srkn_iterate m f h s g1) = snd (srkn_iterate m f h s g2).
  Proof.
    intros s g1 g2 N. unfold srkn_iterate, is_bab.
    assert (E : forall n i dq dv g1 g2 st,
      let '(dq1, dv1, _, st1) := fold_left (srkn_stage m f h s) (seq i n) (dq, dv, g1, st) in
      let '(dq2, dv2, _, st2) := fold_left (srkn_stage m f h s) (seq i n) (dq, dv, g2, st) in
      dq1 = dq2 /\ dv1 = dv2 /\ st1 = st2).
    { induction n as [|n IH]; intros i dq dv g1' g2' st; [cbn; auto|]. cbn [seq fold_left srkn_stage].
      destruct (f (time s + c_ m i * h) (vadd (positions s) dq)) as [st' g']. apply IH. }
    destruct (composition m); [| |congruence]; cbv iota zeta;
      match goal with |- context [fold_left _ (seq ?i ?n) (?dq, ?dv, g1, ?st)] => specialize (E n i dq dv g1 g2 st) end;
      destruct (fold_left (srkn_stage m f h s) _ (_, _, g1, _)) as [[[dq1 dv1] g1'] st1];
      destruct (fold_left (srkn_stage m f h s) _ (_, _, g2, _)) as [[[dq2 dv2] g2'] st2];
      destruct E as (-> & -> & ->); split; reflexivity.
  Qed.
  Lemma srkn_hone : forall s g, srkn_good m f s g ->
    exists g', srkn_iterate m f h s g = (one s, g', srkn_status m f h s) /\ srkn_good m f (one s) g'.
  Proof.
    intros s g G. pose proof (srkn_iterate_spec m f h C ltac:(lia) K s g G) as H.
    destruct (srkn_iterate m f h s g) as [[s' g'] st] eqn:E. destruct H as [H1 H2].
    exists g'. assert (F : one s = s' /\ srkn_status m f h s = st).
    { split; [rewrite srkn_one_spec; symmetry; exact H1|]. unfold srkn_status. unfold srkn_good in G.
      destruct (composition m) eqn:Co.
      - destruct (srkn_memory s g (fld (time s) (positions s))) as [_ <-]; [congruence|]. rewrite E. reflexivity.
      - destruct (srkn_memory s g (fld (time s) (positions s))) as [_ <-]; [congruence|]. rewrite E. reflexivity.
      - rewrite <- G, E. reflexivity. }
    destruct F as [F1 F2]. rewrite F1, F2. split; [reflexivity|]. unfold srkn_good. unfold is_bab in H2.
    destruct (composition m); [exact I|exact I|]. apply H2; [reflexivity|exact P].
  Qed.
  Lemma srkn_status_ok : (forall t q, fst (f t q) = Ok) -> forall s, srkn_status m f h s = Ok.
  Proof.
    intros O s. unfold srkn_status, srkn_iterate.
    match goal with |- context [let '(_, _) := ?x in _] => destruct x as [dq dv] end.
    assert (E : forall l acc, snd acc = Ok -> snd (fold_left (srkn_stage m f h s) l acc) = Ok).
    { induction l as [|i l IH]; intros [[[dq' dv'] g'] st] H; [exact H|]. cbn [fold_left]. apply IH. cbn [snd] in H. subst st.
      cbn [srkn_stage]. specialize (O (time s + c_ m i * h) (vadd (positions s) dq')).
      destruct (f _ _) as [st'' g'']. cbn in O. subst st''. reflexivity. }
    match goal with |- context [fold_left ?F ?l ?acc] => specialize (E l acc eq_refl); destruct (fold_left F l acc) as [[[dq' dv'] g'] st] end.
    exact E.
  Qed.
  Lemma srkn_solve_ok : forall fuel t_final s N, h <> 0 -> (forall t q, fst (f t q) = Ok) -> time s <> t_final ->
    whole_steps h (time s) t_final N -> (N <= fuel)%nat ->
    srkn_solve m f h fuel t_final s = Done (map (fun i => iterated i one s) (seq 1 N)) (iterated N one s) Ok.
  Proof.
    intros fuel t_final s N Hh O Ne W F. unfold srkn_solve. destruct (Req_EM_T h 0) as [|_]; [contradiction|].
    assert (D : direction_check State time h t_final s = true).
    { apply (direction_ok time h Hh). destruct W as [W _]. destruct W as [W|W]; [exact W|]. exfalso. apply Ne.
      apply (Rmult_eq_reg_r (/ h)); [|apply Rinv_neq_0_compat; exact Hh]. unfold Rdiv in W. lra. }
    rewrite D.
    assert (R : forall g, srkn_good m f s g -> one_step_loop State time Vec (srkn_iterate m f h) h fuel t_final s g Ok
      = Done (map (fun i => iterated i one s) (seq 1 N)) (iterated N one s) Ok).
    { intros g G. apply (loop_ok time (srkn_iterate m f h) h one (srkn_status m f h) (srkn_good m f) Hh srkn_hone); try assumption.
      - exact srkn_one_time.
      - apply srkn_status_ok. exact O. }
    unfold is_bab, srkn_good in *. destruct (composition m) eqn:Q.
    - apply R. exact I.
    - apply R. exact I.
    - pose proof (O (time s) (positions s)) as E. destruct (f (time s) (positions s)) as [st g] eqn:Ef. cbn in E. subst st. apply R.
      unfold field. rewrite Ef. reflexivity.
  Qed.
End SrknSolve.

(** * Reversibility *)
Definition neg (o : Op) : Op := match o with Kick tau => Kick (- tau) | Drift tau => Drift (- tau) end.
Lemma act_neg : forall f o s, act f (neg o) (act f o s) = s.
Proof.
  intros f [tau|tau] [t q v]; cbn; f_equal; try ring; apply functional_extensionality; intros d; ring.
Qed.
Lemma run_neg : forall f l s, run f (map neg (rev l)) (run f l s) = s.
Proof.
  intros f l. induction l as [|o l IH]; intros s; [reflexivity|]. cbn [rev]. rewrite map_app, run_app.
  change (run f (o :: l) s) with (run f l (act f o s)). rewrite IH. cbn [map run fold_left]. apply act_neg.
Qed.
Lemma neg_kick_drift : forall m h l, flat_map (kick_drift m (- h)) l = map neg (flat_map (kick_drift m h) l).
Proof.
  intros m h l. induction l as [|i l IH]; [reflexivity|]. cbn [flat_map kick_drift app map neg]. rewrite IH.
  rewrite !Ropp_mult_distr_l. reflexivity.
Qed.
Lemma ops_neg : forall m h, ops m (- h) = map neg (ops m h).
Proof.
  intros m h. unfold ops. destruct (composition m).
  - apply neg_kick_drift.
  - cbn [map neg]. rewrite neg_kick_drift, Ropp_mult_distr_l. reflexivity.
  - rewrite map_app, neg_kick_drift. cbn [map neg]. rewrite Ropp_mult_distr_l. reflexivity.
Qed.
Lemma rev_flat_map : forall (A B : Type) (g : A -> list B) l, rev (flat_map g l) = flat_map (fun x => rev (g x)) (rev l).
Proof.
  intros A B g l. induction l as [|x l IH]; [reflexivity|]. cbn [flat_map rev]. rewrite rev_app_distr, IH, flat_map_app.
  cbn [flat_map]. rewrite app_nil_r. reflexivity.
Qed.
Lemma rev_seq : forall n s, rev (seq s n) = map (fun i => (s + s + n - 1 - i)%nat) (seq s n).
Proof.
  induction n as [|n IH]; intros s; [reflexivity|]. rewrite seq_S at 1. rewrite rev_app_distr. cbn [rev app seq map]. f_equal; [lia|].
  rewrite IH, <- seq_shift, map_map. apply map_ext_in. intros i Hi. rewrite in_seq in Hi. lia.
Qed.
Lemma flat_map_map : forall (A B D : Type) (g : A -> B) (k : B -> list D) l, flat_map k (map g l) = flat_map (fun x => k (g x)) l.
Proof. intros. induction l as [|x l IH]; [reflexivity|]. cbn. rewrite IH. reflexivity. Qed.
Lemma flat_map_ext_in : forall (A B : Type) (g k : A -> list B) l, (forall x, In x l -> g x = k x) -> flat_map g l = flat_map k l.
Proof.
  intros A B g k l H. induction l as [|x l IH]; [reflexivity|]. cbn. rewrite (H x) by (left; reflexivity).
  rewrite IH by (intros; apply H; right; assumption). reflexivity.
Qed.
Lemma shift_pairs : forall (x y : nat -> Op) n,
  x 0%nat :: flat_map (fun i => [y i; x (S i)]) (seq 0 n) = flat_map (fun i => [x i; y i]) (seq 0 n) ++ [x n].
Proof.
  intros x y n. induction n as [|n IH]; [reflexivity|]. rewrite seq_S, !flat_map_app, app_comm_cons, IH. cbn [plus flat_map app].
  rewrite <- !app_assoc. reflexivity.
Qed.
(** The checks for time reversibility make the composition a palindrome. *)
Lemma ops_palindrome : forall m h, srkn_checks m = true -> time_reversible m = true -> (0 < stages m)%nat ->
  rev (ops m h) = ops m h.
Proof.
  intros m h C R P. unfold srkn_checks in C. rewrite R in C. apply andb_prop in C. destruct C as [_ C]. unfold ops.
  destruct (composition m); [discriminate| |]; apply andb_prop in C; destruct C as [C1 C2].
  - destruct (stages m) as [|n]; [lia|]. replace (S n - 1)%nat with n in * by lia.
    assert (A : forall i, (i <= n)%nat -> a_ m (n - i) = a_ m i)
      by (intros i Hi; symmetry; apply Reqb_eq; apply (all_below_spec _ _ C1 i); lia).
    assert (B : forall i, (i < n)%nat -> b_ m (n - i) = b_ m (S i)).
    { intros i Hi. symmetry. replace (S i) with (i + 1)%nat by lia. apply Reqb_eq. apply (all_below_spec _ _ C2 i). lia. }
    cbn [rev]. rewrite rev_flat_map, rev_seq, flat_map_map, <- seq_shift, !flat_map_map.
    rewrite (flat_map_ext_in _ _ _ (fun i => [Drift (h * a_ m i); Kick (h * b_ m (S i))])).
    + pose proof (shift_pairs (fun i => Drift (h * a_ m i)) (fun i => Kick (h * b_ m (S i))) n) as X. cbn beta in X.
      assert (E : a_ m n = a_ m 0) by (rewrite <- (A n), Nat.sub_diag by lia; reflexivity).
      rewrite E in X. symmetry. exact X.
    + intros i Hi. rewrite in_seq in Hi. cbn [kick_drift rev app]. replace (1 + 1 + n - 1 - S i)%nat with (n - i)%nat by lia.
      rewrite A, B by lia. reflexivity.
  - destruct (stages m) as [|n]; [lia|]. replace (S n - 1)%nat with n in * by lia.
    assert (A : forall i, (i < n)%nat -> a_ m (n - 1 - i) = a_ m i).
    { intros i Hi. symmetry. replace (n - 1 - i)%nat with (S n - 2 - i)%nat by lia. apply Reqb_eq. apply (all_below_spec _ _ C1 i Hi). }
    assert (B : forall i, (i <= n)%nat -> b_ m (n - i) = b_ m i)
      by (intros i Hi; symmetry; apply Reqb_eq; apply (all_below_spec _ _ C2 i); lia).
    rewrite rev_app_distr. cbn [rev app]. rewrite rev_flat_map, rev_seq, flat_map_map.
    rewrite (flat_map_ext_in _ _ _ (fun i => [Drift (h * a_ m i); Kick (h * b_ m (S i))])).
    + pose proof (shift_pairs (fun i => Kick (h * b_ m i)) (fun i => Drift (h * a_ m i)) n) as X. cbn beta in X.
      assert (E : b_ m n = b_ m 0) by (rewrite <- (B n), Nat.sub_diag by lia; reflexivity).
      rewrite E in X |- *. exact X.
    + intros i Hi. rewrite in_seq in Hi. cbn [kick_drift rev app]. replace (0 + 0 + n - 1 - i)%nat with (n - 1 - i)%nat by lia.
      rewrite A by lia. replace (n - 1 - i)%nat with (n - S i)%nat by lia. rewrite B by lia. reflexivity.
Qed.
Lemma srkn_reversible : forall m f h s, srkn_checks m = true -> time_reversible m = true -> (2 <= stages m)%nat -> consistent m ->
  srkn_one m f (- h) (srkn_one m f h s) = s.
Proof.
  intros m f h s C R P K. rewrite !srkn_one_spec by assumption. rewrite ops_neg.
  rewrite <- (ops_palindrome m h C R ltac:(lia)) at 1. apply run_neg.
Qed.
Lemma srkn_reversible_n : forall m f h n s, srkn_checks m = true -> time_reversible m = true -> (2 <= stages m)%nat -> consistent m ->
  iterated n (srkn_one m f (- h)) (iterated n (srkn_one m f h) s) = s.
Proof.
  intros m f h n s C R P K. induction n as [|n IH]; [reflexivity|]. rewrite (iterated_S _ n (srkn_one m f h)). cbn [iterated].
  rewrite srkn_reversible by assumption. exact IH.
Qed.
Lemma srkn_round_trip : forall m f h fuel t_final s N, srkn_checks m = true -> time_reversible m = true ->
  (2 <= stages m)%nat -> consistent m -> h <> 0 -> (forall t q, fst (f t q) = Ok) -> (1 <= N)%nat ->
  whole_steps h (time s) t_final N -> (N <= fuel)%nat ->
  exists s', srkn_solve m f h fuel t_final s = Done (map (fun i => iterated i (srkn_one m f h) s) (seq 1 N)) s' Ok /\
    srkn_solve m f (- h) fuel (time s) s'
    = Done (map (fun i => iterated i (srkn_one m f h) s) (rev (seq 0 N))) s Ok.
Proof.
  intros m f h fuel t_final s N C R P K Hh O HN W F. exists (iterated N (srkn_one m f h) s).
  assert (T : time (iterated N (srkn_one m f h) s) = time s + INR N * h)
    by (apply iterated_time; intros s'; apply srkn_one_time).
  assert (N1 : 1 <= INR N) by (apply (le_INR 1); exact HN).
  split.
  - apply srkn_solve_ok; try assumption. intros E. destruct W as (_ & W & _). rewrite E in W.
    replace ((t_final - t_final) / h) with 0 in W by (field; exact Hh). lra.
  - rewrite (srkn_solve_ok m f (- h) C P K fuel (time s) _ N).
    + rewrite srkn_reversible_n by assumption. f_equal. rewrite rev_seq, <- seq_shift, !map_map. apply map_ext_in. intros i Hi.
      rewrite in_seq in Hi. replace (0 + 0 + N - 1 - i)%nat with (N - S i)%nat by lia.
      replace N with (N - S i + S i)%nat at 1 by lia. rewrite <- iterated_plus. apply srkn_reversible_n; assumption.
    + lra.
    + exact O.
    + rewrite T. intros E. assert (INR N * h = 0) as E0 by lra. apply Rmult_integral in E0. lra.
    + rewrite T. unfold whole_steps. replace ((time s - (time s + INR N * h)) / - h) with (INR N) by (field; exact Hh). lra.
    + exact F.
Qed.
