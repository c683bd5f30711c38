(** Specifications and proofs for flight plans. *)
From Coq Require Import List Arith ZArith QArith Qminmax Bool Lia Lqa.
From Verif Require Import FlightPlan_Model.
Import ListNotations.
Open Scope Q_scope.

Lemma Qlt_bool_iff x y : Qlt_bool x y = true <-> x < y.
Proof. unfold Qlt_bool. rewrite negb_true_iff, <- not_true_iff_false, Qle_bool_iff. split; [apply Qnot_le_lt|apply Qlt_not_le]. Qed.
Lemma Qlt_bool_false x y : Qlt_bool x y = false <-> y <= x.
Proof. unfold Qlt_bool. rewrite negb_false_iff, Qle_bool_iff. reflexivity. Qed.
Lemma Qeq_bool_refl' x : Qeq_bool x x = true.
Proof. apply Qeq_bool_iff. reflexivity. Qed.

(** * What the ephemeris guarantees *)

(** An integration from [start] to a later [target] returns OK only if it reached the target, and one of the statuses of
    the integrators otherwise. *)
Definition honest (o : oracle) : Prop := forall n start target, start < target ->
  let '(st, new) := o n start target in
  match st with
  | Ok => exists l t, new = l ++ [t] /\ t == target
  | DeadlineExceeded | Failure _ => True
  | _ => False
  end.

(** * The specification of the segments *)

Definition back (s : segment) (t : Q) : Prop := exists u r, points s = u :: r /\ u == t.
Definition integrated (s : segment) : Prop := outcome s = Some Ok.

(** A manœuvre, its burn and the coast before it: complete coasts end when the burn starts, complete burns end when the
    burn does (the maximum is the final time for the burns of nonnegative duration), and the manœuvre knows its initial
    degrees of freedom if and only if the coast is complete. *)
Definition described (m : manœuvre) (burn_ coast : segment) : Prop :=
  (integrated coast -> back coast (initial_time m)) /\
  (has_coasting_trajectory m = true <-> integrated coast) /\
  (integrated burn_ -> back burn_ (Qmax (initial_time m) (final_time m))).
(** Burns and coasts alternate.  Both lists have the last element first. *)
Fixpoint alternate (ms : list manœuvre) (segs : list segment) : Prop :=
  match ms, segs with
  | [], [] => True
  | m :: r, b :: c :: s => described m b c /\ alternate r s
  | _, _ => False
  end.
(** Each segment starts at the last point of the one before, the first at [t0]. *)
Fixpoint chained (t0 : Q) (segs : list segment) : Prop :=
  match segs with
  | [] => False
  | s :: r => exists l x, points s = l ++ [x] /\
      match r with [] => x = t0 | t :: _ => (exists l', points t = x :: l') /\ chained t0 r end
  end.
(** The errors returned by the integrators. *)
Definition genuine (st : status) : Prop := match st with DeadlineExceeded | Failure _ => True | _ => False end.
(** The anomalous segments, the last segment first: [k] of them, the first one because its integration failed with
    [st], the following ones not integrated and of length 0. *)
Definition anomalous (k : nat) (st : status) (segs : list segment) : Prop :=
  match k with
  | O => st = Ok /\ Forall integrated segs
  | S j => exists later failed earlier, segs = later ++ failed :: earlier /\ length later = j /\
      Forall (fun s => outcome s = None /\ length (points s) = 1%nat) later /\
      outcome failed = Some st /\ genuine st /\ Forall integrated earlier
  end.

Record stable (p : plan) : Prop := {
  st_segments : exists last segs, segments p = last :: segs /\ alternate (rev (manœuvres_ p)) segs /\
    (integrated last -> back last (desired_final_time_ p));
  st_chained : chained (initial_time_ p) (segments p);
  st_anomalous : anomalous (anomalous_segments_ p) (anomalous_status_ p) (segments p) }.

(** While the segments are computed: those of the manœuvres [done] exist, and the next coast is to be computed unless
    the plan is anomalous. *)
Record open_ (done : list manœuvre) (p : plan) : Prop := {
  op_segments : exists last segs, segments p = last :: segs /\ alternate (rev done) segs /\
    match anomalous_segments_ p with
    | O => outcome last = None /\ Forall integrated segs
    | k => anomalous k (anomalous_status_ p) (segments p)
    end;
  op_chained : chained (initial_time_ p) (segments p);
  op_singleton : forall last segs, segments p = last :: segs -> outcome last = None -> exists x, points last = [x] }.

(** * Lists of segments *)

Lemma alternate_app x y s : alternate (x ++ y) s -> exists s1 s2, s = s1 ++ s2 /\ length s1 = (2 * length x)%nat /\
  alternate x s1 /\ alternate y s2.
Proof.
  revert s. induction x as [|m x IH]; intros s H.
  - exists [], s. cbn. auto.
  - destruct s as [|b [|c s]]; try contradiction. destruct H as [D H]. destruct (IH s H) as (s1 & s2 & -> & L & A1 & A2).
    exists (b :: c :: s1), s2. split; [reflexivity|]. split; [cbn [length]; lia|]. split; [split; assumption|exact A2].
Qed.

Lemma alternate_length ms s : alternate ms s -> length s = (2 * length ms)%nat.
Proof.
  revert s. induction ms as [|m r IH]; intros s H.
  - destruct s; [reflexivity|contradiction].
  - destruct s as [|b [|c s]]; try contradiction. destruct H as [_ H]. specialize (IH s H). cbn [length]. lia.
Qed.

Lemma chained_skipn t0 n segs : (n < length segs)%nat -> chained t0 segs -> chained t0 (skipn n segs).
Proof.
  revert n. induction segs as [|s r IH]; intros n L C; [cbn in L; lia|]. destruct n as [|n]; [exact C|].
  cbn [skipn]. destruct r as [|t r]; [cbn in L; lia|]. apply IH; [cbn [length] in *; lia|].
  destruct C as (l & x & _ & _ & C). exact C.
Qed.

Lemma chained_head t0 s s' r : chained t0 (s :: r) -> (forall l x, points s = l ++ [x] -> exists l', points s' = l' ++ [x]) ->
  chained t0 (s' :: r).
Proof. intros (l & x & E & H) K. destruct (K l x E) as [l' E']. exists l', x. split; [exact E'|exact H]. Qed.

Lemma chained_nonempty t0 s r : chained t0 (s :: r) -> exists x l, points s = x :: l.
Proof. intros (l & x & E & _). destruct l as [|y l]; [exists x, []|exists y, (l ++ [x])]; exact E. Qed.

Lemma chained_add t0 s r x l o : chained t0 (s :: r) -> points s = x :: l -> chained t0 (Segment [x] o :: s :: r).
Proof. intros C E. exists [], x. split; [reflexivity|]. split; [exists l; exact E|exact C]. Qed.

Lemma Forall_skipn {A} (P : A -> Prop) n l : Forall P l -> Forall P (skipn n l).
Proof. revert n. induction l as [|a r IH]; intros [|n] F; cbn [skipn]; try assumption; try constructor. apply IH. exact (Forall_inv_tail F). Qed.

(** Removing segments and resetting the last one. *)
Lemma pop_anomalous k st segs c : anomalous k st segs -> (c <= length segs)%nat ->
  match (k - c)%nat with
  | O => Forall integrated (skipn c segs)
  | j => anomalous j st (skipn c segs)
  end.
Proof.
  destruct k as [|j].
  - cbn [anomalous Nat.sub]. intros [_ F] _. apply Forall_skipn, F.
  - intros (later & failed & earlier & -> & L & FL & FO & FS & FE) _.
    destruct (S j - c)%nat as [|i] eqn:E.
    + rewrite skipn_app. rewrite skipn_all2 by lia. cbn [app].
      replace (c - length later)%nat with (S (c - S j)) by lia. cbn [skipn]. apply Forall_skipn, FE.
    + exists (skipn c later), failed, earlier. rewrite skipn_app. replace (c - length later)%nat with O by lia.
      split; [reflexivity|]. split; [rewrite skipn_length; lia|]. split; [apply Forall_skipn, FL|]. auto.
Qed.

Lemma first_point_spec l x : first_point (l ++ [x]) = [x].
Proof. unfold first_point. rewrite rev_app_distr. reflexivity. Qed.

Lemma singleton_of_length {A} (l : list A) : length l = 1%nat -> exists x, l = [x].
Proof. destruct l as [|x [|y r]]; try discriminate. exists x. reflexivity. Qed.

Lemma reset_open p done c r : segments p = c :: r -> alternate (rev done) r -> chained (initial_time_ p) (segments p) ->
  match anomalous_segments_ p with
  | O => Forall integrated (segments p)
  | k => anomalous k (anomalous_status_ p) (segments p)
  end -> open_ done (ResetLastSegment p).
Proof.
  intros E A C K. unfold ResetLastSegment. rewrite E in *.
  set (c' := Segment (first_point (points c)) None).
  assert (C' : chained (initial_time_ p) (c' :: r)).
  { apply (chained_head _ c); [exact C|]. intros l x E'. exists []. unfold c'. cbn [points app]. rewrite E', first_point_spec. reflexivity. }
  assert (S' : exists x, points c' = [x]).
  { destruct C as (l & x & E' & _). exists x. unfold c'. cbn [points]. rewrite E', first_point_spec. reflexivity. }
  constructor; cbn [segments set_anomaly set_segments anomalous_segments_ anomalous_status_ initial_time_].
  - exists c', r. split; [reflexivity|]. split; [exact A|].
    destruct (anomalous_segments_ p) as [|[|j]] eqn:Ek; cbn [Nat.eqb].
    + split; [reflexivity|exact (Forall_inv_tail K)].
    + split; [reflexivity|]. destruct K as (later & failed & earlier & E' & L & _ & _ & _ & F).
      destruct later; [|discriminate]. injection E' as -> ->. exact F.
    + destruct K as (later & failed & earlier & E' & L & FL & FO & FS & FE).
      destruct later as [|c0 later]; [discriminate|]. injection E' as -> ->.
      exists (c' :: later), failed, earlier. split; [reflexivity|]. split; [exact L|].
      split; [|auto]. constructor; [|exact (Forall_inv_tail FL)].
      split; [reflexivity|]. destruct S' as [x ->]. reflexivity.
  - exact C'.
  - intros last segs E' _. injection E' as <- <-. exact S'.
Qed.

(** * The computation of the segments *)

Lemma flow_spec o target p done : honest o -> open_ done p -> anomalous_segments_ p = O ->
  match Flow o target p with
  | Some (st, p') => exists last r s', segments p = last :: r /\ p' = set_integrations (set_segments p (s' :: r)) (integrations p') /\
      outcome s' = Some st /\ (st = Ok -> back s' target) /\ chained (initial_time_ p) (s' :: r) /\
      match st with Ok | DeadlineExceeded | Failure _ => True | _ => False end
  | None => exists last r x, segments p = last :: r /\ points last = [x] /\ target < x
  end.
Proof.
  intros H [(last & r & E & A & K) C S] Z. rewrite Z in K. destruct K as [ON F]. destruct (S last r E ON) as [x X].
  unfold Flow. rewrite E. destruct last as [pts oc]. cbn [points outcome] in *. subst pts oc.
  assert (CC : forall st l, chained (initial_time_ p) (Segment (l ++ [x]) st :: r)).
  { intros st l. rewrite E in C. apply (chained_head _ _ (Segment (l ++ [x]) st) _ C). cbn [points]. intros l0 x0 E0.
    exists l. destruct l0 as [|y [|z l0]]; try discriminate. injection E0 as ->. reflexivity. }
  destruct (Qeq_bool x target) eqn:EQ.
  - apply Qeq_bool_iff in EQ. exists (Segment [x] None), r, (Segment [x] (Some Ok)). split; [reflexivity|].
    split; [destruct p; reflexivity|]. split; [reflexivity|]. split; [intros _; exists x, []; auto|]. split; [exact (CC _ [])|exact I].
  - destruct (Qlt_bool target x) eqn:LT.
    + apply Qlt_bool_iff in LT. exists (Segment [x] None), r, x. auto.
    + apply Qlt_bool_false in LT.
      assert (L : x < target). { apply Qle_lteq in LT. destruct LT as [L|L]; [exact L|]. apply Qeq_bool_iff in L. congruence. }
      pose proof (H (integrations p) x target L) as HO. destruct (o (integrations p) x target) as [st new].
      exists (Segment [x] None), r, (Segment (rev new ++ [x]) (Some st)). split; [reflexivity|]. split; [reflexivity|].
      split; [reflexivity|]. split; [|split; [exact (CC _ (rev new))|destruct st; exact HO || exact I]].
      intros ->. destruct HO as (l & t & -> & T). rewrite rev_app_distr. exists t, (rev l ++ [x]). auto.
Qed.

Lemma add_last_segment p t0 s r : segments p = s :: r -> chained t0 (segments p) ->
  exists x l, points s = x :: l /\ AddLastSegment p = Some (set_anomaly (set_segments p (Segment [x] None :: s :: r))
        (match anomalous_segments_ p with O => O | n => S n end) (anomalous_status_ p)).
Proof.
  intros E C. rewrite E in C. destruct (chained_nonempty _ _ _ C) as (x & l & X). exists x, l. split; [exact X|].
  unfold AddLastSegment. rewrite E. destruct s as [pts oc]. cbn [points] in *. subst pts. reflexivity.
Qed.

Lemma anomalous_one st s r : genuine st -> outcome s = Some st -> Forall integrated r -> anomalous 1 st (s :: r).
Proof. intros N O F. exists [], s, r. repeat split; auto. Qed.
Lemma anomalous_more k st s r : outcome s = None -> length (points s) = 1%nat -> anomalous (S k) st r -> anomalous (S (S k)) st (s :: r).
Proof.
  intros O L (later & failed & earlier & -> & Lk & FL & R). exists (s :: later), failed, earlier.
  split; [reflexivity|]. split; [cbn [length]; lia|]. split; [constructor; auto|exact R].
Qed.
Lemma anomalous_head_not_integrated k st s r : anomalous (S k) st (s :: r) -> ~ integrated s.
Proof.
  intros (later & failed & earlier & E & L & FL & FO & FS & FE) I. unfold integrated in I. destruct later as [|a later].
  - injection E as -> ->. rewrite FO in I. injection I as ->. exact FS.
  - injection E as -> ->. destruct (Forall_inv FL) as [N _]. congruence.
Qed.

(** What ComputeOne and the loop keep. *)
Definition same (p p' : plan) : Prop :=
  initial_mass_ p' = initial_mass_ p /\ initial_time_ p' = initial_time_ p /\ desired_final_time_ p' = desired_final_time_ p /\
  manœuvres_ p' = manœuvres_ p.
Definition same_manœuvre (m m' : manœuvre) : Prop := initial_mass m' = initial_mass m /\ construction_burn m' = construction_burn m.

Lemma same_manœuvre_times m m' : same_manœuvre m m' -> initial_time m' = initial_time m /\ final_time m' = final_time m /\
  duration m' = duration m /\ final_mass m' = final_mass m.
Proof.
  intros [E1 E2].
  assert (D : duration m' = duration m) by (unfold duration; rewrite E1, E2; reflexivity).
  assert (H : time_to_half_Δv m' = time_to_half_Δv m) by (unfold time_to_half_Δv; rewrite E1, E2; reflexivity).
  assert (T : initial_time m' = initial_time m) by (unfold initial_time; rewrite E2, H; reflexivity).
  split; [exact T|]. split; [unfold final_time; rewrite T, D; reflexivity|]. split; [exact D|].
  unfold final_mass. rewrite E1, E2, D. reflexivity.
Qed.

(** ** Where the computation may fail *)

(** The point from which the next coast is integrated. *)
Definition frontier (p : plan) (x : Q) : Prop := exists last r, segments p = last :: r /\ points last = [x].

Definition one_result (done : list manœuvre) (m : manœuvre) (p : plan) (overall : status) (res : option (manœuvre * plan * status)) : Prop :=
  match res with
  | Some (m', p', overall') => same_manœuvre m m' /\ same p p' /\ open_ (done ++ [m']) p' /\
      (anomalous_segments_ p <> O -> anomalous_status_ p' = anomalous_status_ p /\ anomalous_segments_ p' <> O) /\
      (anomalous_segments_ p' = O -> anomalous_status_ p' = anomalous_status_ p) /\
      (anomalous_segments_ p' = O -> exists y, frontier p' y /\ y == Qmax (initial_time m) (final_time m)) /\
      (overall = anomalous_status_ p -> (anomalous_segments_ p = O -> overall = Ok) -> overall' = anomalous_status_ p')
  | None => anomalous_segments_ p = O /\ exists x, frontier p x /\ initial_time m < x
  end.

(** The burn and the coast after it, once the coast before is computed. *)
Lemma burn_part o m done p overall c r m0 : honest o -> segments p = c :: r -> alternate (rev done) r ->
  chained (initial_time_ p) (segments p) -> same_manœuvre m m0 ->
  (integrated c -> back c (initial_time m)) -> (has_coasting_trajectory m0 = true <-> integrated c) ->
  match anomalous_segments_ p with
  | O => Forall integrated (segments p)
  | k => anomalous k (anomalous_status_ p) (segments p)
  end ->
  exists p' overall', (do p <- AddLastSegment p;
    do (p, overall) <- (match anomalous_segments_ p with
      | S _ => Some (p, overall)
      | O => do (st, p) <- BurnSegment o m0 p;
             if ok st then Some (p, overall) else Some (set_anomaly p 1 st, Update overall st)
      end);
    do p <- AddLastSegment p;
    Some (m0, p, overall)) = Some (m0, p', overall') /\ same p p' /\ open_ (done ++ [m0]) p' /\
    (anomalous_segments_ p <> O -> anomalous_status_ p' = anomalous_status_ p /\ anomalous_segments_ p' <> O) /\
    (anomalous_segments_ p' = O -> anomalous_status_ p' = anomalous_status_ p) /\
    (anomalous_segments_ p' = O -> exists y, frontier p' y /\ y == Qmax (initial_time m) (final_time m)) /\
    (overall = anomalous_status_ p -> (anomalous_segments_ p = O -> overall = Ok) -> overall' = anomalous_status_ p').
Proof.
  intros H E A C SM B HC K. destruct (same_manœuvre_times _ _ SM) as (T1 & T2 & _ & _).
  destruct (add_last_segment p _ c r E C) as (x & l & X & EA). rewrite EA. cbn [anomalous_segments_ set_anomaly].
  assert (C1 : chained (initial_time_ p) (Segment [x] None :: c :: r)) by (apply (chained_add _ c r x l); [rewrite <- E; exact C|exact X]).
  destruct (anomalous_segments_ p) as [|k] eqn:EK.
  - (* The coast is complete: the burn is integrated. *)
    rewrite E in K. pose proof (Forall_inv K) as IC. destruct (B IC) as (x' & l' & X' & XE). rewrite X in X'. injection X' as <- <-.
    set (p1 := set_anomaly (set_segments p (Segment [x] None :: c :: r)) 0 (anomalous_status_ p)).
    assert (BURN : exists st p2 b', BurnSegment o m0 p1 = Some (st, p2) /\ p2 = set_integrations (set_segments p1 (b' :: c :: r)) (integrations p2) /\
      outcome b' = Some st /\ (st = Ok -> back b' (Qmax (initial_time m) (final_time m))) /\ chained (initial_time_ p) (b' :: c :: r) /\
      match st with Ok | DeadlineExceeded | Failure _ => True | _ => False end).
    { unfold BurnSegment. rewrite T1, T2. destruct (Qlt_bool (initial_time m) (final_time m)) eqn:LT.
      - apply Qlt_bool_iff in LT. unfold Flow. cbn [p1 segments set_anomaly set_segments].
        destruct (Qeq_bool x (final_time m)) eqn:EQ; [apply Qeq_bool_iff in EQ; exfalso; lra|].
        destruct (Qlt_bool (final_time m) x) eqn:LT2; [apply Qlt_bool_iff in LT2; exfalso; lra|].
        assert (L : x < final_time m) by lra. pose proof (H (integrations p1) x (final_time m) L) as HO.
        destruct (o (integrations p1) x (final_time m)) as [st new].
        exists st, (set_integrations (set_segments p1 (Segment (rev new ++ [x]) (Some st) :: c :: r)) (S (integrations p1))), (Segment (rev new ++ [x]) (Some st)).
        split; [reflexivity|]. split; [reflexivity|]. split; [reflexivity|]. split; [|split].
        + intros ->. destruct HO as (l2 & t & -> & T). rewrite rev_app_distr. exists t, (rev l2 ++ [x]). split; [reflexivity|].
          rewrite Q.max_r by lra. exact T.
        + apply (chained_head _ _ (Segment (rev new ++ [x]) (Some st)) _ C1). cbn [points]. intros l0 x0 E0.
          exists (rev new). destruct l0 as [|y [|z l0]]; try discriminate. injection E0 as ->. reflexivity.
        + destruct st; exact HO || exact I.
      - apply Qlt_bool_false in LT. exists Ok, (set_segments p1 (Segment [x] (Some Ok) :: c :: r)), (Segment [x] (Some Ok)).
        split; [reflexivity|]. split; [reflexivity|]. split; [reflexivity|]. split; [|split; [|exact I]].
        + intros _. exists x, []. split; [reflexivity|]. rewrite Q.max_l by exact LT. exact XE.
        + apply (chained_head _ _ (Segment [x] (Some Ok)) _ C1). cbn [points]. intros l0 x0 E0. exists l0. exact E0. }
    destruct BURN as (st & p2 & b' & EB & E2 & O2 & B2 & C2 & ST). rewrite EB.
    assert (SEG2 : segments p2 = b' :: c :: r) by (rewrite E2; reflexivity).
    assert (K2 : anomalous_segments_ p2 = O) by (rewrite E2; reflexivity).
    assert (Q2 : anomalous_status_ p2 = anomalous_status_ p) by (rewrite E2; reflexivity).
    assert (S2 : same p p2) by (rewrite E2; repeat split).
    assert (DESC : described m0 b' c).
    { split; [rewrite T1; exact B|]. split; [exact HC|]. rewrite T1, T2. intros I. apply B2. unfold integrated in I. congruence. }
    assert (ALT : alternate (rev (done ++ [m0])) (b' :: c :: r)) by (rewrite rev_app_distr; split; assumption).
    assert (CH : chained (initial_time_ p2) (segments p2)) by (rewrite SEG2; destruct S2 as (_ & -> & _); exact C2).
    destruct (chained_nonempty _ _ _ C2) as (y & ly & Y).
    assert (CH3 : chained (initial_time_ p) (Segment [y] None :: b' :: c :: r)) by exact (chained_add _ _ _ _ _ None C2 Y).
    destruct (ok st) eqn:OKST.
    + assert (st = Ok) as -> by (destruct st; try discriminate; reflexivity).
      destruct (add_last_segment p2 _ _ _ SEG2 CH) as (y' & ly' & Y' & EA2). rewrite EA2, K2. rewrite Y in Y'. injection Y' as <- <-.
      eexists. eexists. split; [reflexivity|].
      split; [|split; [|split; [|split; [|split]]]]; cbn [anomalous_segments_ anomalous_status_ set_anomaly].
      * destruct S2 as (Z1 & Z2 & Z3 & Z4). repeat split; assumption.
      * constructor; cbn [segments set_anomaly set_segments anomalous_segments_ anomalous_status_ initial_time_].
        -- do 2 eexists. split; [reflexivity|]. split; [exact ALT|]. split; [reflexivity|].
           constructor; [exact O2|exact K].
        -- destruct S2 as (_ & -> & _). exact CH3.
        -- intros last segs E' _. injection E' as <- <-. exists y. reflexivity.
      * contradiction.
      * intros _. exact Q2.
      * intros _. exists y. split; [do 2 eexists; split; reflexivity|].
        destruct (B2 eq_refl) as (y' & ly' & Y' & YE). rewrite Y in Y'. injection Y' as <- <-. exact YE.
      * intros -> _. symmetry. exact Q2.
    + assert (NST : genuine st) by (destruct st; try discriminate; exact I || contradiction).
      assert (SEG3 : segments (set_anomaly p2 1 st) = b' :: c :: r) by exact SEG2.
      destruct (add_last_segment (set_anomaly p2 1 st) (initial_time_ p) _ _ SEG3 ltac:(rewrite SEG3; exact C2)) as (y' & ly' & Y' & EA2).
      rewrite EA2. rewrite Y in Y'. injection Y' as <- <-. cbn [anomalous_segments_ set_anomaly anomalous_status_].
      eexists. eexists. split; [reflexivity|].
      split; [|split; [|split; [|split; [|split]]]]; cbn [anomalous_segments_ anomalous_status_ set_anomaly].
      * destruct S2 as (Z1 & Z2 & Z3 & Z4). repeat split; assumption.
      * constructor; cbn [segments set_anomaly set_segments anomalous_segments_ anomalous_status_ initial_time_].
        -- do 2 eexists. split; [reflexivity|]. split; [exact ALT|].
           apply anomalous_more; [reflexivity|reflexivity|]. apply anomalous_one; assumption.
        -- destruct S2 as (_ & -> & _). exact CH3.
        -- intros last segs E' _. injection E' as <- <-. exists y. reflexivity.
      * contradiction.
      * discriminate.
      * discriminate.
      * intros _ OV. rewrite (OV eq_refl). reflexivity.
  - (* The plan is already anomalous. *)
    set (p1 := set_anomaly (set_segments p (Segment [x] None :: c :: r)) (S (S k)) (anomalous_status_ p)).
    assert (SEG1 : segments p1 = Segment [x] None :: c :: r) by reflexivity.
    destruct (add_last_segment p1 (initial_time_ p) _ _ SEG1 ltac:(rewrite SEG1; exact C1)) as (y & ly & Y & EA2).
    change (match S (S k) with O => O | S _ => S (S (S k)) end) with (S (S (S k))) in EA2.
    cbn [points] in Y. injection Y as <- <-. rewrite EA2. cbn [anomalous_segments_ p1 set_anomaly anomalous_status_].
    assert (NI : ~ integrated c). { rewrite E in K. exact (anomalous_head_not_integrated _ _ _ _ K). }
    eexists. eexists. split; [reflexivity|].
    split; [|split; [|split; [|split; [|split]]]]; cbn [anomalous_segments_ anomalous_status_ set_anomaly].
    + repeat split.
    + constructor; cbn [segments set_anomaly set_segments anomalous_segments_ anomalous_status_ initial_time_].
      * do 2 eexists. split; [reflexivity|]. split.
        -- rewrite rev_app_distr. split; [|exact A]. split; [contradiction|]. split; [exact HC|]. intros I. discriminate I.
        -- apply anomalous_more; [reflexivity|reflexivity|]. apply anomalous_more; [reflexivity|reflexivity|].
           rewrite E in K. exact K.
      * exact (chained_add _ _ _ _ _ None C1 eq_refl).
      * intros last segs E' _. injection E' as <- <-. exists x. reflexivity.
    + intros _. split; [reflexivity|discriminate].
    + discriminate.
    + discriminate.
    + intros -> _. reflexivity.
Qed.

Lemma compute_one o m done p overall : honest o -> open_ done p -> one_result done m p overall (ComputeOne o m p overall).
Proof.
  intros H OP. pose proof OP as [(last & r & E & A & K) C SG]. unfold ComputeOne.
  set (m0 := clear_coasting_trajectory m). assert (SM : same_manœuvre m m0) by (split; reflexivity).
  destruct (same_manœuvre_times _ _ SM) as (T1 & T2 & _ & _).
  destruct (anomalous_segments_ p) as [|k] eqn:EK.
  - destruct K as [ON F]. unfold CoastSegment. rewrite T1. pose proof (flow_spec o (initial_time m) p done H OP EK) as FS.
    destruct (Flow o (initial_time m) p) as [[st p1]|].
    + destruct FS as (last' & r' & c & E' & E1 & OC & BC & CC & ST). rewrite E in E'. injection E' as <- <-.
      assert (SEG1 : segments p1 = c :: r) by (rewrite E1; reflexivity).
      assert (K1 : anomalous_segments_ p1 = O) by (rewrite E1; exact EK).
      assert (Q1 : anomalous_status_ p1 = anomalous_status_ p) by (rewrite E1; reflexivity).
      assert (S1 : same p p1) by (rewrite E1; repeat split).
      destruct (ok st) eqn:OKST.
      * assert (st = Ok) as -> by (destruct st; try discriminate; reflexivity).
        rewrite SEG1. destruct (BC eq_refl) as (x & l & X & XE).
        assert (SC : set_coasting_trajectory c m0 = Some (Manœuvre (initial_mass m0) (construction_burn m0) true)).
        { unfold set_coasting_trajectory. rewrite X. cbn [existsb]. rewrite T1.
          assert (EQ : Qeq_bool (initial_time m) x = true) by (apply Qeq_bool_iff; symmetry; exact XE). rewrite EQ. reflexivity. }
        rewrite SC. set (m1 := Manœuvre (initial_mass m0) (construction_burn m0) true).
        assert (SM1 : same_manœuvre m m1) by (split; reflexivity).
        destruct (burn_part o m done p1 overall c r m1 H SEG1 A) as (p' & overall' & EB & SB & OB & N1 & N2 & N3 & N4); try assumption.
        -- rewrite SEG1. destruct S1 as (_ & -> & _). exact CC.
        -- intros _. exact (BC eq_refl).
        -- split; [intros _; exact OC|reflexivity].
        -- rewrite K1, SEG1. constructor; assumption.
        -- rewrite EB. split; [exact SM1|]. split; [|split; [exact OB|split; [|split; [|split]]]].
           ++ destruct S1 as (Z1 & Z2 & Z3 & Z4), SB as (Y1 & Y2 & Y3 & Y4). repeat split; congruence.
           ++ intros N; contradiction.
           ++ intros Z. rewrite (N2 Z). exact Q1.
           ++ exact N3.
           ++ intros OV OZ. apply N4; [congruence|]. intros _. exact (OZ EK).
      * assert (NST : genuine st) by (destruct st; try discriminate; exact I || contradiction).
        destruct (burn_part o m done (set_anomaly p1 1 st) (Update overall st) c r m0 H SEG1 A) as (p' & overall' & EB & SB & OB & N1 & N2 & N3 & N4); try assumption.
        -- cbn [segments set_anomaly initial_time_]. rewrite SEG1. destruct S1 as (_ & -> & _). exact CC.
        -- intros I. unfold integrated in I. rewrite OC in I. injection I as ->. contradiction.
        -- split; [discriminate|]. intros I. unfold integrated in I. rewrite OC in I. injection I as ->. contradiction.
        -- cbn [anomalous_segments_ set_anomaly anomalous_status_ segments]. rewrite SEG1. apply anomalous_one; assumption.
        -- rewrite EB. split; [exact SM|]. split; [|split; [exact OB|split; [|split; [|split]]]].
           ++ destruct S1 as (Z1 & Z2 & Z3 & Z4), SB as (Y1 & Y2 & Y3 & Y4). repeat split; cbn in *; congruence.
           ++ intros N; contradiction.
           ++ intros Z. exfalso. apply (N1 ltac:(discriminate)). exact Z.
           ++ intros Z. exfalso. apply (N1 ltac:(discriminate)). exact Z.
           ++ intros OV OZ. apply N4; [|discriminate]. rewrite (OZ EK). reflexivity.
    + destruct FS as (last' & r' & x & E' & X & L). split; [exact EK|]. exists x. split; [|exact L]. exists last', r'. auto.
  - destruct (burn_part o m done p overall last r m0 H E A) as (p' & overall' & EB & SB & OB & N1 & N2 & N3 & N4); try assumption.
    + intros I. rewrite E in K. destruct (anomalous_head_not_integrated _ _ _ _ K I).
    + split; [discriminate|]. intros I. rewrite E in K. destruct (anomalous_head_not_integrated _ _ _ _ K I).
    + rewrite EK. exact K.
    + rewrite EB. split; [exact SM|]. split; [exact SB|]. split; [exact OB|]. split; [intros _; apply N1; rewrite EK; discriminate|].
      split; [exact N2|]. split; [exact N3|]. intros OV OZ. exact (N4 OV ltac:(rewrite EK; discriminate)).
Qed.

(** The manœuvres [ms] may be executed from time [t] on. *)
Fixpoint ordered (t : Q) (ms : list manœuvre) (tf : Q) : Prop :=
  match ms with
  | [] => t <= tf
  | m :: r => t < initial_time m /\ initial_time m <= final_time m /\ ordered (final_time m) r tf
  end.

Lemma ordered_weaken t t' ms tf : t' <= t -> ordered t ms tf -> ordered t' ms tf.
Proof. intros L. destruct ms; cbn [ordered]; [lra|]. intros (O1 & O2 & O3). split; [lra|auto]. Qed.
Lemma ordered_end t ms tf tf' : tf <= tf' -> ordered t ms tf -> ordered t ms tf'.
Proof. intros L. revert t. induction ms as [|m r IH]; intros t; cbn [ordered]; [lra|]. intros (O1 & O2 & O3). auto. Qed.

Lemma compute_loop o ms : forall done p overall, honest o -> open_ done p ->
  (anomalous_segments_ p = O -> anomalous_status_ p = Ok) ->
  match ComputeLoop o ms p overall with
  | Some (ms', p', overall') => Forall2 same_manœuvre ms ms' /\ same p p' /\ open_ (done ++ ms') p' /\
      (anomalous_segments_ p' = O -> anomalous_status_ p' = Ok) /\
      (overall = anomalous_status_ p -> overall' = anomalous_status_ p')
  | None => anomalous_segments_ p = O /\ forall x, frontier p x -> ~ ordered x ms (desired_final_time_ p)
  end.
Proof.
  induction ms as [|m r IH]; intros done p overall H OP Z; cbn [ComputeLoop].
  - split; [constructor|]. split; [repeat split|]. rewrite app_nil_r. split; [exact OP|]. split; [exact Z|auto].
  - pose proof (compute_one o m done p overall H OP) as ONE. unfold one_result in ONE.
    destruct (ComputeOne o m p overall) as [[[m' p1] ov1]|].
    + destruct ONE as (SM & SP & O1 & N1 & N2 & N3 & N4).
      assert (Z1 : anomalous_segments_ p1 = O -> anomalous_status_ p1 = Ok).
      { intros E1. rewrite (N2 E1). apply Z. destruct (anomalous_segments_ p); [reflexivity|]. exfalso. apply N1; [discriminate|exact E1]. }
      specialize (IH (done ++ [m']) p1 ov1 H O1 Z1). destruct (ComputeLoop o r p1 ov1) as [[[r' p2] ov2]|].
      * destruct IH as (F & S2 & O2 & Z2 & V2). split; [constructor; assumption|]. split; [|split; [|split; [exact Z2|]]].
        -- destruct SP as (? & ? & ? & ?), S2 as (? & ? & ? & ?). repeat split; congruence.
        -- rewrite <- app_assoc in O2. exact O2.
        -- intros OV. apply V2. apply N4; [exact OV|]. intros EZ. rewrite OV. exact (Z EZ).
      * destruct IH as [E1 IH]. split.
        { destruct (anomalous_segments_ p); [reflexivity|]. exfalso. apply N1; [discriminate|exact E1]. }
        intros x FX OR. cbn [ordered] in OR. destruct OR as (R1 & R2 & R3).
        destruct (N3 E1) as (y & FY & YE). apply (IH y FY). destruct SP as (_ & _ & -> & _).
        apply (ordered_weaken (final_time m)); [|exact R3]. rewrite YE, Q.max_r by exact R2. lra.
    + destruct ONE as (EZ & x & (last & segs & E & X) & L). split; [exact EZ|]. intros y (last' & segs' & E' & Y) (R1 & _).
      rewrite E in E'. injection E' as <- <-. rewrite X in Y. injection Y as <-. lra.
Qed.

Lemma open_transfer done p q : segments q = segments p -> anomalous_segments_ q = anomalous_segments_ p ->
  (anomalous_segments_ p <> O -> anomalous_status_ q = anomalous_status_ p) -> initial_time_ q = initial_time_ p -> open_ done p -> open_ done q.
Proof.
  intros E1 E2 E3 E4 [H1 H2 H3]. constructor.
  - rewrite E1, E2. destruct H1 as (last & segs & A & B & C). exists last, segs. split; [exact A|]. split; [exact B|].
    destruct (anomalous_segments_ p); [exact C|]. rewrite E3 by discriminate. exact C.
  - rewrite E1, E4. exact H2.
  - rewrite E1. exact H3.
Qed.

Lemma last_coast o p : honest o -> open_ (manœuvres_ p) p -> (anomalous_segments_ p = O -> anomalous_status_ p = Ok) ->
  exists st p', ComputeLastCoast o p (anomalous_status_ p) = Some (st, p') /\ stable p' /\ st = anomalous_status_ p' /\
    initial_mass_ p' = initial_mass_ p /\ initial_time_ p' = initial_time_ p /\ manœuvres_ p' = manœuvres_ p /\
    desired_final_time_ p <= desired_final_time_ p'.
Proof.
  intros H OP Z. pose proof OP as [(last & r & E & A & K) C SG]. unfold ComputeLastCoast.
  destruct (anomalous_segments_ p) as [|k] eqn:EK.
  - destruct K as [ON F]. destruct (SG last r E ON) as [x X].
    assert (AF : actual_final_time p = Some x).
    { unfold actual_final_time. rewrite E. destruct last as [pts oc]. cbn [points] in X. subst pts. reflexivity. }
    rewrite AF. set (q := set_desired_final_time p (Qmax (desired_final_time_ p) x)).
    assert (OQ : open_ (manœuvres_ p) q) by (apply (open_transfer _ p); auto).
    pose proof (flow_spec o (desired_final_time_ q) q (manœuvres_ p) H OQ EK) as FS. unfold CoastSegment.
    destruct (Flow o (desired_final_time_ q) q) as [[st p1]|].
    + destruct FS as (last' & r' & c & E' & E1 & OC & BC & CC & ST). cbn [q set_desired_final_time segments] in E'.
      rewrite E in E'. injection E' as <- <-.
      assert (DL : desired_final_time_ p <= desired_final_time_ q) by (cbn; apply Q.le_max_l).
      destruct (ok st) eqn:OKST.
      * assert (st = Ok) as -> by (destruct st; try discriminate; reflexivity).
        exists (anomalous_status_ p), p1. split; [reflexivity|].
        split; [|rewrite E1; cbn; repeat split; try reflexivity; exact DL].
        constructor.
        -- exists c, r. rewrite E1. cbn. split; [reflexivity|]. split; [exact A|]. intros _. exact (BC eq_refl).
        -- rewrite E1. cbn. exact CC.
        -- rewrite E1. cbn. rewrite EK. split; [exact (Z eq_refl)|]. constructor; assumption.
      * assert (NST : genuine st) by (destruct st; try discriminate; exact I || contradiction).
        exists (Update (anomalous_status_ p) st), (set_anomaly p1 1 st). split; [reflexivity|].
        split; [|rewrite (Z eq_refl), E1; cbn; repeat split; try reflexivity; exact DL].
        constructor.
        -- exists c, r. rewrite E1. cbn. split; [reflexivity|]. split; [exact A|]. intros I. unfold integrated in I.
           rewrite OC in I. injection I as ->. contradiction.
        -- rewrite E1. cbn. exact CC.
        -- rewrite E1. cbn. exists [], c, r. repeat split; auto.
    + destruct FS as (last' & r' & y & E' & Y & L). cbn [q set_desired_final_time segments] in E'. rewrite E in E'.
      injection E' as <- <-. rewrite X in Y. injection Y as <-. exfalso. cbn in L.
      pose proof (Q.le_max_r (desired_final_time_ p) x). lra.
  - exists (anomalous_status_ p), p. split; [reflexivity|]. split; [|repeat split; try reflexivity; lra].
    constructor.
    + exists last, r. split; [exact E|]. split; [exact A|]. intros I. rewrite E in K.
      destruct (anomalous_head_not_integrated _ _ _ _ K I).
    + exact C.
    + rewrite EK. exact K.
Qed.

(** What an edit keeps, apart from the manœuvres. *)
Definition keeps (p p' : plan) : Prop :=
  initial_mass_ p' = initial_mass_ p /\ initial_time_ p' = initial_time_ p /\ desired_final_time_ p <= desired_final_time_ p' /\
  Forall2 same_manœuvre (manœuvres_ p) (manœuvres_ p').

Lemma Forall2_refl_same ms : Forall2 same_manœuvre ms ms.
Proof. induction ms; constructor; [split; reflexivity|assumption]. Qed.

Lemma compute_segments o p done rest : honest o -> manœuvres_ p = done ++ rest -> open_ done p ->
  match ComputeSegments o (length done) p with
  | Some (st, p') => stable p' /\ keeps p p' /\ st = anomalous_status_ p'
  | None => anomalous_segments_ p = O /\ forall x, frontier p x -> ~ ordered x rest (desired_final_time_ p)
  end.
Proof.
  intros H E OP. unfold ComputeSegments.
  set (q := match anomalous_segments_ p with O => set_anomaly p 0 Ok | S _ => p end).
  assert (EQ : segments q = segments p /\ anomalous_segments_ q = anomalous_segments_ p /\ initial_time_ q = initial_time_ p /\
    initial_mass_ q = initial_mass_ p /\ desired_final_time_ q = desired_final_time_ p /\ manœuvres_ q = manœuvres_ p /\
    (anomalous_segments_ p <> O -> anomalous_status_ q = anomalous_status_ p) /\ (anomalous_segments_ q = O -> anomalous_status_ q = Ok)).
  { unfold q. destruct (anomalous_segments_ p) eqn:EK; cbn [set_anomaly segments anomalous_segments_ initial_time_ initial_mass_ desired_final_time_ manœuvres_ anomalous_status_];
      rewrite ?EK; do 6 (split; [reflexivity|]); (split; intros Z; congruence). }
  destruct EQ as (Q1 & Q2 & Q3 & Q4 & Q5 & Q6 & Q7 & Q8).
  assert (OQ : open_ done q) by (apply (open_transfer _ p); auto).
  assert (SK : skipn (length done) (manœuvres_ q) = rest).
  { rewrite Q6, E, skipn_app, skipn_all, Nat.sub_diag. reflexivity. }
  assert (FN : firstn (length done) (manœuvres_ q) = done).
  { rewrite Q6, E, firstn_app, firstn_all, Nat.sub_diag, firstn_O, app_nil_r. reflexivity. }
  rewrite SK, FN. pose proof (compute_loop o rest done q (anomalous_status_ q) H OQ Q8) as L.
  destruct (ComputeLoop o rest q (anomalous_status_ q)) as [[[ms p1] ov]|].
  - destruct L as (F & (S1 & S2 & S3 & S4) & O1 & Z1 & V1). rewrite (V1 eq_refl).
    assert (O1' : open_ (manœuvres_ (set_manœuvres p1 (done ++ ms))) (set_manœuvres p1 (done ++ ms))).
    { cbn. apply (open_transfer _ p1); auto. }
    destruct (last_coast o (set_manœuvres p1 (done ++ ms)) H O1' Z1) as (st & p' & EL & ST & SV & L1 & L2 & L3 & L4).
    cbn [anomalous_status_ set_manœuvres] in EL. rewrite EL. split; [exact ST|]. split; [|exact SV].
    cbn in L1, L2, L3, L4. split; [congruence|]. split; [congruence|]. split; [rewrite <- Q5, <- S3; exact L4|].
    rewrite L3, E. apply Forall2_app; [apply Forall2_refl_same|exact F].
  - destruct L as [L1 L2]. split; [congruence|]. intros x (last & r & EX & X). rewrite <- Q5. apply L2. exists last, r. split; [congruence|exact X].
Qed.

(** ** Popping segments *)

Lemma pop_reset p q done rest : stable p -> manœuvres_ p = done ++ rest ->
  segments q = segments p -> anomalous_segments_ q = anomalous_segments_ p -> anomalous_status_ q = anomalous_status_ p ->
  initial_time_ q = initial_time_ p ->
  exists q', PopLastSegments (2 * length rest) q = Some q' /\ open_ done (ResetLastSegment q') /\
    manœuvres_ q' = manœuvres_ q /\ initial_mass_ q' = initial_mass_ q /\ initial_time_ q' = initial_time_ q /\
    desired_final_time_ q' = desired_final_time_ q.
Proof.
  intros [(last & segs & E & A & _) C K] EM E1 E2 E3 E4.
  rewrite EM, rev_app_distr in A. destruct (alternate_app _ _ _ A) as (s1 & s2 & ES & L1 & A1 & A2).
  rewrite rev_length in L1. unfold PopLastSegments.
  assert (EV : Nat.even (2 * length rest) = true) by (apply Nat.even_spec; exists (length rest); reflexivity).
  assert (LS : length (segments q) = S (2 * length rest + length s2)) by (rewrite E1, E; cbn [length]; rewrite ES, app_length; lia).
  rewrite EV. assert (LB : (2 * length rest <=? length (segments q))%nat = true) by (apply Nat.leb_le; lia).
  rewrite LB. cbn [andb]. eexists. split; [reflexivity|]. split; [|repeat split].
  assert (SKN : exists c, skipn (2 * length rest) (last :: segs) = c :: s2).
  { rewrite ES. change (last :: s1 ++ s2) with ((last :: s1) ++ s2).
    destruct (exists_last (l := last :: s1) ltac:(discriminate)) as (t1 & c & EC). exists c. rewrite EC, <- app_assoc.
    assert (LT : length t1 = (2 * length rest)%nat).
    { assert (LL : length (last :: s1) = length (t1 ++ [c])) by (rewrite EC; reflexivity). rewrite app_length in LL. cbn [length] in LL. lia. }
    rewrite <- LT, skipn_app, skipn_all, Nat.sub_diag. reflexivity. }
  destruct SKN as [c SKN].
  apply (reset_open _ done c s2).
  - cbn [segments set_anomaly set_segments]. rewrite E1, E. exact SKN.
  - exact A2.
  - cbn [segments set_anomaly set_segments initial_time_]. rewrite E1, E4. apply chained_skipn; [rewrite E1 in LS; lia|exact C].
  - cbn [segments set_anomaly set_segments anomalous_segments_ anomalous_status_]. rewrite E1, E2, E3.
    apply pop_anomalous; [exact K|]. rewrite E1 in LS. lia.
Qed.

(** The point from which the computation resumes is the end of the last manœuvre that is kept. *)
Definition end_of (t0 : Q) (done : list manœuvre) : Q :=
  match rev done with [] => t0 | m :: _ => Qmax (initial_time m) (final_time m) end.

Lemma frontier_open done p : open_ done p -> anomalous_segments_ p = O -> exists x, frontier p x /\ x == end_of (initial_time_ p) done.
Proof.
  intros [(last & r & E & A & K) C SG] Z. rewrite Z in K. destruct K as [ON F]. destruct (SG last r E ON) as [x X].
  exists x. split; [exists last, r; auto|]. unfold end_of. rewrite E in C. destruct C as (l & y & Y & C). rewrite X in Y.
  destruct l as [|z [|z' l]]; try discriminate. injection Y as <-.
  destruct (rev done) as [|m d].
  - destruct r; [|contradiction]. subst x. reflexivity.
  - destruct r as [|b [|c r]]; try contradiction. destruct A as [(_ & _ & B) _]. destruct C as [(l' & B') _].
    destruct (B (Forall_inv F)) as (u & ru & U & UE). rewrite B' in U. injection U as <- <-. exact UE.
Qed.

Lemma ordered_app t a b tf : ordered t (a ++ b) tf -> ordered (match rev a with [] => t | m :: _ => final_time m end) b tf /\
  Forall (fun m => initial_time m <= final_time m) a.
Proof.
  revert t. induction a as [|m a IH]; intros t H; [cbn; split; [exact H|constructor]|].
  cbn [app ordered] in H. destruct H as (H1 & H2 & H3). destruct (IH _ H3) as [I1 I2]. split; [|constructor; assumption].
  cbn [rev]. destruct (rev a) as [|m' a'] eqn:E; [exact I1|]. cbn [app]. exact I1.
Qed.

Lemma ordered_end_of t a b tf : ordered t (a ++ b) tf -> ordered (end_of t a) b tf.
Proof.
  intros H. destruct (ordered_app _ _ _ _ H) as [O F]. unfold end_of. destruct (rev a) as [|m r] eqn:E; [exact O|].
  apply (ordered_weaken (final_time m)); [|exact O]. rewrite Forall_forall in F.
  assert (I : In m a) by (apply in_rev; rewrite E; left; reflexivity). rewrite Q.max_r by (exact (F m I)). lra.
Qed.

(** Recomputing the segments of the manœuvres after [done]. *)
Definition recompute (o : oracle) (done rest0 : list manœuvre) (q : plan) : option (status * plan) :=
  do q' <- PopLastSegments (2 * length rest0) q; ComputeSegments o (length done) (ResetLastSegment q').

Lemma recompute_ok o p q done rest0 rest : honest o -> stable p -> manœuvres_ p = done ++ rest0 -> manœuvres_ q = done ++ rest ->
  segments q = segments p -> anomalous_segments_ q = anomalous_segments_ p -> anomalous_status_ q = anomalous_status_ p ->
  initial_time_ q = initial_time_ p ->
  match recompute o done rest0 q with
  | Some (st, p') => stable p' /\ keeps q p' /\ st = anomalous_status_ p'
  | None => ~ ordered (initial_time_ q) (manœuvres_ q) (desired_final_time_ q)
  end.
Proof.
  intros H ST E0 E1 S1 S2 S3 S4. unfold recompute.
  destruct (pop_reset p q done rest0 ST E0 S1 S2 S3 S4) as (q' & EP & OP & M1 & M2 & M3 & M4). rewrite EP.
  set (r := ResetLastSegment q') in *.
  assert (RM : manœuvres_ r = done ++ rest) by (unfold r, ResetLastSegment; destruct (segments q'); cbn; congruence).
  assert (RI : initial_mass_ r = initial_mass_ q) by (unfold r, ResetLastSegment; destruct (segments q'); cbn; congruence).
  assert (RT : initial_time_ r = initial_time_ q) by (unfold r, ResetLastSegment; destruct (segments q'); cbn; congruence).
  assert (RD : desired_final_time_ r = desired_final_time_ q) by (unfold r, ResetLastSegment; destruct (segments q'); cbn; congruence).
  pose proof (compute_segments o r done rest H RM OP) as CS. destruct (ComputeSegments o (length done) r) as [[st p']|].
  - destruct CS as (C1 & (K1 & K2 & K3 & K4) & C3). split; [exact C1|]. split; [|exact C3].
    split; [congruence|]. split; [congruence|]. split; [rewrite <- RD; exact K3|]. rewrite E1, <- RM. exact K4.
  - destruct CS as [Z N]. destruct (frontier_open done r OP Z) as (x & FX & XE). intros OR. apply (N x FX). rewrite RD.
    rewrite E1 in OR. apply ordered_end_of in OR. apply (ordered_weaken (end_of (initial_time_ q) done)); [|exact OR].
    rewrite XE, RT. lra.
Qed.

Lemma number_of_segments_stable p : stable p -> number_of_segments p = (2 * number_of_manœuvres p + 1)%nat.
Proof.
  intros [(last & segs & E & A & _) _ _]. unfold number_of_segments, number_of_manœuvres. rewrite E.
  apply alternate_length in A. rewrite rev_length in A. cbn [length]. lia.
Qed.

Lemma update_masses done m r p : manœuvres_ p = done ++ m :: r ->
  UpdateInitialMassOfManœuvresAfter (length done) p = set_manœuvres p (done ++ m :: rebuild (final_mass m) r).
Proof.
  intros E. unfold UpdateInitialMassOfManœuvresAfter. rewrite E, skipn_app, skipn_all, Nat.sub_diag. cbn [skipn app].
  rewrite firstn_app, firstn_all, Nat.sub_diag, firstn_O, app_nil_r. reflexivity.
Qed.
Lemma update_masses_none p : UpdateInitialMassOfManœuvresAfter (length (manœuvres_ p)) p = p.
Proof. unfold UpdateInitialMassOfManœuvresAfter. rewrite skipn_all. reflexivity. Qed.

(** [pop] in the edits is [recompute]. *)
Lemma pop_recompute o p q done rest0 : stable p -> manœuvres_ p = done ++ rest0 -> segments q = segments p ->
  (do q' <- PopSegmentsAffectedByManœuvre (length done) q; ComputeSegments o (length done) q') = recompute o done rest0 q.
Proof.
  intros ST E ES. unfold PopSegmentsAffectedByManœuvre, recompute.
  assert (N : (number_of_segments q - (2 * length done + 1) = 2 * length rest0)%nat).
  { unfold number_of_segments. rewrite ES. change (length (segments p)) with (number_of_segments p).
    rewrite (number_of_segments_stable p ST). unfold number_of_manœuvres. rewrite E, app_length. lia. }
  rewrite N. destruct (PopLastSegments (2 * length rest0) q); reflexivity.
Qed.

(** * The edits as recomputations *)

Definition rejected (st : status) : Prop := match st with Singular | DoesNotFit | BadDesiredFinalTime => True | _ => False end.

Lemma split_index {A} (l : list A) i : (i <= length l)%nat -> exists a b, l = a ++ b /\ length a = i.
Proof. intros L. exists (firstn i l), (skipn i l). split; [symmetry; apply firstn_skipn|]. rewrite firstn_length. lia. Qed.
Lemma split_nth {A} (l : list A) i x : nth_error l i = Some x -> exists a b, l = a ++ x :: b /\ length a = i.
Proof. intros E. destruct (nth_error_split l i E) as (a & b & -> & L). exists a, b. auto. Qed.
Lemma firstn_len {A} (a b : list A) : firstn (length a) (a ++ b) = a.
Proof. rewrite firstn_app, firstn_all, Nat.sub_diag, firstn_O, app_nil_r. reflexivity. Qed.
Lemma skipn_len {A} (a b : list A) : skipn (length a) (a ++ b) = b.
Proof. rewrite skipn_app, skipn_all, Nat.sub_diag. reflexivity. Qed.
Lemma skipn_S_len {A} (a b : list A) x : skipn (S (length a)) (a ++ x :: b) = b.
Proof.
  rewrite skipn_app. rewrite skipn_all2 by lia. replace (S (length a) - length a)%nat with 1%nat by lia. reflexivity.
Qed.

(** The mass before a manœuvre that comes after [done]. *)
Definition mass_after (m0 : Q) (done : list manœuvre) : Q := match rev done with [] => m0 | m :: _ => final_mass m end.
Definition time_after (t0 : Q) (done : list manœuvre) : Q := match rev done with [] => t0 | m :: _ => final_time m end.

Lemma nth_error_last {A} (a : list A) x b : nth_error (a ++ x :: b) (length a) = Some x.
Proof. rewrite nth_error_app2, Nat.sub_diag by lia. reflexivity. Qed.

Lemma insert_cases o b p a c : stable p -> manœuvres_ p = a ++ c ->
  let m := MakeManœuvre (mass_after (initial_mass_ p) a) b in
  let next := match c with [] => desired_final_time_ p | n :: _ => initial_time n end in
  (Insert o b (length a) p = Some (Singular, p) /\ finite b = false) \/
  (Insert o b (length a) p = Some (DoesNotFit, p) /\ ~ (time_after (initial_time_ p) a < initial_time m /\ final_time m < next)) \/
  (time_after (initial_time_ p) a < initial_time m /\ final_time m < next /\
   Insert o b (length a) p = recompute o a c (set_manœuvres p (a ++ m :: rebuild (final_mass m) c))).
Proof.
  intros ST E m next.
  assert (EM : (match length a with O => initial_mass_ p | S i => match nth_error (manœuvres_ p) i with Some m => final_mass m | None => 0 end end) = mass_after (initial_mass_ p) a).
  { unfold mass_after. rewrite E. destruct a as [|x a' _] using rev_ind; [reflexivity|]. rewrite app_length, Nat.add_1_r.
    rewrite rev_app_distr, <- app_assoc. cbn [rev app]. rewrite nth_error_last. reflexivity. }
  assert (ET : start_of_previous_coast p (length a) = time_after (initial_time_ p) a).
  { unfold start_of_previous_coast, time_after. rewrite E. destruct a as [|x a' _] using rev_ind; [reflexivity|]. rewrite app_length, Nat.add_1_r.
    rewrite rev_app_distr, <- app_assoc. cbn [rev app]. rewrite nth_error_last. reflexivity. }
  assert (EN : start_of_burn p (length a) = next).
  { unfold start_of_burn, next. rewrite E. rewrite nth_error_app2, Nat.sub_diag by lia. destruct c; reflexivity. }
  unfold Insert. unfold number_of_manœuvres.
  assert (LE : (length a <=? length (manœuvres_ p))%nat = true) by (apply Nat.leb_le; rewrite E, app_length; lia).
  rewrite LE, EM, ET, EN. fold m. unfold IsSingular. cbn [m construction_burn MakeManœuvre].
  destruct (finite b) eqn:F; cbn [negb]; [|left; auto]. right.
  unfold FitsBetween. destruct (Qlt_bool (time_after (initial_time_ p) a) (initial_time m)) eqn:L1.
  - apply Qlt_bool_iff in L1. destruct (Qlt_bool (final_time m) next) eqn:L2; cbn [andb negb].
    + apply Qlt_bool_iff in L2. right. split; [exact L1|]. split; [exact L2|].
      rewrite E, firstn_len, skipn_len. rewrite (update_masses a m c) by reflexivity.
      rewrite (pop_recompute o p _ a c ST E) by reflexivity. reflexivity.
    + apply Qlt_bool_false in L2. left. split; [reflexivity|]. lra.
  - apply Qlt_bool_false in L1. cbn [andb negb]. left. split; [reflexivity|]. lra.
Qed.

Lemma remove_case o p a x c : stable p -> manœuvres_ p = a ++ x :: c ->
  Remove o (length a) p = recompute o a (x :: c)
    (set_manœuvres p (a ++ match c with [] => [] | m :: r => m :: rebuild (final_mass m) r end)).
Proof.
  intros ST E. unfold Remove, number_of_manœuvres.
  assert (LT : (length a <? length (manœuvres_ p))%nat = true) by (apply Nat.ltb_lt; rewrite E, app_length; cbn [length]; lia).
  rewrite LT, E, firstn_len, skipn_S_len. destruct c as [|m r].
  - rewrite app_nil_r. pose proof (update_masses_none (set_manœuvres p a)) as U. cbn [manœuvres_ set_manœuvres] in U. rewrite U.
    rewrite (pop_recompute o p _ a [x] ST E) by reflexivity. reflexivity.
  - rewrite (update_masses a m r) by reflexivity. rewrite (pop_recompute o p _ a (x :: m :: r) ST E) by reflexivity. reflexivity.
Qed.

Lemma replace_cases o b p a old c : stable p -> manœuvres_ p = a ++ old :: c ->
  let m := MakeManœuvre (initial_mass old) b in
  let q := set_manœuvres (match c with [] => set_desired_final_time p (Qmax (desired_final_time_ p) (final_time m)) | _ => p end)
             (a ++ m :: rebuild (final_mass m) c) in
  (Replace o b (length a) p = Some (Singular, p) /\ finite b = false) \/
  (Replace o b (length a) p = Some (DoesNotFit, p) /\
   ~ (time_after (initial_time_ p) a < initial_time m /\ match c with [] => True | n :: _ => final_time m < initial_time n end)) \/
  (time_after (initial_time_ p) a < initial_time m /\ match c with [] => True | n :: _ => final_time m < initial_time n end /\
   Replace o b (length a) p = recompute o a (old :: c) q).
Proof.
  intros ST E m q.
  assert (ET : start_of_previous_coast p (length a) = time_after (initial_time_ p) a).
  { unfold start_of_previous_coast, time_after. rewrite E. destruct a as [|x a' _] using rev_ind; [reflexivity|]. rewrite app_length, Nat.add_1_r.
    rewrite rev_app_distr, <- app_assoc. cbn [rev app]. rewrite nth_error_last. reflexivity. }
  assert (EN : start_of_next_burn p (length a) = match c with [] => desired_final_time_ p | n :: _ => initial_time n end).
  { unfold start_of_next_burn, start_of_burn. rewrite E. rewrite nth_error_app2 by lia.
    replace (S (length a) - length a)%nat with 1%nat by lia. destruct c; reflexivity. }
  unfold Replace. rewrite E, nth_error_last. fold m. unfold IsSingular. cbn [m construction_burn MakeManœuvre].
  destruct (finite b) eqn:F; cbn [negb]; [|left; auto]. right.
  assert (EQB : Nat.eqb (S (length a)) (number_of_manœuvres p) = match c with [] => true | _ => false end).
  { unfold number_of_manœuvres. rewrite E, app_length. cbn [length]. destruct c; [apply Nat.eqb_eq; cbn; lia|apply Nat.eqb_neq; cbn [length]; lia]. }
  rewrite EQB, ET. destruct c as [|n c].
  - unfold IsAfter. destruct (Qlt_bool (time_after (initial_time_ p) a) (initial_time m)) eqn:L1.
    + apply Qlt_bool_iff in L1. right. split; [exact L1|]. split; [exact I|].
      cbn [manœuvres_ set_desired_final_time]. rewrite E, firstn_len, skipn_S_len.
      rewrite (update_masses a m []) by reflexivity. rewrite (pop_recompute o p _ a [old] ST E) by reflexivity. reflexivity.
    + apply Qlt_bool_false in L1. left. split; [reflexivity|]. lra.
  - unfold FitsBetween. rewrite EN. destruct (Qlt_bool (time_after (initial_time_ p) a) (initial_time m)) eqn:L1.
    + apply Qlt_bool_iff in L1. destruct (Qlt_bool (final_time m) (initial_time n)) eqn:L2; cbn [andb negb].
      * apply Qlt_bool_iff in L2. right. split; [exact L1|]. split; [exact L2|].
        rewrite firstn_len, skipn_S_len. rewrite (update_masses a m (n :: c)) by reflexivity.
        rewrite (pop_recompute o p _ a (old :: n :: c) ST E) by reflexivity. reflexivity.
      * apply Qlt_bool_false in L2. left. split; [reflexivity|]. lra.
    + apply Qlt_bool_false in L1. cbn [andb negb]. left. split; [reflexivity|]. lra.
Qed.

Lemma set_desired_cases o t p : stable p ->
  (SetDesiredFinalTime o t p = Some (BadDesiredFinalTime, p) /\ t < start_of_last_coast p) \/
  (start_of_last_coast p <= t /\
   SetDesiredFinalTime o t p = recompute o (manœuvres_ p) [] (set_desired_final_time p t)).
Proof.
  intros ST. unfold SetDesiredFinalTime. destruct (Qlt_bool t (start_of_last_coast p)) eqn:L.
  - apply Qlt_bool_iff in L. left. auto.
  - apply Qlt_bool_false in L. right. split; [exact L|]. unfold recompute, PopLastSegments. cbn [length Nat.mul Nat.even andb Nat.leb].
    cbn [skipn]. rewrite Nat.sub_0_r. destruct p as [f1 f2 f3 f4 f5 f6 f7 f8]; reflexivity.
Qed.

Lemma recompute_all_case o p : stable p -> RecomputeAllSegments o p = recompute o [] (manœuvres_ p) p.
Proof.
  intros ST. unfold RecomputeAllSegments, recompute. rewrite (number_of_segments_stable p ST).
  replace (2 * number_of_manœuvres p + 1 - 1)%nat with (2 * length (manœuvres_ p))%nat by (unfold number_of_manœuvres; lia).
  reflexivity.
Qed.

Lemma anomalous_bound k st segs : anomalous k st segs -> (k <= length segs)%nat.
Proof.
  destruct k as [|j]; [lia|]. intros (later & failed & earlier & -> & L & _). rewrite app_length. cbn [length]. lia.
Qed.

Lemma avoid_deadline_cases o p : stable p ->
  RecomputeSegmentsAvoidingDeadlineIfNeeded o p = Some (Ok, p) \/
  exists a c, manœuvres_ p = a ++ c /\ RecomputeSegmentsAvoidingDeadlineIfNeeded o p = recompute o a c p.
Proof.
  intros ST. unfold RecomputeSegmentsAvoidingDeadlineIfNeeded.
  pose proof (anomalous_bound _ _ _ (st_anomalous p ST)) as B. change (length (segments p)) with (number_of_segments p) in B.
  rewrite (number_of_segments_stable p ST) in B.
  destruct (anomalous_segments_ p) as [|k] eqn:EK; [left; reflexivity|].
  destruct (anomalous_status_ p); try (left; reflexivity). right.
  set (h := Nat.div2 (S k)). assert (LH : (h <= number_of_manœuvres p)%nat).
  { unfold h. pose proof (Nat.div2_odd (S k)) as D. destruct (Nat.odd (S k)); cbn [Nat.b2n] in D; lia. }
  exists (firstn (number_of_manœuvres p - h) (manœuvres_ p)), (skipn (number_of_manœuvres p - h) (manœuvres_ p)).
  split; [symmetry; apply firstn_skipn|]. unfold recompute. rewrite firstn_length, skipn_length.
  replace (Nat.min (number_of_manœuvres p - h) (length (manœuvres_ p))) with (number_of_manœuvres p - h)%nat by (unfold number_of_manœuvres in *; lia).
  replace (length (manœuvres_ p) - (number_of_manœuvres p - h))%nat with h by (unfold number_of_manœuvres in *; lia). reflexivity.
Qed.

(** * All the operations *)

Lemma construct_ok o m0 t0 tf : honest o -> t0 <= tf -> exists p, Construct o m0 t0 tf = Some p /\ stable p /\
  manœuvres_ p = [] /\ initial_mass_ p = m0 /\ initial_time_ p = t0 /\ tf <= desired_final_time_ p.
Proof.
  intros H L. unfold Construct. rewrite (proj2 (Qle_bool_iff _ _) L).
  set (p0 := Plan m0 t0 tf [Segment [t0] None] 0 Ok [] 0).
  assert (OP : open_ [] p0).
  { constructor.
    - exists (Segment [t0] None), []. cbn. split; [reflexivity|]. split; [exact I|]. split; [reflexivity|constructor].
    - cbn. exists [], t0. split; reflexivity.
    - intros last segs E _. injection E as <- _. exists t0. reflexivity. }
  pose proof (compute_segments o p0 [] [] H eq_refl OP) as C. cbn [length] in C.
  destruct (ComputeSegments o 0 p0) as [[st p]|].
  - destruct C as (ST & (K1 & K2 & K3 & K4) & _). exists p. cbn in *. inversion K4 as [E1 E2|]. auto 8.
  - destruct C as [_ N]. exfalso. apply (N t0); [exists (Segment [t0] None), []; split; reflexivity|exact L].
Qed.

Lemma stable_status p : stable p -> ~ rejected (anomalous_status_ p).
Proof.
  intros [_ _ A]. destruct (anomalous_segments_ p); [destruct A as [-> _]; intros []|].
  destruct A as (later & failed & earlier & _ & _ & _ & _ & G & _). destruct (anomalous_status_ p); cbn in *; tauto.
Qed.

Lemma perform_ok o op p st p' : honest o -> stable p -> perform o op p = Some (st, p') ->
  stable p' /\ (rejected st -> p' = p) /\ (st = anomalous_status_ p' \/ p' = p).
Proof.
  intros H ST E.
  assert (REJ : forall st0, Some (st0, p) = Some (st, p') -> stable p' /\ (rejected st -> p' = p) /\ (st = anomalous_status_ p' \/ p' = p)).
  { intros st0 X. injection X as <- <-. auto. }
  assert (REC : forall q a c0 c, manœuvres_ p = a ++ c0 -> manœuvres_ q = a ++ c -> segments q = segments p ->
    anomalous_segments_ q = anomalous_segments_ p -> anomalous_status_ q = anomalous_status_ p -> initial_time_ q = initial_time_ p ->
    recompute o a c0 q = Some (st, p') -> stable p' /\ (rejected st -> p' = p) /\ (st = anomalous_status_ p' \/ p' = p)).
  { intros q a c0 c E0 E1 S1 S2 S3 S4 R. pose proof (recompute_ok o p q a c0 c H ST E0 E1 S1 S2 S3 S4) as K. rewrite R in K.
    destruct K as (K1 & _ & K3). split; [exact K1|]. split; [|auto]. intros RJ. exfalso. rewrite K3 in RJ. exact (stable_status p' K1 RJ). }
  destruct op as [b i|i|b i|t| |]; cbn [perform] in E.
  - destruct (Nat.le_gt_cases i (number_of_manœuvres p)) as [L|L].
    + destruct (split_index (manœuvres_ p) i L) as (a & c & EM & <-).
      destruct (insert_cases o b p a c ST EM) as [(X & _)|[(X & _)|(_ & _ & X)]]; rewrite X in E; eauto.
      eapply REC; [exact EM| | | | | |exact E]; reflexivity.
    + exfalso. unfold Insert in E. rewrite (proj2 (Nat.leb_gt _ _) L) in E. discriminate.
  - destruct (nth_error (manœuvres_ p) i) as [x|] eqn:EN.
    + destruct (split_nth _ _ _ EN) as (a & c & EM & <-). rewrite (remove_case o p a x c ST EM) in E.
      eapply REC; [exact EM| | | | | |exact E]; reflexivity.
    + exfalso. apply nth_error_None in EN. unfold Remove, number_of_manœuvres in E. rewrite (proj2 (Nat.ltb_ge _ _) EN) in E. discriminate.
  - destruct (nth_error (manœuvres_ p) i) as [x|] eqn:EN.
    + destruct (split_nth _ _ _ EN) as (a & c & EM & <-).
      destruct (replace_cases o b p a x c ST EM) as [(X & _)|[(X & _)|(_ & _ & X)]]; rewrite X in E; eauto.
      eapply REC; [exact EM| | | | | |exact E]; destruct c; reflexivity.
    + exfalso. unfold Replace in E. rewrite EN in E. discriminate.
  - destruct (set_desired_cases o t p ST) as [(X & _)|(_ & X)]; rewrite X in E; eauto.
    eapply (REC _ (manœuvres_ p) [] []); [symmetry; apply app_nil_r| | | | | |exact E]; try reflexivity. symmetry; apply app_nil_r.
  - rewrite (recompute_all_case o p ST) in E. eapply (REC _ [] (manœuvres_ p) (manœuvres_ p)); [| | | | | |exact E]; reflexivity.
  - destruct (avoid_deadline_cases o p ST) as [X|(a & c & EM & X)]; rewrite X in E; [eauto|eapply REC; [exact EM|exact EM| | | | |exact E]; reflexivity].
Qed.

Lemma perform_all_stable o ops : honest o -> forall p p', stable p -> perform_all o ops p = Some p' -> stable p'.
Proof.
  intros H. induction ops as [|op r IH]; intros p p' ST E; cbn [perform_all] in E; [injection E as <-; exact ST|].
  destruct (perform o op p) as [[st q]|] eqn:EP; [|discriminate].
  destruct (perform_ok o op p st q H ST EP) as [SQ _]. exact (IH q p' SQ E).
Qed.

(** The plans that may be observed. *)
Inductive history (o : oracle) : plan -> Prop :=
| history_new m0 t0 tf p : t0 <= tf -> Construct o m0 t0 tf = Some p -> history o p
| history_edit p op st p' : history o p -> perform o op p = Some (st, p') -> history o p'.

Lemma history_stable o p : honest o -> history o p -> stable p.
Proof.
  intros H. induction 1 as [m0 t0 tf p L E|p op st p' HP IH E].
  - destruct (construct_ok o m0 t0 tf H L) as (q & E' & ST & _). congruence.
  - exact (proj1 (perform_ok o op p st p' H IH E)).
Qed.

(** ** Anomalous manœuvres *)

Definition without_initial_state (ms : list manœuvre) : nat := length (filter (fun m => negb (has_coasting_trajectory m)) ms).

Lemma count_anomalous ms : forall segs k, alternate ms segs -> (k <= length segs)%nat ->
  Forall (fun s => ~ integrated s) (firstn k segs) -> Forall integrated (skipn k segs) -> without_initial_state ms = Nat.div2 k.
Proof.
  unfold without_initial_state. induction ms as [|m r IH]; intros segs k A L F1 F2.
  - destruct segs; [|contradiction]. cbn in L. replace k with 0%nat by lia. reflexivity.
  - destruct segs as [|b [|c s]]; try contradiction. destruct A as [(_ & D & _) A]. cbn [filter].
    destruct k as [|[|k]].
    + cbn [skipn] in F2. assert (IC := Forall_inv (Forall_inv_tail F2)). rewrite (proj2 D IC). cbn [negb].
      apply (IH s 0%nat A); [lia|constructor|exact (Forall_inv_tail (Forall_inv_tail F2))].
    + cbn [skipn] in F2. rewrite (proj2 D (Forall_inv F2)). cbn [negb].
      apply (IH s 0%nat A); [lia|constructor|exact (Forall_inv_tail F2)].
    + cbn [firstn skipn] in F1, F2. assert (NC := Forall_inv (Forall_inv_tail F1)).
      destruct (has_coasting_trajectory m); [exfalso; apply NC, D; reflexivity|]. cbn [negb length Nat.div2]. f_equal.
      apply (IH s k A); [cbn [length] in L; lia|exact (Forall_inv_tail (Forall_inv_tail F1))|exact F2].
Qed.

Lemma filter_rev_length {A} (f : A -> bool) l : length (filter f (rev l)) = length (filter f l).
Proof.
  induction l as [|x l IH]; [reflexivity|]. cbn [rev filter]. rewrite filter_app, app_length, IH. cbn [filter].
  destruct (f x); cbn [length]; lia.
Qed.

Lemma anomalous_split k st segs : anomalous k st segs ->
  Forall (fun s => ~ integrated s) (firstn k segs) /\ Forall integrated (skipn k segs).
Proof.
  destruct k as [|j]; [intros [_ F]; split; [constructor|exact F]|].
  intros (later & failed & earlier & -> & <- & FL & OF & G & FE).
  assert (E : later ++ failed :: earlier = (later ++ [failed]) ++ earlier) by (rewrite <- app_assoc; reflexivity).
  assert (L : S (length later) = length (later ++ [failed])) by (rewrite app_length; cbn [length]; lia).
  rewrite E, L, firstn_len, skipn_len. split; [|exact FE]. apply Forall_app. split.
  - eapply Forall_impl; [|exact FL]. intros s [X _] I. unfold integrated in I. congruence.
  - constructor; [|constructor]. unfold integrated. rewrite OF. intros I. injection I as ->. exact G.
Qed.

Lemma anomalous_manœuvres p : stable p -> number_of_anomalous_manœuvres p = Z.of_nat (without_initial_state (manœuvres_ p)).
Proof.
  intros [(last & segs & E & A & _) _ K]. unfold number_of_anomalous_manœuvres.
  pose proof (anomalous_bound _ _ _ K) as B. destruct (anomalous_split _ _ _ K) as [F1 F2]. rewrite E in F1, F2, B.
  assert (W : without_initial_state (rev (manœuvres_ p)) = without_initial_state (manœuvres_ p)) by apply filter_rev_length.
  rewrite <- W. destruct (anomalous_segments_ p) as [|k].
  - cbn [skipn] in F2. rewrite (count_anomalous _ segs 0 A); [reflexivity|lia|constructor|exact (Forall_inv_tail F2)].
  - cbn [firstn skipn] in F1, F2. rewrite (count_anomalous _ segs k A); [|cbn [length] in B; lia|exact (Forall_inv_tail F1)|exact F2].
    replace (Z.of_nat (S k) - 1)%Z with (Z.of_nat k) by lia. rewrite Nat.div2_div.
    rewrite Z.quot_div_nonneg by lia. rewrite Nat2Z.inj_div. reflexivity.
Qed.

Lemma actual_final p : stable p -> anomalous_segments_ p = O -> exists t, actual_final_time p = Some t /\ t == desired_final_time_ p.
Proof.
  intros [(last & segs & E & _ & B) _ K] Z. rewrite Z, E in K. destruct K as [_ F]. destruct (B (Forall_inv F)) as (t & r & P & T).
  exists t. split; [|exact T]. unfold actual_final_time. rewrite E. destruct last as [pts oc]. cbn in P. subst pts. reflexivity.
Qed.

(** * Masses *)

(** The initial mass of each manœuvre is the final mass of the one before. *)
Fixpoint masses (mass : Q) (ms : list manœuvre) : Prop :=
  match ms with [] => True | m :: r => initial_mass m == mass /\ masses (final_mass m) r end.

Lemma masses_app m0 a b : masses m0 (a ++ b) <-> masses m0 a /\ masses (mass_after m0 a) b.
Proof.
  revert m0. induction a as [|m a IH]; intros m0; [cbn; tauto|]. cbn [app masses]. rewrite IH.
  assert (E : mass_after m0 (m :: a) = mass_after (final_mass m) a).
  { unfold mass_after. cbn [rev]. destruct (rev a); reflexivity. }
  rewrite E. tauto.
Qed.
Lemma masses_same m0 ms ms' : Forall2 same_manœuvre ms ms' -> masses m0 ms -> masses m0 ms'.
Proof.
  intros F. revert m0. induction F as [|m m' r r' S F IH]; intros m0 M; [exact I|]. destruct M as [M1 M2].
  destruct (same_manœuvre_times m m' S) as (_ & _ & _ & FM). split; [rewrite (proj1 S); exact M1|]. rewrite FM. auto.
Qed.
Lemma masses_rebuild m0 ms : masses m0 (rebuild m0 ms).
Proof. revert m0. induction ms as [|m r IH]; intros m0; cbn [rebuild masses]; [exact I|]. split; [reflexivity|apply IH]. Qed.

Definition removes_before_another (op : operation) (p : plan) : Prop :=
  match op with OpRemove i => (S i < number_of_manœuvres p)%nat | _ => False end.

Lemma perform_masses o op p st p' : honest o -> stable p -> ~ removes_before_another op p ->
  masses (initial_mass_ p) (manœuvres_ p) -> perform o op p = Some (st, p') -> masses (initial_mass_ p') (manœuvres_ p').
Proof.
  intros H ST NR M E.
  assert (REJ : forall st0, Some (st0, p) = Some (st, p') -> masses (initial_mass_ p') (manœuvres_ p')).
  { intros st0 X. injection X as <- <-. exact M. }
  assert (REC : forall q a c0 c, manœuvres_ p = a ++ c0 -> manœuvres_ q = a ++ c -> segments q = segments p ->
    anomalous_segments_ q = anomalous_segments_ p -> anomalous_status_ q = anomalous_status_ p -> initial_time_ q = initial_time_ p ->
    initial_mass_ q = initial_mass_ p -> masses (mass_after (initial_mass_ p) a) c ->
    recompute o a c0 q = Some (st, p') -> masses (initial_mass_ p') (manœuvres_ p')).
  { intros q a c0 c E0 E1 S1 S2 S3 S4 S5 MC R. pose proof (recompute_ok o p q a c0 c H ST E0 E1 S1 S2 S3 S4) as K. rewrite R in K.
    destruct K as (_ & (K1 & _ & _ & K4) & _). rewrite K1, S5. apply (masses_same _ (manœuvres_ q)); [exact K4|]. rewrite E1.
    apply masses_app. split; [|exact MC]. rewrite E0 in M. exact (proj1 (proj1 (masses_app _ _ _) M)). }
  destruct op as [b i|i|b i|t| |]; cbn [perform] in E.
  - destruct (Nat.le_gt_cases i (number_of_manœuvres p)) as [L|L].
    + destruct (split_index (manœuvres_ p) i L) as (a & c & EM & <-).
      destruct (insert_cases o b p a c ST EM) as [(X & _)|[(X & _)|(_ & _ & X)]]; rewrite X in E; eauto.
      eapply REC; [exact EM| | | | | | | |exact E]; try reflexivity. cbn [masses]. split; [reflexivity|apply masses_rebuild].
    + exfalso. unfold Insert in E. rewrite (proj2 (Nat.leb_gt _ _) L) in E. discriminate.
  - destruct (nth_error (manœuvres_ p) i) as [x|] eqn:EN.
    + destruct (split_nth _ _ _ EN) as (a & c & EM & <-). rewrite (remove_case o p a x c ST EM) in E.
      destruct c as [|m r].
      * eapply REC; [exact EM| | | | | | | |exact E]; reflexivity || exact I.
      * exfalso. apply NR. cbn. unfold number_of_manœuvres. rewrite EM, app_length. cbn [length]. lia.
    + exfalso. apply nth_error_None in EN. unfold Remove, number_of_manœuvres in E. rewrite (proj2 (Nat.ltb_ge _ _) EN) in E. discriminate.
  - destruct (nth_error (manœuvres_ p) i) as [x|] eqn:EN.
    + destruct (split_nth _ _ _ EN) as (a & c & EM & <-). pose proof M as MO. rewrite EM in MO. apply masses_app in MO. destruct MO as [_ [MX _]].
      destruct (replace_cases o b p a x c ST EM) as [(X & _)|[(X & _)|(_ & _ & X)]]; rewrite X in E; eauto.
      eapply REC; [exact EM| | | | | | | |exact E]; try (destruct c; reflexivity). cbn [masses].
      split; [exact MX|apply masses_rebuild].
    + exfalso. unfold Replace in E. rewrite EN in E. discriminate.
  - destruct (set_desired_cases o t p ST) as [(X & _)|(_ & X)]; rewrite X in E; eauto.
    eapply (REC _ (manœuvres_ p) [] []); [symmetry; apply app_nil_r| | | | | | | |exact E]; try reflexivity. symmetry; apply app_nil_r.
  - rewrite (recompute_all_case o p ST) in E. eapply (REC _ [] (manœuvres_ p) (manœuvres_ p)); [| | | | | | | |exact E]; try reflexivity. exact M.
  - destruct (avoid_deadline_cases o p ST) as [X|(a & c & EM & X)]; rewrite X in E; eauto.
    eapply REC; [exact EM|exact EM| | | | | | |exact E]; try reflexivity. rewrite EM in M. exact (proj2 (proj1 (masses_app _ _ _) M)).
Qed.

(** * Order *)

Definition sound (b : burn) : Prop := 0 < flow_rate b /\ 0 < root b /\ root b <= 1.
Definition sound_plan (p : plan) : Prop := 0 < initial_mass_ p /\ Forall (fun m => sound (construction_burn m)) (manœuvres_ p).

Lemma final_mass_root m : sound (construction_burn m) -> final_mass m == initial_mass m * (root (construction_burn m) * root (construction_burn m)).
Proof. intros [F _]. unfold final_mass, duration. field. lra. Qed.

Lemma Qmul_pos x y : 0 < x -> 0 < y -> 0 < x * y.
Proof. intros. nra. Qed.
Lemma Qdiv_le x y f : 0 < f -> x <= y -> x / f <= y / f.
Proof. intros F L. apply Qmult_le_compat_r; [exact L|]. apply Qlt_le_weak, Qinv_lt_0_compat. exact F. Qed.
Lemma Qdiv_nonneg x f : 0 < f -> 0 <= x -> 0 <= x / f.
Proof. intros F L. pose proof (Qdiv_le 0 x f F L) as H. setoid_replace (0 / f) with 0 in H by (field; lra). exact H. Qed.

(** A lighter ship burns within the time of a heavier one. *)
Lemma lighter m m' : sound (construction_burn m) -> construction_burn m' = construction_burn m -> 0 < initial_mass m' ->
  initial_mass m' <= initial_mass m ->
  initial_time m <= initial_time m' /\ initial_time m' <= final_time m' /\ final_time m' <= final_time m /\
  0 < final_mass m' /\ final_mass m' <= final_mass m.
Proof.
  intros SB E P L. pose proof (final_mass_root m SB) as F1. assert (SB' := SB). rewrite <- E in SB'.
  pose proof (final_mass_root m' SB') as F2. rewrite E in F2. destruct SB as (FR & R0 & R1).
  set (r := root (construction_burn m)) in *. set (f := flow_rate (construction_burn m)) in *.
  assert (D : duration m == initial_mass m * ((1 - r * r) / f)) by (unfold duration; fold r f; field; lra).
  assert (D' : duration m' == initial_mass m' * ((1 - r * r) / f)) by (unfold duration; rewrite E; fold r f; field; lra).
  assert (T : time_to_half_Δv m == initial_mass m * ((1 - r) / f)) by (unfold time_to_half_Δv; fold r f; field; lra).
  assert (T' : time_to_half_Δv m' == initial_mass m' * ((1 - r) / f)) by (unfold time_to_half_Δv; rewrite E; fold r f; field; lra).
  assert (RR1 : 0 <= (1 - r) * (1 + r)) by (apply Qmult_le_0_compat; lra).
  assert (RR2 : 0 <= r * (1 - r)) by (apply Qmult_le_0_compat; lra).
  assert (G1 : 0 <= (1 - r) / f) by (apply Qdiv_nonneg; [exact FR|lra]).
  assert (G2 : 0 <= (1 - r * r) / f) by (apply Qdiv_nonneg; [exact FR|lra]).
  assert (G3 : (1 - r) / f <= (1 - r * r) / f) by (apply Qdiv_le; [exact FR|lra]).
  set (u := (1 - r) / f) in *. set (v := (1 - r * r) / f) in *.
  assert (A1 : initial_mass m' * u <= initial_mass m * u) by (apply Qmult_le_compat_r; assumption).
  assert (A2 : initial_mass m' * v <= initial_mass m * v) by (apply Qmult_le_compat_r; assumption).
  assert (A3 : initial_mass m' * (v - u) <= initial_mass m * (v - u)) by (apply Qmult_le_compat_r; [assumption|lra]).
  assert (A4 : 0 <= initial_mass m' * v) by (apply Qmult_le_0_compat; lra).
  split; [|split; [|split; [|split]]].
  - unfold initial_time. rewrite E. destruct (burn_timing (construction_burn m)); lra.
  - unfold final_time. lra.
  - unfold final_time, initial_time. rewrite E. destruct (burn_timing (construction_burn m)); lra.
  - rewrite F2. apply Qmul_pos; [exact P|]. apply Qmul_pos; exact R0.
  - rewrite F1, F2. apply Qmult_le_compat_r; [exact L|]. apply Qlt_le_weak, Qmul_pos; exact R0.
Qed.

Lemma sound_duration m : sound (construction_burn m) -> 0 < initial_mass m -> initial_time m <= final_time m /\ 0 < final_mass m /\ final_mass m <= initial_mass m.
Proof.
  intros SB P. destruct (lighter m m SB eq_refl P (Qle_refl _)) as (_ & A & _ & B & _). split; [exact A|]. split; [exact B|].
  rewrite (final_mass_root m SB). destruct SB as (_ & R0 & R1).
  assert (RR : 0 <= (1 - root (construction_burn m)) * (1 + root (construction_burn m))) by (apply Qmult_le_0_compat; lra).
  assert (X : 0 <= initial_mass m * ((1 - root (construction_burn m)) * (1 + root (construction_burn m)))) by (apply Qmult_le_0_compat; lra). lra.
Qed.

Lemma rebuild_sound x ms : Forall (fun m => sound (construction_burn m)) ms -> Forall (fun m => sound (construction_burn m)) (rebuild x ms).
Proof. intros F. revert x. induction F; intros x0; cbn [rebuild]; constructor; auto. Qed.

Lemma rebuild_ordered ms : forall x y t tf, Forall (fun m => sound (construction_burn m)) ms -> 0 < x -> x <= y -> masses y ms ->
  ordered t ms tf -> ordered t (rebuild x ms) tf.
Proof.
  induction ms as [|m r IH]; intros x y t tf F P L M OR; cbn [rebuild ordered]; [exact OR|].
  destruct M as [M1 M2]. destruct OR as (O1 & O2 & O3).
  destruct (lighter m (MakeManœuvre x (construction_burn m)) (Forall_inv F) eq_refl P ltac:(cbn; rewrite M1; exact L)) as (A1 & A2 & A3 & A4 & A5).
  split; [lra|]. split; [exact A2|]. apply (ordered_weaken (final_time m)); [exact A3|].
  apply (IH _ (final_mass m)); [exact (Forall_inv_tail F)|exact A4|exact A5|exact M2|exact O3].
Qed.

Lemma ordered_same t ms ms' tf : Forall2 same_manœuvre ms ms' -> ordered t ms tf -> ordered t ms' tf.
Proof.
  intros F. revert t. induction F as [|m m' r r' S F IH]; intros t OR; [exact OR|]. destruct OR as (O1 & O2 & O3).
  destruct (same_manœuvre_times m m' S) as (T1 & T2 & _ & _). cbn [ordered]. rewrite T1, T2. auto.
Qed.
Lemma sound_same ms ms' : Forall2 same_manœuvre ms ms' -> Forall (fun m => sound (construction_burn m)) ms -> Forall (fun m => sound (construction_burn m)) ms'.
Proof.
  intros F. induction F as [|m m' r r' S F IH]; intros G; constructor.
  - rewrite (proj2 S). exact (Forall_inv G).
  - apply IH. exact (Forall_inv_tail G).
Qed.

Lemma time_after_cons t m a : time_after t (m :: a) = time_after (final_time m) a.
Proof. unfold time_after. cbn [rev]. destruct (rev a); reflexivity. Qed.
Lemma mass_after_cons t m a : mass_after t (m :: a) = mass_after (final_mass m) a.
Proof. unfold mass_after. cbn [rev]. destruct (rev a); reflexivity. Qed.

Lemma ordered_split t a b tf : ordered t (a ++ b) tf <->
  ordered t a (time_after t a) /\ ordered (time_after t a) b tf.
Proof.
  revert t. induction a as [|m a IH]; intros t.
  - cbn. split; [intros H; split; [lra|exact H]|tauto].
  - cbn [app ordered]. rewrite IH, time_after_cons. tauto.
Qed.
Lemma ordered_end_time t ms tf tf' : ordered t ms tf -> time_after t ms <= tf' -> ordered t ms tf'.
Proof.
  revert t. induction ms as [|m r IH]; intros t OR L; [exact L|]. destruct OR as (O1 & O2 & O3). rewrite time_after_cons in L.
  cbn [ordered]. auto.
Qed.

Lemma mass_positive m0 a : 0 < m0 -> Forall (fun m => sound (construction_burn m)) a -> masses m0 a -> 0 < mass_after m0 a.
Proof.
  revert m0. induction a as [|m a IH]; intros m0 P F M; [exact P|]. rewrite mass_after_cons. destruct M as [M1 M2].
  apply IH; [|exact (Forall_inv_tail F)|exact M2]. apply (sound_duration m (Forall_inv F)). rewrite M1. exact P.
Qed.

(** The edits whose effect on the later manœuvres is to make them lighter. *)
Definition safe (op : operation) (p : plan) : Prop :=
  match op with
  | OpInsert b i => sound b /\ (i <= number_of_manœuvres p)%nat
  | OpRemove i => S i = number_of_manœuvres p
  | OpReplace b i => sound b /\ exists old, nth_error (manœuvres_ p) i = Some old /\
      (S i = number_of_manœuvres p \/ root b <= root (construction_burn old))
  | _ => True
  end.

Record good (p : plan) : Prop := {
  good_stable : stable p; good_sound : sound_plan p; good_masses : masses (initial_mass_ p) (manœuvres_ p);
  good_ordered : ordered (initial_time_ p) (manœuvres_ p) (desired_final_time_ p) }.

Lemma recompute_good o p q a c0 c : honest o -> good p -> manœuvres_ p = a ++ c0 -> manœuvres_ q = a ++ c ->
  segments q = segments p -> anomalous_segments_ q = anomalous_segments_ p -> anomalous_status_ q = anomalous_status_ p ->
  initial_time_ q = initial_time_ p -> initial_mass_ q = initial_mass_ p ->
  Forall (fun m => sound (construction_burn m)) c -> masses (mass_after (initial_mass_ p) a) c ->
  ordered (time_after (initial_time_ p) a) c (desired_final_time_ q) ->
  exists st p', recompute o a c0 q = Some (st, p') /\ good p'.
Proof.
  intros H [ST [SM SB] M OR] E0 E1 S1 S2 S3 S4 S5 FC MC OC.
  assert (OQ : ordered (initial_time_ q) (manœuvres_ q) (desired_final_time_ q)).
  { rewrite E1, S4. apply ordered_split. split; [|exact OC]. rewrite E0 in OR. exact (proj1 (proj1 (ordered_split _ _ _ _) OR)). }
  assert (SQ : Forall (fun m => sound (construction_burn m)) (manœuvres_ q)).
  { rewrite E1. rewrite E0 in SB. apply Forall_app in SB. apply Forall_app. tauto. }
  assert (MQ : masses (initial_mass_ q) (manœuvres_ q)).
  { rewrite E1, S5. apply masses_app. split; [|exact MC]. rewrite E0 in M. exact (proj1 (proj1 (masses_app _ _ _) M)). }
  pose proof (recompute_ok o p q a c0 c H ST E0 E1 S1 S2 S3 S4) as K. destruct (recompute o a c0 q) as [[st p']|].
  - destruct K as (K1 & (L1 & L2 & L3 & L4) & _). exists st, p'. split; [reflexivity|]. constructor.
    + exact K1.
    + split; [rewrite L1, S5; exact SM|]. exact (sound_same _ _ L4 SQ).
    + rewrite L1. exact (masses_same _ _ _ L4 MQ).
    + rewrite L2. apply (ordered_same _ _ _ _ L4). exact (ordered_end _ _ _ _ L3 OQ).
  - contradiction.
Qed.

Lemma perform_safe o op p : honest o -> good p -> safe op p -> exists st p', perform o op p = Some (st, p') /\ good p'.
Proof.
  intros H G SF. pose proof G as [ST [SM SB] M OR].
  assert (REJ : forall st : status, exists st0 p', Some (st, p) = Some (st0, p') /\ good p') by (intros st; exists st, p; auto).
  destruct op as [b i|i|b i|t| |]; cbn [perform safe] in *.
  - destruct SF as [SBB L]. destruct (split_index (manœuvres_ p) i L) as (a & c & EM & <-).
    rewrite EM in M, OR, SB. apply masses_app in M. apply ordered_split in OR. apply Forall_app in SB.
    destruct M as [MA MC], OR as [OA OC], SB as [SA SC].
    assert (PM := mass_positive _ _ SM SA MA).
    destruct (insert_cases o b p a c ST EM) as [(X & _)|[(X & _)|(I1 & I2 & X)]]; rewrite X; auto.
    set (m := MakeManœuvre (mass_after (initial_mass_ p) a) b) in *.
    destruct (sound_duration m SBB PM) as (D1 & D2 & D3).
    apply (recompute_good o p _ a c (m :: rebuild (final_mass m) c)); try reflexivity; auto.
    + constructor; [exact SBB|apply rebuild_sound; exact SC].
    + split; [reflexivity|apply masses_rebuild].
    + cbn [ordered set_manœuvres desired_final_time_]. split; [exact I1|]. split; [exact D1|].
      apply (rebuild_ordered c _ (mass_after (initial_mass_ p) a)); [exact SC|exact D2|exact D3|exact MC|].
      destruct c as [|n c]; cbn [ordered] in *; [lra|]. destruct OC as (O1 & O2 & O3). auto.
  - destruct (nth_error (manœuvres_ p) i) as [x|] eqn:EN; [|apply nth_error_None in EN; unfold number_of_manœuvres in SF; lia].
    destruct (split_nth _ _ _ EN) as (a & c & EM & <-). unfold number_of_manœuvres in SF. rewrite EM, app_length in SF. cbn [length] in SF.
    destruct c; [|cbn [length] in SF; lia]. rewrite (remove_case o p a x [] ST EM).
    rewrite EM in OR. apply ordered_split in OR. destruct OR as [_ OC].
    apply (recompute_good o p _ a [x] []); try reflexivity; auto.
    cbn [ordered set_manœuvres desired_final_time_] in *. lra.
  - destruct SF as [SBB (x & EN & SX)]. destruct (split_nth _ _ _ EN) as (a & c & EM & <-).
    rewrite EM in M, OR, SB. apply masses_app in M. apply ordered_split in OR. apply Forall_app in SB.
    destruct M as [MA [MX MC]], OR as [OA [OX1 [OX2 OC]]], SB as [SA SC]. inversion SC as [|x' c' SX' SC']; subst x' c'. clear SC.
    assert (PM := mass_positive _ _ SM SA MA). assert (PX : 0 < initial_mass x) by (rewrite MX; exact PM).
    destruct (replace_cases o b p a x c ST EM) as [(X & _)|[(X & _)|(I1 & I2 & X)]]; rewrite X; auto.
    set (m := MakeManœuvre (initial_mass x) b) in *.
    destruct (sound_duration m SBB PX) as (D1 & D2 & D3).
    apply (recompute_good o p _ a (x :: c) (m :: rebuild (final_mass m) c)); try (destruct c; reflexivity); auto.
    + constructor; [exact SBB|apply rebuild_sound; exact SC'].
    + split; [exact MX|apply masses_rebuild].
    + cbn [ordered]. split; [exact I1|]. split; [exact D1|]. destruct c as [|n c].
      * cbn [rebuild ordered set_manœuvres set_desired_final_time desired_final_time_]. apply Q.le_max_r.
      * apply (rebuild_ordered (n :: c) _ (final_mass x)); [exact SC'|exact D2| |exact MC|].
        -- rewrite (final_mass_root m SBB), (final_mass_root x SX'). cbn [m MakeManœuvre initial_mass construction_burn].
           destruct SX as [SX|SX]; [exfalso; unfold number_of_manœuvres in SX; rewrite EM, app_length in SX; cbn [length] in SX; lia|].
           destruct SBB as (_ & B0 & _). destruct SX' as (_ & X0 & _).
           assert (root b * root b <= root (construction_burn x) * root (construction_burn x)) by nra.
           rewrite !(Qmult_comm (initial_mass x)). apply Qmult_le_compat_r; lra.
        -- cbn [ordered set_manœuvres desired_final_time_] in *. destruct OC as (O1 & O2 & O3). auto.
  - destruct (set_desired_cases o t p ST) as [(X & _)|(LT & X)]; rewrite X; auto.
    apply (recompute_good o p _ (manœuvres_ p) [] []); try reflexivity; auto; try (symmetry; apply app_nil_r).
  - rewrite (recompute_all_case o p ST). apply (recompute_good o p _ [] (manœuvres_ p) (manœuvres_ p)); try reflexivity; auto.
  - destruct (avoid_deadline_cases o p ST) as [X|(a & c & EM & X)]; rewrite X; auto.
    rewrite EM in M, OR, SB. apply masses_app in M. apply ordered_split in OR. apply Forall_app in SB.
    apply (recompute_good o p _ a c c); try reflexivity; tauto.
Qed.

Lemma construct_good o m0 t0 tf : honest o -> 0 < m0 -> t0 <= tf -> exists p, Construct o m0 t0 tf = Some p /\ good p.
Proof.
  intros H P L. destruct (construct_ok o m0 t0 tf H L) as (p & E & ST & E1 & E2 & E3 & E4). exists p. split; [exact E|].
  constructor; [exact ST| | |].
  - split; [rewrite E2; exact P|]. rewrite E1. constructor.
  - rewrite E1. exact I.
  - rewrite E1, E3. cbn. lra.
Qed.

(** Removing a manœuvre other than the last keeps the times of the others. *)
Lemma remove_ordered o i p : honest o -> good p -> (i < number_of_manœuvres p)%nat ->
  exists st p', Remove o i p = Some (st, p') /\ stable p' /\ ordered (initial_time_ p') (manœuvres_ p') (desired_final_time_ p').
Proof.
  intros H [ST [SM SB] M OR] L. destruct (nth_error (manœuvres_ p) i) as [x|] eqn:EN; [|apply nth_error_None in EN; unfold number_of_manœuvres in L; lia].
  destruct (split_nth _ _ _ EN) as (a & c & EM & <-). rewrite (remove_case o p a x c ST EM).
  set (c' := match c with [] => [] | m :: r => m :: rebuild (final_mass m) r end).
  set (q := set_manœuvres p (a ++ c')).
  assert (OQ : ordered (initial_time_ q) (manœuvres_ q) (desired_final_time_ q)).
  { cbn. rewrite EM in M, OR, SB. apply masses_app in M. apply ordered_split in OR. apply Forall_app in SB.
    destruct M as [MA [MX MC]], OR as [OA [OX1 [OX2 OC]]], SB as [SA SC]. inversion SC as [|x' c'' SX' SC']; subst x' c''.
    apply ordered_split. split; [exact OA|]. apply (ordered_weaken (final_time x)); [lra|]. unfold c'.
    destruct c as [|m r]; [exact OC|]. destruct OC as (O1 & O2 & O3), MC as [M1 M2]. cbn [ordered]. split; [exact O1|]. split; [exact O2|].
    assert (PX : 0 < initial_mass x) by (rewrite MX; apply mass_positive; assumption).
    assert (P1 : 0 < initial_mass m) by (rewrite M1; apply (sound_duration x SX' PX)).
    apply (rebuild_ordered r _ (final_mass m)); [exact (Forall_inv_tail SC')|apply (sound_duration m (Forall_inv SC') P1)|lra|exact M2|exact O3]. }
  pose proof (recompute_ok o p q a (x :: c) c' H ST EM eq_refl eq_refl eq_refl eq_refl eq_refl) as K.
  destruct (recompute o a (x :: c) q) as [[st p']|]; [|contradiction].
  destruct K as (K1 & (L1 & L2 & L3 & L4) & _). exists st, p'. split; [reflexivity|]. split; [exact K1|].
  rewrite L2. apply (ordered_same _ _ _ _ L4). exact (ordered_end _ _ _ _ L3 OQ).
Qed.

(** * Copies *)

Lemma copy_segments t0 segs : chained t0 segs -> fold_right copy_segment (Some []) segs = Some segs.
Proof.
  induction segs as [|s r IH]; intros C; [destruct C|]. destruct C as (l & x & E & C). cbn [fold_right].
  destruct r as [|t r].
  - cbn [fold_right copy_segment]. rewrite E. destruct s as [pts oc]. cbn [points outcome] in *. subst pts. destruct l; reflexivity.
  - destruct C as [(l' & E') C]. rewrite (IH C). destruct t as [pt ot]. cbn [points] in E'. subst pt. cbn [copy_segment].
    rewrite E, rev_app_distr. cbn [rev app]. rewrite rev_involutive. destruct s as [pts oc]. cbn [points outcome] in *. subst pts. reflexivity.
Qed.

Lemma copy_ok p : stable p -> Copy p = Some (set_anomaly p (anomalous_segments_ p) Ok).
Proof. intros ST. unfold Copy. rewrite (copy_segments (initial_time_ p) _ (st_chained p ST)). reflexivity. Qed.

Lemma copy_same p : stable p -> anomalous_segments_ p = O -> Copy p = Some p.
Proof.
  intros ST Z. rewrite (copy_ok p ST). pose proof (st_anomalous p ST) as A. rewrite Z in *. destruct A as [A _].
  destruct p. cbn in *. subst. reflexivity.
Qed.
