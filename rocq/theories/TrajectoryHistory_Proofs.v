(** Histories of operations on trajectories: every trajectory that can be reached is consistent. *)
From Coq Require Import List Arith ZArith Bool Lia Sorted.
From Verif Require Import Trajectory_Model Trajectory_Proofs TrajectoryIterator_Proofs.
Import ListNotations.
Open Scope Z_scope.

(** ** Consistency, without reference to the functions of the code *)

Definition segment_starts (segs : list timeline) (i : nat) (t : time) : Prop := exists p s, nth_error segs i = Some (p :: s) /\ fst p = t.

Record consistent (x : trajectory) : Prop := {
  (** the times of each segment are increasing; *)
  increasing : forall s, In s (segments x) -> StronglySorted (fun p q => fst p < fst q) s;
  (** a segment that is not empty is followed by a segment that starts with its last point; *)
  junctions : forall i p s s', nth_error (segments x) i = Some (p :: s) -> nth_error (segments x) (S i) = Some s' ->
    exists r, s' = last (p :: s) p :: r;
  (** the time-to-segment map has, for each time at which a segment starts, the last such segment. *)
  map_increasing : StronglySorted (fun e e' => fst e < fst e') (left x);
  map_exact : forall t i, In (t, i) (left x) <-> segment_starts (segments x) i t /\ forall j, segment_starts (segments x) j t -> (j <= i)%nat }.

Lemma chained_iff segs : chained segs <->
  (forall s, In s segs -> sorted s) /\ (forall i p s s', nth_error segs i = Some (p :: s) -> nth_error segs (S i) = Some s' -> exists r, s' = last (p :: s) p :: r).
Proof.
  induction segs as [|s r IH].
  - split; [|intros; exact I]. intros _. split; [intros ? []|]. intros i ? ? ? H. destruct i; discriminate.
  - split.
    + intros H. pose proof (chained_head _ _ H) as Hs. pose proof (chained_tail _ _ H) as Ht. apply IH in Ht. destruct Ht as [H1 H2]. split.
      * intros u [<-|Hu]; [assumption|apply H1; assumption].
      * intros i p u u' E1 E2. destruct i as [|i]; [|exact (H2 i p u u' E1 E2)]. cbn in E1, E2. injection E1 as ->.
        destruct r as [|s2 r]; [discriminate|]. injection E2 as ->. destruct (chained_not_nil _ _ _ _ H) as (q & s2' & -> & Hl). rewrite Hl. eauto.
    + intros [H1 H2]. cbn [chained]. split; [apply H1; left; reflexivity|]. split.
      * destruct s as [|p s]; [exact I|]. destruct r as [|s2 r]; [exact I|]. destruct (H2 0%nat p s s2 eq_refl eq_refl) as (u & ->). reflexivity.
      * apply IH. split; [intros; apply H1; right; assumption|]. intros i p u u' E1 E2. exact (H2 (S i) p u u' E1 E2).
Qed.

Lemma last_start_spec i t segs j : last_start i t segs = Some j <-> (i <= j)%nat /\ segment_starts segs (j - i) t /\ forall k, segment_starts segs k t -> (i + k <= j)%nat.
Proof.
  revert i j. induction segs as [|s r IH]; intros i j; cbn [last_start].
  - split; [discriminate|]. intros (_ & (p & u & H & _) & _). destruct (j - i)%nat; discriminate.
  - assert (Hs : starts t s = true <-> segment_starts (s :: r) 0 t).
    { unfold segment_starts. destruct s as [|p u]; cbn; split; try discriminate.
      - intros (? & ? & H & _). discriminate.
      - intros H. apply Z.eqb_eq in H. eauto.
      - intros (? & ? & H & <-). injection H as <- <-. apply Z.eqb_refl. }
    assert (Hr : forall k, segment_starts (s :: r) (S k) t <-> segment_starts r k t) by (intros; reflexivity).
    destruct (last_start (S i) t r) as [k|] eqn:E.
    + apply IH in E. destruct E as (E1 & E2 & E3). split.
      * intros H. injection H as <-. split; [lia|]. split.
        -- replace (k - i)%nat with (S (k - S i)) by lia. apply Hr. assumption.
        -- intros [|m] Hm; [lia|]. apply Hr in Hm. specialize (E3 m Hm). lia.
      * intros (H1 & H2 & H3). f_equal. assert (i + S (k - S i) <= j)%nat by (apply H3, Hr; assumption). destruct (j - i)%nat as [|m] eqn:Em; [lia|].
        apply Hr in H2. specialize (E3 m H2). lia.
    + assert (Nr : forall k, ~ segment_starts r k t).
      { assert (N : forall l h, last_start h t l = None -> forall k, ~ segment_starts l k t).
        { clear. induction l as [|u l IH]; intros h H k (p & v & K1 & K2); [destruct k; discriminate|]. cbn [last_start] in H. destruct (last_start (S h) t l) eqn:E; [discriminate|].
          destruct k as [|k]; [|apply (IH (S h) E k); exists p, v; auto]. injection K1 as ->. cbn in H. rewrite (proj2 (Z.eqb_eq _ _) K2) in H. discriminate. }
        exact (N r (S i) E). }
      destruct (starts t s) eqn:Es.
      * split.
        -- intros H. injection H as <-. split; [lia|]. rewrite Nat.sub_diag. split; [apply Hs; reflexivity|]. intros [|k] Hk; [lia|]. apply Hr in Hk. destruct (Nr k Hk).
        -- intros (H1 & H2 & H3). destruct (j - i)%nat as [|m] eqn:Em; [f_equal; lia|]. apply Hr in H2. destruct (Nr m H2).
      * split; [discriminate|]. intros (H1 & H2 & H3). destruct (j - i)%nat as [|m] eqn:Em; [apply Hs in H2; congruence|]. apply Hr in H2. destruct (Nr m H2).
Qed.

Lemma map_find_in m t i : sorted_map m -> (In (t, i) m <-> map_find t m = Some i).
Proof.
  induction m as [|[u j] m IH]; intros H; [split; [intros []|discriminate]|]. apply StronglySorted_inv in H. destruct H as [H1 H2]. cbn [map_find]. split.
  - intros [E|E]; [injection E as -> ->; rewrite Z.eqb_refl; reflexivity|]. rewrite Forall_forall in H2. specialize (H2 _ E). cbn in H2. destruct (Z.eqb_spec t u); [lia|]. apply IH; assumption.
  - destruct (Z.eqb_spec t u).
    + intros E. injection E as ->. subst. left. reflexivity.
    + intros E. right. apply IH; assumption.
Qed.

Lemma wf_iff x : wf x <-> consistent x.
Proof.
  split.
  - intros [Hc Hm]. pose proof (proj1 (chained_iff _) Hc) as [C1 C2]. assert (S : sorted_map (left x)) by (rewrite Hm; apply expected_sorted; assumption).
    constructor; [exact C1|exact C2|exact S|]. intros t i. rewrite (map_find_in _ _ _ S), Hm, expected_find, last_start_spec by assumption. rewrite Nat.sub_0_r. cbn [Nat.add].
    split; [intros (_ & A & B); auto|intros (A & B); repeat split; [lia|assumption|assumption]].
  - intros [C1 C2 C3 C4]. assert (Hc : chained (segments x)) by (apply chained_iff; auto). destruct x as [segs m]. apply wf_of_find; [assumption|assumption|]. cbn [segments left] in *.
    intros t. destruct (last_start 0 t segs) as [i|] eqn:E.
    + apply last_start_spec in E. rewrite Nat.sub_0_r in E. apply (map_find_in _ _ _ C3), C4. destruct E as (_ & A & B). auto.
    + destruct (map_find t m) as [i|] eqn:F; [|reflexivity]. apply (map_find_in _ _ _ C3), C4 in F. destruct F as [F1 F2].
      assert (last_start 0 t segs = Some i) by (apply last_start_spec; rewrite Nat.sub_0_r; repeat split; [lia|assumption|exact F2]). congruence.
Qed.

(** ** The consistency check decides consistency *)

Definition ordered (x : trajectory) : Prop := (forall s, In s (segments x) -> sorted s) /\ sorted_map (left x).

Lemma junctions_chained segs : (forall s, In s segs -> sorted s) -> junctions_match segs = true -> chained segs.
Proof.
  induction segs as [|s r IH]; intros Hs H; [exact I|]. cbn [chained]. split; [apply Hs; left; reflexivity|].
  assert (Hr : forall s, In s r -> sorted s) by (intros; apply Hs; right; assumption).
  destruct r as [|s2 r]; [split; [destruct s; exact I|exact I]|]. change (junctions_match (s :: s2 :: r)) with
    (match s, s2 with [], _ => true | p :: _, [] => false | p :: _, q :: _ => (fst (last s p) =? fst q) && (snd (last s p) =? snd q) end && junctions_match (s2 :: r)) in H.
  apply andb_true_iff in H. destruct H as [H1 H2]. split; [|apply IH; assumption].
  destruct s as [|p s]; [exact I|]. destruct s2 as [|q s2]; [discriminate|]. apply andb_true_iff in H1. destruct H1 as [H1 H3]. apply Z.eqb_eq in H1, H3.
  destruct (last (p :: s) p), q. cbn in *. congruence.
Qed.

Lemma endpoints_inv segs m t i : endpoints_match segs m = Done true -> In (t, i) m -> exists s, nth_error segs i = Some s /\ match s with [] => True | p :: _ => t = fst p end.
Proof.
  induction m as [|[u j] m IH]; intros H Hi; [contradiction|]. cbn [endpoints_match] in H. destruct (nth_error segs j) as [s|] eqn:E; [|discriminate]. cbn [defined bind] in H.
  destruct Hi as [Hi|Hi].
  - injection Hi as -> ->. exists s. split; [assumption|]. destruct s as [|p s]; [exact I|]. destruct (Z.eqb_spec t (fst p)); [assumption|discriminate].
  - apply IH; [|assumption]. destruct s as [|p s]; [assumption|]. destruct (u =? fst p); [assumption|discriminate].
Qed.

Lemma walk_inv segs pre l m : segs = pre ++ l -> chained segs -> sorted_map m ->
  (forall t i s, In (t, i) m -> nth_error segs i = Some s -> match s with [] => True | p :: _ => t = fst p end) ->
  walk segs l (length pre) m = Done true -> (m = [] -> concat pre = [] -> concat l = []) -> m = expected (length pre) l.
Proof.
  revert pre m. induction l as [|s1 l IH]; intros pre m E Hc Hm He H Hlast.
  - destruct m as [|[t i] m]; [reflexivity|]. cbn [walk] in H. destruct (nth_error segs i) as [s|]; [|discriminate]. cbn [defined bind] in H. destruct (is_empty s); discriminate.
  - assert (E' : segs = (pre ++ [s1]) ++ l) by (rewrite <- app_assoc; assumption).
    assert (Hl : chained (s1 :: l)) by (rewrite E in Hc; apply chained_app in Hc; apply Hc).
    destruct m as [|[t i] m].
    + cbn [walk] in H. destruct s1 as [|p s1]; [|discriminate]. rewrite E in Hc. pose proof (chained_nil_prefix _ _ Hc) as N. specialize (Hlast eq_refl (concat_all_nil _ N)). cbn [concat app] in Hlast.
      symmetry. apply expected_all_nil. constructor; [reflexivity|]. apply Forall_forall. intros u Hu. destruct u as [|q u]; [reflexivity|]. apply in_split in Hu. destruct Hu as (a & b & ->).
      rewrite concat_app in Hlast. destruct (concat a); discriminate.
    + cbn [walk] in H. destruct (nth_error segs i) as [s2|] eqn:Ei; [|discriminate]. cbn [defined bind] in H. destruct s2 as [|q s2]; [discriminate|]. cbn [is_empty] in H.
      pose proof (He t i _ (or_introl eq_refl) Ei) as Ht. cbv beta iota in Ht.
      assert (Hlen : length (pre ++ [s1]) = S (length pre)) by (rewrite app_length; cbn; lia).
      destruct (Nat.eqb_spec (length pre) i) as [Eq|Ne].
      * subst i. rewrite E, nth_error_mid in Ei. injection Ei as ->. apply StronglySorted_inv in Hm. destruct Hm as [Hm1 Hm2].
        assert (Em : m = expected (S (length pre)) l).
        { rewrite <- Hlen. apply IH; [assumption|assumption|assumption| |rewrite Hlen; assumption|].
          - intros; eapply He; [right; eassumption|assumption].
          - intros _ K. rewrite concat_app in K. apply app_eq_nil in K. destruct K as [_ K]. discriminate. }
        destruct s2 as [|q2 s2]; [|rewrite expected_cons_multi, <- Em, Ht; reflexivity]. destruct l as [|s3 l]; [rewrite expected_cons_last, Em, Ht; reflexivity|]. exfalso.
        destruct (chained_not_nil _ _ _ _ Hl) as (h & s3' & -> & N). cbn in N. subst h.
        (* the entry that follows is at the same time *)
        pose proof (expected_find (S (length pre)) ((q :: s3') :: l) t (chained_tail _ _ Hl)) as F. rewrite <- Em, map_find_gt in F by assumption.
        cbn [last_start] in F. destruct (last_start (S (S (length pre))) t l); [discriminate|]. cbn [starts] in F. rewrite Ht, Z.eqb_refl in F. discriminate.
      * destruct (Nat.leb_spec (length s1) 1) as [L|L]; [|discriminate].
        assert (Em : (t, i) :: m = expected (S (length pre)) l).
        { rewrite <- Hlen. apply IH; [assumption|assumption|assumption|assumption|rewrite Hlen; assumption|discriminate]. }
        rewrite Em. destruct s1 as [|p [|p2 s1]]; [reflexivity| |cbn [length] in L; lia]. rewrite expected_cons_one'; [reflexivity|]. intros ->. discriminate.
Qed.

Lemma consistency_exact x : ordered x -> (ConsistencyStatus x = Done true <-> wf x).
Proof.
  intros [Hs Hm]. split; [|apply consistent_ok]. unfold ConsistencyStatus. intros H.
  destruct (negb (length (left x) <=? length (segments x))%nat || negb (match left x with [] => forallb is_empty (segments x) | _ => true end)) eqn:B; [discriminate|].
  apply orb_false_iff in B. destruct B as [_ B]. apply negb_false_iff in B.
  destruct (endpoints_match (segments x) (left x)) as [em| |] eqn:Em; [|discriminate|discriminate]. cbn [bind] in H. destruct em; [|discriminate]. cbn [negb] in H.
  destruct (walk (segments x) (segments x) 0 (left x)) as [w| |] eqn:W; [|discriminate|discriminate]. cbn [bind] in H. destruct w; [|discriminate]. cbn [negb] in H.
  assert (J : junctions_match (segments x) = true) by congruence. pose proof (junctions_chained _ Hs J) as Hc. split; [assumption|].
  apply (walk_inv (segments x) [] (segments x)); [reflexivity|assumption|assumption| |assumption|].
  - intros t i s Hi Hn. destruct (endpoints_inv _ _ _ _ Em Hi) as (s' & E1 & E2). rewrite Hn in E1. injection E1 as <-. exact E2.
  - intros E _. rewrite E in B. apply concat_all_nil. apply Forall_forall. intros s Hi. rewrite forallb_forall in B. specialize (B s Hi). destruct s; [reflexivity|discriminate].
Qed.

(** The function fails or returns its argument. *)
Lemma checked_inv x y : ordered x -> checked x = Done y -> wf y.
Proof.
  intros Ho H. unfold checked in H. destruct (ConsistencyStatus x) as [b| |] eqn:E; [|discriminate|discriminate]. cbn [bind] in H. destruct b; [|discriminate]. cbn [check bind] in H.
  injection H as <-. apply (consistency_exact x Ho). assumption.
Qed.

(** ** Every operation that returns, returns a consistent trajectory *)

Lemma wf_ordered x : wf x -> ordered x.
Proof. intros [Hc Hm]. split; [intros s Hs; exact (chained_sorted _ _ Hc Hs)|rewrite Hm; apply expected_sorted; assumption]. Qed.

Lemma sorted_one p : sorted [p]. Proof. repeat constructor. Qed.

Lemma new_segment_preserves x y : wf x -> NewSegment x = Done y -> wf y.
Proof.
  intros W H. destruct (segments x) eqn:E; [unfold NewSegment in H; rewrite E in H; discriminate|].
  destruct (new_segment_wf x W) as (z & Z1 & Z2 & _); [congruence|]. congruence.
Qed.

Lemma clear_preserves x y : clear x = Done y -> wf y.
Proof. unfold clear. destruct (segments x); [discriminate|]. intros H. injection H as <-. apply wf_new. Qed.

Lemma segment_append_sorted b p s s' : sorted s -> segment_Append b p s = Done s' -> sorted s'.
Proof.
  intros Hs H. destruct s as [|f s]; [injection H as <-; apply sorted_one|]. pose proof H as H'. cbn [segment_Append] in H'. destruct (fst f =? fst p); [injection H' as <-; assumption|].
  destruct (Z.ltb_spec (fst (last (f :: s) f)) (fst p)) as [L|L]; [|discriminate]. destruct (segment_append_ok b p f s Hs L) as (u & U1 & U2 & _). congruence.
Qed.

Lemma set_segment_in i s' segs s : In s (set_segment i s' segs) -> s = s' \/ In s segs.
Proof. unfold set_segment. intros H. apply in_app_or in H. destruct H as [H|[H|H]]; [right; rewrite <- (firstn_skipn i segs); apply in_or_app; left; assumption|left; auto|right; rewrite <- (firstn_skipn (S i) segs); apply in_or_app; right; assumption]. Qed.

Lemma append_preserves b p x y : wf x -> Append b p x = Done y -> wf y.
Proof.
  intros W H. destruct (wf_ordered x W) as [O1 O2]. unfold Append in H. destruct (left x) as [|e m] eqn:El.
  - destruct (rev (segments x)) as [|s r] eqn:Er; [discriminate|]. apply rev_cons in Er.
    destruct (segment_Append b p s) as [s'| |] eqn:Ea; [|discriminate|discriminate]. cbn [bind] in H. apply checked_inv in H; [assumption|]. split; cbn [segments left].
    + intros u Hu. apply set_segment_in in Hu. destruct Hu as [->|Hu]; [|apply O1; assumption]. apply (segment_append_sorted b p s); [|assumption]. apply O1. rewrite Er. apply in_or_app. right. left. reflexivity.
    + apply insert_sorted. assumption.
  - rewrite <- El in *. destruct (FindSegment (fst p) (left x)) as [n|]; [|discriminate]. destruct (map_at (left x) n) as [[t i]| |]; [|discriminate|discriminate]. cbn [bind] in H.
    unfold segment_at in H. destruct (nth_error (segments x) i) as [s|] eqn:Ei; [|discriminate]. cbn [defined bind] in H. destruct (is_empty s); [discriminate|]. cbn [negb check bind] in H.
    destruct (segment_Append b p s) as [s'| |] eqn:Ea; [|discriminate|discriminate]. cbn [bind] in H. apply checked_inv in H; [assumption|]. split; cbn [segments left]; [|assumption].
    intros u Hu. apply set_segment_in in Hu. destruct Hu as [->|Hu]; [|apply O1; assumption]. apply (segment_append_sorted b p s); [|assumption]. apply O1. exact (nth_error_In _ _ Ei).
Qed.

Lemma forget_after_preserves t x y : wf x -> ForgetAfter t x = Done y -> wf y.
Proof.
  intros W H. destruct (segments x) eqn:E.
  - exfalso. unfold ForgetAfter in H. destruct W as [_ Hm]. rewrite Hm, E in H. unfold clear in H. cbn in H. rewrite E in H. discriminate.
  - destruct (forget_after_wf t x W) as (z & Z1 & Z2 & _); [congruence|]. congruence.
Qed.

Lemma sorted_skipn n s : sorted s -> sorted (skipn n s).
Proof. intros H. rewrite <- (firstn_skipn n s) in H. apply sorted_app in H. apply H. Qed.

Lemma sorted_map_skipn n m : sorted_map m -> sorted_map (skipn n m).
Proof. revert m. induction n as [|n IH]; intros m H; [exact H|]. destruct m as [|e m]; [exact H|]. apply IH. apply StronglySorted_inv in H. apply H. Qed.
Lemma sorted_map_firstn n m : sorted_map m -> sorted_map (firstn n m).
Proof.
  revert m. induction n as [|n IH]; intros m H; [constructor|]. destruct m as [|e m]; [exact H|]. apply StronglySorted_inv in H. destruct H as [H1 H2]. cbn [firstn]. constructor; [apply IH; assumption|].
  rewrite <- (firstn_skipn n m) in H2. apply Forall_app in H2. apply H2.
Qed.

Lemma forget_before_preserves t x y : wf x -> ForgetBefore t x = Done y -> wf y.
Proof.
  intros W H. destruct (wf_ordered x W) as [O1 O2]. unfold ForgetBefore in H. destruct (FindSegment t (left x)) as [n|]; [|injection H as <-; assumption].
  destruct (map_at (left x) n) as [[u i]| |]; [|discriminate|discriminate]. cbn [bind] in H. unfold segment_at in H. destruct (nth_error (segments x) i) as [s|] eqn:Ei; [|discriminate].
  cbn [defined bind] in H. apply checked_inv in H; [assumption|]. split; cbn [segments left].
  - intros v Hv. apply in_app_or in Hv. destruct Hv as [Hv|[Hv|Hv]].
    + apply in_map_iff in Hv. destruct Hv as (w & <- & Hw). apply sorted_skipn, O1. rewrite <- (firstn_skipn i (segments x)). apply in_or_app. left. assumption.
    + subst v. apply sorted_skipn, O1. exact (nth_error_In _ _ Ei).
    + apply O1. rewrite <- (firstn_skipn (S i) (segments x)). apply in_or_app. right. assumption.
  - destruct (segment_ForgetBefore t s); [|apply insert_sorted]; apply sorted_map_skipn; assumption.
Qed.

Lemma delete_preserves x k y : wf x -> DeleteSegments x k = Done y -> wf y.
Proof.
  intros W H. destruct (wf_ordered x W) as [O1 O2]. unfold DeleteSegments in H.
  assert (O3 : forall s, In s (firstn k (segments x)) -> sorted s) by (intros s Hs; apply O1; rewrite <- (firstn_skipn k (segments x)); apply in_or_app; left; assumption).
  destruct (rev (firstn k (segments x))) as [|[|p s] r]; (apply checked_inv in H; [assumption|]); split; cbn [segments left]; try assumption; try constructor.
  apply sorted_map_firstn, insert_sorted. assumption.
Qed.

Lemma detach_preserves x k y z : wf x -> DetachSegments x k = Done (y, z) -> wf y /\ wf z.
Proof.
  intros W H. assert (C : (k <= length (segments x))%nat /\ concat (skipn k (segments x)) <> []).
  { unfold DetachSegments, AdjustAfterSplicing, segment_front in H. cbn [segments left skipn] in H.
    destruct (Nat.ltb_spec 0 (length (skipn k (segments x)))) as [L|L]; [|discriminate]. rewrite skipn_length in L. split; [lia|].
    intros E. assert (F : first_point (skipn k (segments x)) = Crash).
    { clear - E. induction (skipn k (segments x)) as [|[|p s] l IH]; [reflexivity|apply IH; exact E|discriminate]. }
    rewrite F in H. discriminate. }
  destruct (detach_segments_wf x k W (proj1 C) (proj2 C)) as (y' & z' & E & Wy & Wz & _). rewrite E in H. injection H as <- <-. auto.
Qed.

Lemma copy_sorted k base from : forall to m, sorted_map to -> copy_entries k base from to = Done m -> sorted_map m.
Proof.
  induction from as [|[t i] r IH]; intros to m Ht H; cbn [copy_entries] in H; [injection H as <-; assumption|]. destruct (k <=? i)%nat; [|discriminate].
  eapply IH; [|exact H]. apply insert_sorted. assumption.
Qed.

Lemma adjust_inv from to k base u v : AdjustAfterSplicing from to k base = Done (u, v) -> sorted_map (left to) -> segments v = segments to /\ sorted_map (left v).
Proof.
  unfold AdjustAfterSplicing. intros H Ht. destruct (segment_front to base) as [p| |]; [|discriminate|discriminate]. cbn [bind] in H.
  destruct (copy_entries _ _ _ _) as [m| |] eqn:E; [|discriminate|discriminate]. cbn [bind] in H. injection H as _ <-. cbn [segments left]. split; [reflexivity|]. exact (copy_sorted _ _ _ _ _ Ht E).
Qed.

Lemma attach_preserves x y z : wf x -> wf y -> AttachSegments x y = Done z -> wf z.
Proof.
  intros Wx Wy H. destruct (wf_ordered x Wx) as [X1 X2]. destruct (wf_ordered y Wy) as [Y1 Y2]. unfold AttachSegments in H.
  destruct (check (negb (empty y))) as [[]| |]; [|discriminate|discriminate]. cbn [bind] in H.
  match type of H with bind ?e _ = _ => assert (G : forall x' y', e = Done (x', y') -> ordered x' /\ ordered y'); [|destruct e as [[x' y']| |]; [|discriminate|discriminate]] end.
  { intros x' y' E. destruct (empty x).
    - injection E as <- <-. split; [|split; assumption]. split; [intros ? []|constructor].
    - destruct (trajectory_back x) as [b| |]; [|discriminate|discriminate]. cbn [bind] in E. destruct (trajectory_front y) as [f| |]; [|discriminate|discriminate]. cbn [bind] in E.
      destruct (fst b =? fst f).
      + destruct (check (snd b =? snd f)) as [[]| |]; [|discriminate|discriminate]. injection E as <- <-. split; split; assumption.
      + destruct (check (fst b <? fst f)) as [[]| |]; [|discriminate|discriminate]. cbn [bind] in E. destruct (segments y) as [|s r]; [discriminate|]. destruct (left y) as [|[t i] m]; [discriminate|].
        destruct (segment_Prepend b s) as [s'| |] eqn:Ep; [|discriminate|discriminate]. cbn [bind] in E. injection E as <- <-. split; [split; assumption|]. split; cbn [segments left].
        * intros u [<-|Hu]; [|apply Y1; right; assumption]. unfold segment_Prepend in Ep. destruct s as [|g s]; [injection Ep as <-; apply sorted_one|].
          destruct (Z.ltb_spec (fst b) (fst g)); [|discriminate]. injection Ep as <-. pose proof (Y1 (g :: s) (or_introl eq_refl)) as Hg. constructor; [assumption|].
          apply Forall_forall. intros q Hq. pose proof (sorted_first_le g s q Hg Hq). unfold earlier. lia.
        * apply insert_sorted. apply StronglySorted_inv in Y2. apply Y2. }
  destruct (G x' y' eq_refl) as [[X1' X2'] [Y1' Y2']]. cbn [bind] in H.
  destruct (AdjustAfterSplicing _ _ _ _) as [[u v]| |] eqn:Ea; [|discriminate|discriminate]. cbn [bind] in H. apply adjust_inv in Ea; [|assumption]. cbn [segments] in Ea. destruct Ea as [Ea1 Ea2].
  apply checked_inv in H; [assumption|]. split; [|assumption]. rewrite Ea1. intros s Hs. apply in_app_or in Hs. destruct Hs; auto.
Qed.

Lemma segment_merge_inv s l l' : sorted s -> sorted l -> segment_Merge s l = Done l' -> sorted l'.
Proof.
  intros Hs Hl H. destruct s as [|p s]; [injection H as <-; assumption|]. destruct l as [|q l]; [injection H as <-; assumption|].
  cbn [segment_Merge] in H.
  pose proof (fun r => sorted_first_le p s r Hs) as Fs. pose proof (fun r => sorted_last_ge _ q r Hl) as Gl. pose proof (fun r => sorted_last_ge _ p r Hs) as Gs. pose proof (fun r => sorted_first_le q l r Hl) as Fl.
  destruct (Z.leb_spec (fst (last (q :: l) q)) (fst p)) as [C|C].
  - match type of H with Done ?e = Done _ => replace l' with e by congruence end. apply sorted_app. split; [assumption|]. destruct (Z.eqb_spec (fst (last (q :: l) q)) (fst p)) as [E|E].
    + destruct (sorted_inv _ _ Hs) as [Hs1 Hs2]. split; [assumption|]. intros u v Hu Hv. specialize (Gl u Hu). rewrite Forall_forall in Hs2. specialize (Hs2 v Hv). unfold earlier in Hs2. lia.
    + split; [assumption|]. intros u v Hu Hv. specialize (Gl u Hu). specialize (Fs v Hv). lia.
  - destruct (Z.leb_spec (fst (last (p :: s) p)) (fst q)) as [D|D]; [|discriminate]. match type of H with Done ?e = Done _ => replace l' with e by congruence end. apply sorted_app. destruct (Z.eqb_spec (fst (last (p :: s) p)) (fst q)) as [E|E].
    + pose proof Hs as Hs'. rewrite (snoc_last (p :: s) p) in Hs' by discriminate. apply sorted_app in Hs'. destruct Hs' as (Hs1 & _ & Hs2). split; [assumption|]. split; [assumption|].
      intros u v Hu Hv. specialize (Hs2 u _ Hu (or_introl eq_refl)). specialize (Fl v Hv). lia.
    + split; [assumption|]. split; [assumption|]. intros u v Hu Hv. specialize (Gs u Hu). specialize (Fl v Hv). lia.
Qed.

Lemma restore_sorted tgt : forall i m, sorted_map m -> sorted_map (restore_entries i tgt m).
Proof. induction tgt as [|l tgt IH]; intros i m H; [exact H|]. cbn [restore_entries]. apply IH. destruct l; [assumption|]. apply insert_sorted. assumption. Qed.

Lemma merge_loop_inv src : forall i tgt m r spl m', (forall s, In s src -> sorted s) -> (forall s, In s tgt -> sorted s) -> sorted_map m ->
  merge_loop i src tgt m = Done (r, spl, m') -> (forall s, In s r -> sorted s) /\ (forall s, In s spl -> sorted s) /\ sorted_map m'.
Proof.
  induction src as [|s src IH]; intros i tgt m r spl m' Hs Ht Hm H.
  - destruct tgt as [|l tgt]; injection H as <- <- <-; (split; [assumption|]); (split; [intros ? []|]); [assumption|]. apply (restore_sorted (l :: tgt)). assumption.
  - destruct tgt as [|l tgt]; [injection H as <- <- <-; split; [intros ? []|]; split; assumption|].
    cbn [merge_loop] in H. destruct (segment_Merge s l) as [l'| |] eqn:El; [|discriminate|discriminate]. cbn [bind] in H.
    match type of H with bind (merge_loop _ _ _ ?z) _ = _ => assert (Hz : sorted_map z) end.
    { destruct l as [|p l]; destruct l' as [|p' l'']; try apply insert_sorted; try assumption.
      destruct (fst p' <? fst p); [|assumption]. destruct (map_find (fst p) m) as [j|]; [|assumption]. destruct (j =? i)%nat; [|assumption]. apply erase_sorted. assumption. }
    match type of H with bind ?e _ = _ => destruct e as [[[r1 spl1] m1]| |] eqn:E1; [|discriminate|discriminate] end. cbn [bind] in H. injection H as <- <- <-.
    apply IH in E1; [|intros; apply Hs; right; assumption|intros; apply Ht; right; assumption|assumption]. destruct E1 as (A & B & C). split; [|split; assumption].
    intros u [<-|Hu]; [|apply A; assumption]. apply (segment_merge_inv s l); [apply Hs; left; reflexivity|apply Ht; left; reflexivity|assumption].
Qed.

Lemma merge_preserves x y z : wf x -> wf y -> Merge x y = Done z -> wf z.
Proof.
  intros Wx Wy H. destruct (wf_ordered x Wx) as [X1 X2]. destruct (wf_ordered y Wy) as [Y1 Y2]. unfold Merge in H.
  destruct (merge_loop 0 (segments y) (segments x) (left x)) as [[[r spl] m]| |] eqn:E; [|discriminate|discriminate]. cbn [bind] in H.
  destruct (merge_loop_inv _ _ _ _ _ _ _ Y1 X1 X2 E) as (A & B & C). destruct spl as [|s spl].
  - apply checked_inv in H; [assumption|]. split; assumption.
  - destruct r as [|s0 r]; [discriminate|]. destruct (AdjustAfterSplicing _ _ _ _) as [[u v]| |] eqn:Ea; [|discriminate|discriminate]. cbn [bind] in H. apply adjust_inv in Ea; [|assumption].
    cbn [segments] in Ea. destruct Ea as [Ea1 Ea2]. apply checked_inv in H; [assumption|]. split; [|assumption]. rewrite Ea1. intros w Hw. apply in_app_or in Hw. destruct Hw; auto.
Qed.

(** ** Histories *)

Inductive reachable : trajectory -> Prop :=
| reach_new : reachable new
| reach_new_segment x y : reachable x -> NewSegment x = Done y -> reachable y
| reach_clear x y : reachable x -> clear x = Done y -> reachable y
| reach_append below p x y : reachable x -> Append below p x = Done y -> reachable y
| reach_forget_after t x y : reachable x -> ForgetAfter t x = Done y -> reachable y
| reach_forget_before t x y : reachable x -> ForgetBefore t x = Done y -> reachable y
| reach_delete x k y : reachable x -> DeleteSegments x k = Done y -> reachable y
| reach_detach x k y z : reachable x -> DetachSegments x k = Done (y, z) -> reachable y
| reach_detached x k y z : reachable x -> DetachSegments x k = Done (y, z) -> reachable z
| reach_attach x y z : reachable x -> reachable y -> AttachSegments x y = Done z -> reachable z
| reach_merge x y z : reachable x -> reachable y -> Merge x y = Done z -> reachable z.

Theorem reachable_wf x : reachable x -> wf x.
Proof.
  induction 1.
  - apply wf_new.
  - eapply new_segment_preserves; eassumption.
  - eapply clear_preserves; eassumption.
  - eapply append_preserves; eassumption.
  - eapply forget_after_preserves; eassumption.
  - eapply forget_before_preserves; eassumption.
  - eapply delete_preserves; eassumption.
  - exact (proj1 (detach_preserves _ _ _ _ IHreachable H0)).
  - exact (proj2 (detach_preserves _ _ _ _ IHreachable H0)).
  - match goal with H1 : wf x, H2 : wf y, H : AttachSegments x y = _ |- _ => exact (attach_preserves _ _ _ H1 H2 H) end.
  - match goal with H1 : wf x, H2 : wf y, H : Merge x y = _ |- _ => exact (merge_preserves _ _ _ H1 H2 H) end.
Qed.

(** The operations, with the conditions under which they do not fail. *)
Inductive operation :=
| DoNewSegment | DoClear | DoAppend (below : bool) (p : point) | DoForgetAfter (t : time) | DoForgetBefore (t : time)
| DoDelete (k : nat) | DoDetach (k : nat) | DoAttach (y : trajectory) | DoMerge (y : trajectory).

Definition run (o : operation) (x : trajectory) : result (list trajectory) :=
  match o with
  | DoNewSegment => do y <- NewSegment x; Done [y]
  | DoClear => do y <- clear x; Done [y]
  | DoAppend b p => do y <- Append b p x; Done [y]
  | DoForgetAfter t => do y <- ForgetAfter t x; Done [y]
  | DoForgetBefore t => do y <- ForgetBefore t x; Done [y]
  | DoDelete k => do y <- DeleteSegments x k; Done [y]
  | DoDetach k => do (y, z) <- DetachSegments x k; Done [y; z]
  | DoAttach y => do z <- AttachSegments x y; Done [z]
  | DoMerge y => do z <- Merge x y; Done [z]
  end.

Definition permitted (o : operation) (x : trajectory) : Prop :=
  match o with
  | DoNewSegment | DoClear => True
  | DoAppend _ p => Forall (fun q => fst q < fst p) (concat (segments x))
  | DoForgetAfter _ => True
  | DoForgetBefore t => ~ between_last_two t (segments x)
  | DoDelete k => (1 <= k <= length (segments x))%nat
  | DoDetach k => (1 <= k <= length (segments x))%nat /\ concat (skipn k (segments x)) <> []
  | DoAttach y => reachable y /\ attachable (segments x) (segments y)
  | DoMerge y => reachable y /\ all_separate (segments y) (segments x) /\ splices (segments y) (segments x) /\ chained (merged (segments y) (segments x))
  end.

Lemma attached_ne x y : attachable x y -> attached x y <> [].
Proof.
  intros [[H1 H2]|(l & f & s & r & -> & H)] E; unfold attached in E.
  - rewrite H1 in E. cbn in E. subst y. contradiction.
  - destruct (rev (concat x)); [discriminate|]. destruct (fst p =? fst f); destruct x; discriminate.
Qed.

Theorem permitted_done o x : reachable x -> segments x <> [] -> permitted o x ->
  exists ys, run o x = Done ys /\ Forall (fun y => reachable y /\ segments y <> []) ys.
Proof.
  intros R Hne P. pose proof (reachable_wf x R) as W. destruct o; cbn [permitted run] in *.
  - destruct (new_segment_wf x W Hne) as (y & E & _ & N). rewrite E. eexists. split; [reflexivity|]. constructor; [|constructor]. split; [eapply reach_new_segment; eassumption|assumption].
  - rewrite (clear_wf x Hne). eexists. split; [reflexivity|]. constructor; [|constructor]. split; [apply reach_new|discriminate].
  - destruct (append_wf below p x W Hne P) as (y & E & _ & N). rewrite E. eexists. split; [reflexivity|]. constructor; [|constructor]. split; [eapply reach_append; eassumption|assumption].
  - destruct (forget_after_wf t x W Hne) as (y & E & _ & N & _). rewrite E. eexists. split; [reflexivity|]. constructor; [|constructor]. split; [eapply reach_forget_after; eassumption|assumption].
  - destruct (forget_before_wf t x W Hne P) as (y & E & _ & N). rewrite E. eexists. split; [reflexivity|]. constructor; [|constructor]. split; [eapply reach_forget_before; eassumption|].
    rewrite N. destruct (segments x); [contradiction|discriminate].
  - destruct (delete_segments_wf x k W (proj2 P)) as (y & E & _ & N). rewrite E. eexists. split; [reflexivity|]. constructor; [|constructor]. split; [eapply reach_delete; eassumption|].
    rewrite N. destruct k; [lia|]. destruct (segments x); [contradiction|discriminate].
  - destruct P as [Pk Pc]. destruct (detach_segments_wf x k W (proj2 Pk) Pc) as (y & z & E & _ & _ & N1 & N2). rewrite E. eexists. split; [reflexivity|].
    constructor; [|constructor; [|constructor]].
    + split; [eapply reach_detach; eassumption|]. rewrite N1. destruct k; [lia|]. destruct (segments x); [contradiction|discriminate].
    + split; [eapply reach_detached; eassumption|]. rewrite N2. intros K. rewrite K in Pc. contradiction.
  - destruct P as [Ry P]. destruct (attach_wf x y W (reachable_wf y Ry) P) as (z & E & _ & N). rewrite E. eexists. split; [reflexivity|]. constructor; [|constructor].
    split; [eapply (reach_attach x y); eassumption|]. rewrite N. apply attached_ne. assumption.
  - destruct P as (Ry & P1 & P2 & P3). destruct (merge_wf x y W (reachable_wf y Ry) Hne P1 P2 P3) as (z & E & _ & N). rewrite E. eexists. split; [reflexivity|]. constructor; [|constructor].
    split; [eapply (reach_merge x y); eassumption|]. rewrite N. destruct (segments x); [contradiction|]. destruct (segments y); discriminate.
Qed.

(** ** What is forgotten *)

Lemma forget_before_segments t x y : wf x -> ForgetBefore t x = Done y -> segments y = map (filter (keep_after t)) (segments x).
Proof.
  intros [Hc Hm] H. unfold ForgetBefore, FindSegment in H. rewrite Hm in H.
  destruct (find_segment 0 (segments x) t Hc) as [[H1 H2]|(l1 & p & s & l2 & E & H1 & H2 & H3 & H4 & H5)].
  - rewrite H1 in H. injection H as <-. rewrite map_filter_all; [reflexivity|]. eapply Forall_impl; [|exact H2]. cbv beta. intros; lia.
  - rewrite H1 in H. unfold map_at in H. rewrite H2 in H. cbn [Nat.add] in H. rewrite nth_error_mid in H. cbn [defined bind] in H.
    unfold segment_at in H. rewrite E, nth_error_mid in H. cbn [defined bind] in H.
    rewrite firstn_mid, skipn_mid_S in H. unfold checked in H. destruct (ConsistencyStatus _) as [b| |]; [|discriminate|discriminate]. cbn [bind] in H. destruct b; [|discriminate].
    cbn [check bind] in H. injection H as <-. cbn [segments]. rewrite E, map_app. cbn [map].
    rewrite map_forget_before by (intros u Hu; apply (chained_sorted (segments x)); [assumption|]; rewrite E; apply in_or_app; left; assumption).
    f_equal. f_equal.
    + apply forget_before_filter. apply (chained_sorted (segments x)); [assumption|]. rewrite E. apply in_or_app. right. left. reflexivity.
    + symmetry. apply map_filter_all. eapply Forall_impl; [|exact H4]. cbv beta. intros; lia.
Qed.

Lemma in_concat_filter (f : point -> bool) segs q : In q (concat (map (filter f) segs)) <-> In q (concat segs) /\ f q = true.
Proof. induction segs as [|s r IH]; cbn [map concat]; [cbn; tauto|]. rewrite !in_app_iff, IH, filter_In. tauto. Qed.

Theorem forget_before_points t x y : wf x -> ForgetBefore t x = Done y ->
  forall q, In q (concat (segments y)) <-> In q (concat (segments x)) /\ t <= fst q.
Proof.
  intros W H q. rewrite (forget_before_segments t x y W H), in_concat_filter. unfold keep_after. rewrite Z.leb_le. reflexivity.
Qed.

(** A segment with several points ends at [t] and another one follows. *)
Definition junction_at (t : time) (segs : list timeline) : Prop := exists l1 s a b l2, segs = l1 ++ (s ++ [a; b]) :: l2 /\ l2 <> [] /\ fst b = t.

Theorem forget_after_points t x : wf x -> segments x <> [] ->
  exists y, ForgetAfter t x = Done y /\ wf y /\
  forall q, In q (concat (segments y)) <-> In q (concat (segments x)) /\ (fst q < t \/ fst q = t /\ junction_at t (segments x)).
Proof.
  intros W Hne. destruct (forget_after_wf t x W Hne) as (y & E & Wy & _ & H). exists y. split; [assumption|]. split; [assumption|]. intros q. pose proof W as [Hc _].
  destruct H as [[H1 H2]|(l1 & p & s & l2 & Es & H2 & H)].
  - rewrite H2. cbn. rewrite Forall_forall in H1. split; [intros []|]. intros [Hq K]. specialize (H1 q Hq). lia.
  - pose proof Hc as Hc'. rewrite Es in Hc'. pose proof (chained_before _ _ _ _ Hc') as Bef. rewrite Forall_forall in H2, Bef. destruct H as [[H3 H4]|(H3 & l1' & k & El1 & H4 & H5)].
    + assert (NJ : ~ junction_at t (segments x)).
      { intros (m1 & u & a & b & m2 & Em & Hm2 & Hb). rewrite Es in Em. apply app_eq_app in Em. destruct Em as (m & [[E1 E2]|[E1 E2]]).
        - destruct m as [|m0 m].
          + cbn [app] in E2. injection E2 as E2 E3. subst m2. destruct l2 as [|s2 l2]; [contradiction|]. apply chained_app in Hc'. destruct Hc' as [_ Hc'].
            destruct (chained_not_nil _ _ _ _ Hc') as (h & s2' & -> & Hl). first [rewrite <- E2 in Hl | rewrite E2 in Hl]. rewrite last_app_ne in Hl by discriminate. cbn in Hl. subst h.
            specialize (H2 b (or_introl eq_refl)). lia.
          + cbn [app] in E2. injection E2 as <- _. subst l1. specialize (Bef b). rewrite concat_app in Bef. assert (fst b <= fst p); [|lia]. apply Bef. apply in_or_app. right. cbn [concat]. apply in_or_app. left.
            apply in_or_app. right. right. left. reflexivity.
        - destruct m as [|m0 m].
          + cbn [app] in E2. injection E2 as E2 E3. subst m2. destruct l2 as [|s2 l2]; [contradiction|]. apply chained_app in Hc'. destruct Hc' as [_ Hc'].
            destruct (chained_not_nil _ _ _ _ Hc') as (h & s2' & -> & Hl). first [rewrite <- E2 in Hl | rewrite E2 in Hl]. rewrite last_app_ne in Hl by discriminate. cbn in Hl. subst h.
            specialize (H2 b (or_introl eq_refl)). lia.
          + cbn [app] in E2. injection E2 as <- E2. subst l2. specialize (H2 b). rewrite concat_app in H2. assert (t < fst b); [|lia]. apply H2. apply in_or_app. right. cbn [concat]. apply in_or_app. left.
            apply in_or_app. right. right. left. reflexivity. }
      rewrite H4, Es, !concat_app. cbn [concat]. rewrite app_nil_r, !in_app_iff, filter_In. unfold keep_before. rewrite Z.ltb_lt. split.
      * intros [K|[K1 K2]]; [specialize (Bef q K); split; [left; assumption|left; lia]|split; [right; left; assumption|left; assumption]].
      * intros [[K|[K|K]] [L|[_ L]]]; try (rewrite <- Es in L); try contradiction; [left; assumption|right; auto|specialize (H2 q K); lia].
    + assert (Hy : concat (segments y) = concat l1') by (destruct H4 as [->|[-> ->]]; reflexivity). rewrite Hy.
      assert (Hin : forall r, In r (concat (repeat [p] k)) -> r = p).
      { intros r. induction k; cbn; [intros []|]. intros [Hr|Hr]; [auto|]. clear - Hr. induction k; [destruct Hr|]. destruct Hr as [Hr|Hr]; auto. }
      rewrite Es, El1, !concat_app. cbn [concat]. rewrite !in_app_iff. split.
      * intros K. split; [left; left; assumption|]. assert (fst q <= fst p) by (apply Bef; rewrite El1, concat_app; apply in_or_app; left; assumption).
        destruct H5 as [->|(l0 & s0 & El0 & [Hs0|(a & b & c & Hs0 & Hl)])]; [destruct K| |].
        -- exfalso. subst l1' s0. rewrite El1, <- !app_assoc in Hc'. apply chained_nil_prefix in Hc'. rewrite concat_app, (concat_all_nil _ Hc') in K. destruct K.
        -- destruct (Z_lt_le_dec (fst q) t); [left; assumption|]. right. split; [lia|]. subst l1'.
           assert (Ex : exists u z w, s0 = u ++ [z; w] /\ w = p).
           { assert (Hn : b :: c <> []) by discriminate. destruct (exists_last Hn) as (c' & w & Ec). rewrite Hs0, Ec in Hl. exists (removelast (a :: c')), (last (a :: c') a), w. split.
             - change [last (a :: c') a; w] with ([last (a :: c') a] ++ [w]). rewrite app_assoc, <- snoc_last by discriminate. rewrite Hs0, Ec. reflexivity.
             - rewrite <- Hl. change (a :: c' ++ [w]) with ((a :: c') ++ [w]). rewrite last_snoc. reflexivity. }
           destruct Ex as (u & z & w & -> & ->). exists l0, u, z, p, (repeat [p] k ++ (p :: s) :: l2). rewrite <- !app_assoc. split; [reflexivity|]. split; [destruct k; discriminate|assumption].
      * assert (J : junction_at t (segments x) -> In p (concat l1')).
        { intros (m1 & u & a & b & m2 & Em & _ & Hb).
          assert (Ib : In (u ++ [a; b]) (segments x)) by (rewrite Em; apply in_or_app; right; left; reflexivity).
          assert (Ip : In p (concat (segments x))) by (rewrite Es, concat_app; apply in_or_app; right; left; reflexivity).
          assert (b = p).
          { apply (same_time (segments x) _ _ Hc); [|assumption|congruence]. apply in_concat. exists (u ++ [a; b]). split; [assumption|]. apply in_or_app. right. right. left. reflexivity. }
          subst b. assert (Sb : sorted (u ++ [a; p])) by exact (chained_sorted _ _ Hc Ib).
          rewrite Es, El1 in Ib. apply in_app_or in Ib. destruct Ib as [Ib|Ib]; [apply in_app_or in Ib; destruct Ib as [Ib|Ib]|destruct Ib as [Ib|Ib]].
          - apply in_concat. exists (u ++ [a; p]). split; [assumption|]. apply in_or_app. right. right. left. reflexivity.
          - apply repeat_spec in Ib. exfalso. destruct u as [|? [|? u]]; discriminate.
          - exfalso. assert (Ia : In a (p :: s)) by (rewrite Ib; apply in_or_app; right; left; reflexivity). rewrite <- Ib in Sb. pose proof (sorted_first_le p s a Sb Ia).
            rewrite Ib in Sb. apply sorted_app in Sb. destruct Sb as (_ & Sb & _). apply StronglySorted_inv in Sb. destruct Sb as [_ Sb]. apply Forall_inv in Sb. unfold earlier in Sb. lia.
          - exfalso. assert (t < fst p); [|lia]. apply H2. apply in_concat. exists (u ++ [a; p]). split; [assumption|]. apply in_or_app. right. right. left. reflexivity. }
        assert (Low : ~ fst q < t -> q = p -> fst q < t \/ fst q = t /\ junction_at t (segments x) -> In q (concat l1')).
        { intros N -> [L|[_ L]]; [contradiction|]. apply J. assumption. }
        intros [[[K|K]|K] L].
        -- assumption.
        -- apply Hin in K. apply Low; [subst; lia|assumption|]. rewrite <- El1 in L. rewrite Es. exact L.
        -- assert (Iq : In q ((p :: s) ++ concat l2)) by (apply in_or_app; exact K).
           assert (fst p <= fst q).
           { apply chained_app in Hc'. destruct Hc' as [_ Hc']. pose proof (chained_ge _ _ _ Hc') as G. rewrite Forall_forall in G. apply G. exact Iq. }
           assert (Ex : segments x = (l1' ++ repeat [p] k) ++ (p :: s) :: l2) by (rewrite Es, El1; reflexivity). rewrite <- Ex in L.
           apply Low; [lia| |assumption]. apply (same_time (segments x) _ _ Hc); [rewrite Ex, concat_app; apply in_or_app; right; exact Iq|rewrite Ex, concat_app; apply in_or_app; right; left; reflexivity|].
           destruct L as [L|[L _]]; lia.
Qed.
