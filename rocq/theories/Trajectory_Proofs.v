(** Proofs about Trajectory_Model: consistency (C34) and forgetting (C37). *)
From Coq Require Import List Arith ZArith Bool Lia Sorted.
From Verif Require Import Trajectory_Model.
Import ListNotations.
Open Scope Z_scope.

(** * Specification *)

Definition earlier (p q : point) : Prop := fst p < fst q.
Definition sorted (s : timeline) : Prop := StronglySorted earlier s.

(** Each timeline is strictly increasing; a segment that is not empty is followed by one that starts with its last
    point. *)
Fixpoint chained (segs : list timeline) : Prop :=
  match segs with
  | [] => True
  | s :: r =>
      sorted s /\
      match s, r with
      | [], _ => True
      | _, [] => True
      | p :: _, [] :: _ => False
      | p :: _, (q :: _) :: _ => last s p = q
      end /\ chained r
  end.

(** The time-to-segment map that one expects: the left endpoints of all the segments, except for the 1-point segments
    that are followed by another segment. *)
Fixpoint expected (i : nat) (segs : list timeline) : endpoint_map :=
  match segs with
  | [] => []
  | [] :: r => expected (S i) r
  | [p] :: (_ :: _) as r => expected (S i) r
  | (p :: _) :: r => (fst p, i) :: expected (S i) r
  end.

Definition wf (x : trajectory) : Prop := chained (segments x) /\ left x = expected 0 (segments x).

(** * Lists *)

Lemma last_indep {A} (l : list A) d e : l <> [] -> last l d = last l e.
Proof. induction l as [|x l IH]; [congruence|]. intros _. destruct l; [reflexivity|]. cbn [last] in *. apply IH. discriminate. Qed.
Lemma last_cons {A} (p q d e : A) l : last (p :: q :: l) d = last (q :: l) e.
Proof. change (last (q :: l) d = last (q :: l) e). apply last_indep. discriminate. Qed.
Lemma last_app_ne {A} (l r : list A) d : r <> [] -> last (l ++ r) d = last r d.
Proof.
  intros H. induction l as [|x l IH]; [reflexivity|]. rewrite <- IH. change ((x :: l) ++ r) with (x :: (l ++ r)).
  destruct (l ++ r) eqn:E; [apply app_eq_nil in E; destruct E; congruence|reflexivity].
Qed.
Lemma last_snoc {A} (l : list A) x d : last (l ++ [x]) d = x.
Proof. rewrite last_app_ne by discriminate. reflexivity. Qed.
Lemma snoc_last {A} (l : list A) d : l <> [] -> l = removelast l ++ [last l d].
Proof. apply app_removelast_last. Qed.

(** * Timelines *)

Lemma sorted_inv p s : sorted (p :: s) -> sorted s /\ Forall (earlier p) s.
Proof. intros H. inversion H; auto. Qed.
Lemma sorted_app l r : sorted (l ++ r) <-> sorted l /\ sorted r /\ (forall p q, In p l -> In q r -> fst p < fst q).
Proof.
  unfold sorted. induction l as [|x l IH]; cbn [app].
  - split; [intros H; repeat split; auto; try constructor; intros ? ? []|intros (_ & H & _); exact H].
  - split.
    + intros H. apply sorted_inv in H. destruct H as [H1 H2]. apply IH in H1. destruct H1 as (H1 & H3 & H4).
      rewrite Forall_app in H2. destruct H2 as [H2 H5]. repeat split; auto.
      * constructor; auto.
      * intros p q [->|Hp] Hq; [rewrite Forall_forall in H5; apply (H5 q Hq)|auto].
    + intros (H1 & H2 & H3). inversion H1; subst. constructor.
      * apply IH. repeat split; auto. intros; apply H3; [right|]; auto.
      * apply Forall_app. split; [assumption|]. apply Forall_forall. intros q Hq. apply H3; [left|]; auto.
Qed.

Lemma sorted_first_le p s q : sorted (p :: s) -> In q (p :: s) -> fst p <= fst q.
Proof. intros H [->|Hq]; [lia|]. apply sorted_inv in H. destruct H as [_ H]. rewrite Forall_forall in H. specialize (H q Hq). unfold earlier in H. lia. Qed.
Lemma in_last {A} (l : list A) d : l <> [] -> In (last l d) l.
Proof. intros H. rewrite (snoc_last l d H) at 2. apply in_or_app. right. left. reflexivity. Qed.
Lemma sorted_last_ge s d q : sorted s -> In q s -> fst q <= fst (last s d).
Proof.
  intros H Hq. assert (s <> []) by (intros ->; destruct Hq). rewrite (snoc_last s d H0) in H, Hq. rewrite (snoc_last s d H0), last_snoc.
  apply sorted_app in H. destruct H as (_ & _ & H). apply in_app_or in Hq. destruct Hq as [Hq|[->|[]]]; [|lia].
  specialize (H q _ Hq (or_introl eq_refl)). lia.
Qed.
Lemma sorted_first_lt_last p q s d : sorted (p :: q :: s) -> fst p < fst (last (p :: q :: s) d).
Proof.
  intros H. apply sorted_inv in H. destruct H as [_ H]. rewrite Forall_forall in H. rewrite (last_cons p q d d). apply H. apply in_last. discriminate.
Qed.

(** lower_bound splits a sorted timeline. *)
Lemma lower_bound_spec t s : sorted s ->
  Forall (fun p => fst p < t) (firstn (lower_bound t s) s) /\ Forall (fun p => t <= fst p) (skipn (lower_bound t s) s).
Proof.
  induction s as [|p s IH]; intros H; [split; constructor|]. pose proof (sorted_inv _ _ H) as [Hs Hp].
  cbn [lower_bound]. destruct (Z.ltb_spec (fst p) t) as [Hlt|Hge]; cbn [firstn skipn].
  - destruct (IH Hs). split; [constructor|]; auto.
  - split; [constructor|]. constructor; [assumption|]. eapply Forall_impl; [|exact Hp]. intros q Hq. unfold earlier in Hq. lia.
Qed.

Lemma filter_all {A} f (l : list A) : Forall (fun x => f x = true) l -> filter f l = l.
Proof. induction 1; cbn; [reflexivity|]. rewrite H. congruence. Qed.
Lemma filter_none {A} f (l : list A) : Forall (fun x => f x = false) l -> filter f l = [].
Proof. induction 1; cbn; [reflexivity|]. rewrite H. congruence. Qed.

Definition keep_before (t : time) (p : point) : bool := fst p <? t.
Definition keep_after (t : time) (p : point) : bool := t <=? fst p.

Lemma forget_after_filter t s : sorted s -> segment_ForgetAfter t s = filter (keep_before t) s.
Proof.
  intros H. destruct (lower_bound_spec t s H) as [H1 H2]. unfold segment_ForgetAfter.
  rewrite <- (firstn_skipn (lower_bound t s) s) at 3. rewrite filter_app, filter_all, filter_none, app_nil_r; [reflexivity| |].
  - eapply Forall_impl; [|exact H2]. intros p Hp. unfold keep_before. cbv beta in Hp. lia.
  - eapply Forall_impl; [|exact H1]. intros p Hp. unfold keep_before. cbv beta in Hp. lia.
Qed.
Lemma forget_before_filter t s : sorted s -> segment_ForgetBefore t s = filter (keep_after t) s.
Proof.
  intros H. destruct (lower_bound_spec t s H) as [H1 H2]. unfold segment_ForgetBefore.
  rewrite <- (firstn_skipn (lower_bound t s) s) at 3. rewrite filter_app, (filter_none _ (firstn _ _)), filter_all; [reflexivity| |].
  - eapply Forall_impl; [|exact H2]. intros p Hp. unfold keep_after. cbv beta in Hp. lia.
  - eapply Forall_impl; [|exact H1]. intros p Hp. unfold keep_after. cbv beta in Hp. lia.
Qed.

Lemma sorted_filter f s : sorted s -> sorted (filter f s).
Proof.
  induction s as [|p s IH]; intros H; [constructor|]. apply sorted_inv in H. destruct H as [H1 H2]. cbn [filter].
  destruct (f p); [|auto]. constructor; [apply IH; assumption|]. rewrite Forall_forall in *. intros q Hq. apply filter_In in Hq. apply H2. apply Hq.
Qed.

(** * Chains *)

Lemma chained_tail s r : chained (s :: r) -> chained r.
Proof. intros (_ & _ & H). exact H. Qed.
Lemma chained_head s r : chained (s :: r) -> sorted s.
Proof. intros (H & _). exact H. Qed.
Lemma chained_next p s q s2 r : chained ((p :: s) :: (q :: s2) :: r) -> last (p :: s) p = q.
Proof. intros (_ & H & _). exact H. Qed.
Lemma chained_not_nil p s s2 r : chained ((p :: s) :: s2 :: r) -> exists q s2', s2 = q :: s2' /\ last (p :: s) p = q.
Proof. intros (_ & H & _). destruct s2 as [|q s2']; [destruct H|]. eauto. Qed.

Lemma chained_app l r : chained (l ++ r) -> chained l /\ chained r.
Proof.
  induction l as [|s l IH]; intros H; [split; [exact I|exact H]|]. change ((s :: l) ++ r) with (s :: (l ++ r)) in H.
  destruct (IH (chained_tail _ _ H)) as [H1 H2]. split; [|exact H2]. destruct H as (Ha & Hb & _). split; [exact Ha|]. split; [|exact H1].
  destruct s; [exact I|]. destruct l as [|s2 l]; [exact I|]. exact Hb.
Qed.

(** All the points of a chain that starts with [q] are at or after [q]. *)
Lemma chained_ge p s r : chained ((p :: s) :: r) -> Forall (fun q => fst p <= fst q) (concat ((p :: s) :: r)).
Proof.
  revert p s. induction r as [|s2 r IH]; intros p s H; cbn [concat].
  - rewrite app_nil_r. apply Forall_forall. intros q Hq. apply (sorted_first_le p s q); [exact (chained_head _ _ H)|assumption].
  - destruct (chained_not_nil _ _ _ _ H) as (q & s2' & -> & Hq).
    pose proof (IH _ _ (chained_tail _ _ H)) as G. apply Forall_app. split.
    + apply Forall_forall. intros x Hx. apply (sorted_first_le p s x); [exact (chained_head _ _ H)|assumption].
    + eapply Forall_impl; [|exact G]. intros x Hx. cbv beta in Hx.
      pose proof (sorted_last_ge (p :: s) p p (chained_head _ _ H) (or_introl eq_refl)) as Hl. rewrite Hq in Hl. lia.
Qed.

(** After a segment that is not empty, all points are at or after its last point. *)
Lemma chained_after p s r : chained ((p :: s) :: r) -> Forall (fun q => fst (last (p :: s) p) <= fst q) (concat r).
Proof.
  intros H. destruct r as [|s2 r]; [constructor|]. destruct (chained_not_nil _ _ _ _ H) as (q & s2' & -> & Hq).
  rewrite Hq. apply chained_ge. exact (chained_tail _ _ H).
Qed.

Lemma expected_cons_last i p s : expected i [p :: s] = [(fst p, i)].
Proof. destruct s; reflexivity. Qed.
Lemma expected_cons_multi i p q s r : expected i ((p :: q :: s) :: r) = (fst p, i) :: expected (S i) r.
Proof. destruct r; reflexivity. Qed.
Lemma expected_cons_one i p s r : expected i ([p] :: s :: r) = expected (S i) (s :: r).
Proof. reflexivity. Qed.
Lemma expected_cons_one' i p r : r <> [] -> expected i ([p] :: r) = expected (S i) r.
Proof. destruct r; [congruence|reflexivity]. Qed.
Lemma expected_cons_nil i r : expected i ([] :: r) = expected (S i) r.
Proof. reflexivity. Qed.

Lemma expected_keys i segs t : In t (map fst (expected i segs)) -> exists q, In q (concat segs) /\ fst q = t.
Proof.
  revert i. induction segs as [|[|p s] r IH]; intros i H; [destruct H| |].
  - apply IH in H. exact H.
  - assert (G : In t (fst p :: map fst (expected (S i) r)) -> exists q, In q (concat ((p :: s) :: r)) /\ fst q = t).
    { intros [<-|G]; [exists p; split; [left|]; reflexivity|]. apply IH in G. destruct G as (q & G1 & G2). exists q. split; [|assumption].
      cbn [concat]. apply in_or_app. right. assumption. }
    apply G. destruct s as [|q s]; [destruct r as [|s2 r]; [exact H|right; exact H]|]. rewrite expected_cons_multi in H. exact H.
Qed.

Lemma expected_ge i segs (P : Z -> Prop) : Forall (fun q => P (fst q)) (concat segs) -> Forall (fun e => P (fst e)) (expected i segs).
Proof.
  intros H. rewrite Forall_forall in *. intros e He. assert (K : In (fst e) (map fst (expected i segs))) by (apply in_map; assumption).
  apply expected_keys in K. destruct K as (q & K1 & K2). rewrite <- K2. apply H. assumption.
Qed.

(** The entries for the segments that have at least 2 points. *)
Fixpoint multi (i : nat) (segs : list timeline) : endpoint_map :=
  match segs with
  | [] => []
  | (p :: _ :: _) :: r => (fst p, i) :: multi (S i) r
  | _ :: r => multi (S i) r
  end.

Lemma expected_app i l r : r <> [] -> expected i (l ++ r) = multi i l ++ expected (i + length l) r.
Proof.
  intros Hr. revert i. induction l as [|s l IH]; intros i; cbn [app length]; [rewrite Nat.add_0_r; reflexivity|].
  rewrite Nat.add_succ_r. change (S (i + length l)) with (S i + length l)%nat.
  destruct s as [|p [|q s]].
  - rewrite expected_cons_nil. apply IH.
  - rewrite expected_cons_one'; [apply IH|]. intros E. apply app_eq_nil in E. destruct E as [_ E]. exact (Hr E).
  - rewrite expected_cons_multi. cbn [multi app]. f_equal. apply IH.
Qed.
Lemma multi_app i l r : multi i (l ++ r) = multi i l ++ multi (i + length l) r.
Proof.
  revert i. induction l as [|s l IH]; intros i; cbn [app length]; [rewrite Nat.add_0_r; reflexivity|].
  rewrite Nat.add_succ_r. change (S (i + length l)) with (S i + length l)%nat. cbn [multi].
  destruct s as [|p [|q s]]; cbn [app]; rewrite IH; reflexivity.
Qed.
Lemma multi_keys i segs (P : Z -> Prop) : Forall (fun q => P (fst q)) (concat segs) -> Forall (fun e => P (fst e)) (multi i segs).
Proof.
  revert i. induction segs as [|s r IH]; intros i H; [constructor|]. cbn [concat] in H. apply Forall_app in H. destruct H as [H1 H2].
  destruct s as [|p [|q s]]; cbn [multi]; [apply IH; assumption|apply IH; assumption|]. constructor; [|apply IH; assumption].
  inversion H1; subst; assumption.
Qed.

(** All segments are empty. *)
Lemma expected_nil i segs : chained segs -> expected i segs = [] -> Forall (fun s => s = []) segs.
Proof.
  revert i. induction segs as [|s r IH]; intros i Hc H; [constructor|].
  destruct s as [|p s]; [constructor; [reflexivity|]; exact (IH _ (chained_tail _ _ Hc) H)|]. exfalso.
  destruct s as [|q s]; [|rewrite expected_cons_multi in H; discriminate].
  destruct r as [|s2 r]; [discriminate|]. rewrite expected_cons_one in H.
  pose proof (IH _ (chained_tail _ _ Hc) H) as G. inversion G; subst.
  destruct (chained_not_nil _ _ _ _ Hc) as (? & ? & ? & _). discriminate.
Qed.
Lemma expected_all_nil i segs : Forall (fun s => s = []) segs -> expected i segs = [].
Proof. intros H. revert i. induction H; intros i; [reflexivity|]. subst. rewrite expected_cons_nil. apply IHForall. Qed.
Lemma chained_all_nil segs : Forall (fun s => s = []) segs -> chained segs.
Proof. induction 1; [exact I|]. subst. split; [constructor|]. split; [exact I|assumption]. Qed.
Lemma multi_all_nil i segs : Forall (fun s => s = []) segs -> multi i segs = [].
Proof. intros H. revert i. induction H; intros i; [reflexivity|]. subst. cbn. apply IHForall. Qed.
Lemma concat_all_nil (segs : list timeline) : Forall (fun s => s = []) segs -> concat segs = [].
Proof. induction 1; [reflexivity|]. subst. assumption. Qed.
(** What precedes an empty segment is empty. *)
Lemma chained_nil_prefix l r : chained (l ++ [] :: r) -> Forall (fun s => s = []) l.
Proof.
  induction l as [|s l IH]; intros H; [constructor|]. pose proof (IH (chained_tail _ _ H)) as G. constructor; [|assumption].
  destruct s as [|p s]; [reflexivity|]. exfalso. destruct l as [|s2 l].
  - destruct (chained_not_nil _ _ _ _ H) as (? & ? & ? & _). discriminate.
  - destruct (chained_not_nil p s s2 (l ++ [] :: r) H) as (? & ? & -> & _). inversion G; discriminate.
Qed.
(** The points that precede a segment are at or before its first point. *)
Lemma chained_before l p s r : chained (l ++ (p :: s) :: r) -> Forall (fun q => fst q <= fst p) (concat l).
Proof.
  induction l as [|s0 l IH]; intros H; [constructor|]. cbn [concat]. pose proof (IH (chained_tail _ _ H)) as G.
  apply Forall_app. split; [|assumption]. destruct s0 as [|p0 s0]; [constructor|].
  pose proof (chained_after p0 s0 (l ++ (p :: s) :: r) H) as K. rewrite concat_app in K. cbn [concat] in K.
  assert (Kp : fst (last (p0 :: s0) p0) <= fst p).
  { rewrite Forall_forall in K. apply K. apply in_or_app. right. left. reflexivity. }
  apply Forall_forall. intros x Hx. pose proof (sorted_last_ge (p0 :: s0) p0 x (chained_head _ _ H) Hx). lia.
Qed.

(** * Maps *)

Definition key_lt (t : time) (m : endpoint_map) : Prop := Forall (fun e => fst e < t) m.
Definition key_gt (t : time) (m : endpoint_map) : Prop := Forall (fun e => t < fst e) m.

Lemma insert_app t i a b : key_lt t a -> insert t i (a ++ b) = a ++ insert t i b.
Proof.
  induction 1 as [|[t' i'] a Hlt _ IH]; [reflexivity|]. cbn [app insert]. cbn [fst] in Hlt.
  destruct (Z.ltb_spec t t'); [lia|]. destruct (Z.eqb_spec t t'); [lia|]. rewrite IH. reflexivity.
Qed.
Lemma insert_gt t i b : key_gt t b -> insert t i b = (t, i) :: b.
Proof. destruct 1 as [|[t' i'] b Hlt _]; [reflexivity|]. cbn [insert]. cbn [fst] in Hlt. destruct (Z.ltb_spec t t'); [reflexivity|lia]. Qed.
Lemma insert_last t i m : key_lt t m -> insert t i m = m ++ [(t, i)].
Proof. intros H. rewrite <- (app_nil_r m) at 1. rewrite insert_app by assumption. reflexivity. Qed.
Lemma insert_same t i j b : insert t i ((t, j) :: b) = (t, i) :: b.
Proof. cbn [insert]. rewrite Z.ltb_irrefl, Z.eqb_refl. reflexivity. Qed.

Lemma map_upper_bound_app t a b : Forall (fun e => fst e <= t) a -> map_upper_bound t (a ++ b) = (length a + map_upper_bound t b)%nat.
Proof.
  induction 1 as [|[t' i'] a Hle _ IH]; [reflexivity|]. cbn [app map_upper_bound length]. cbn [fst] in Hle.
  destruct (Z.leb_spec t' t); [|lia]. rewrite IH. reflexivity.
Qed.
Lemma map_upper_bound_gt t b : key_gt t b -> map_upper_bound t b = O.
Proof. destruct 1 as [|[t' i'] b Hlt _]; [reflexivity|]. cbn [map_upper_bound]. cbn [fst] in Hlt. destruct (Z.leb_spec t' t); [lia|reflexivity]. Qed.

(** FindSegment on the map of a chain. *)
Lemma find_segment i segs t : chained segs ->
  (map_upper_bound t (expected i segs) = O /\ Forall (fun q => t < fst q) (concat segs)) \/
  exists l1 p s l2, segs = l1 ++ (p :: s) :: l2 /\
    map_upper_bound t (expected i segs) = S (length (multi i l1)) /\
    expected i segs = multi i l1 ++ (fst p, (i + length l1)%nat) :: expected (S (i + length l1)) l2 /\
    fst p <= t /\ Forall (fun q => t < fst q) (concat l2) /\ (l2 = [] \/ s <> []).
Proof.
  revert i. induction segs as [|s0 r IH]; intros i Hc; [left; split; [reflexivity|constructor]|].
  specialize (IH (S i) (chained_tail _ _ Hc)).
  destruct s0 as [|p0 [|q0 s0]].
  - rewrite expected_cons_nil. destruct IH as [IH|(l1 & p & s & l2 & -> & H1 & H2 & H3)]; [left; exact IH|].
    right. exists ([] :: l1), p, s, l2. cbn [length app]. rewrite Nat.add_succ_r. auto.
  - destruct r as [|s2 r].
    + rewrite expected_cons_last. cbn [map_upper_bound]. destruct (Z.leb_spec (fst p0) t).
      * right. exists [], p0, [], []. cbn [length multi app]. rewrite Nat.add_0_r. repeat split; auto; constructor.
      * left. split; [reflexivity|]. repeat constructor. assumption.
    + rewrite expected_cons_one. destruct (chained_not_nil _ _ _ _ Hc) as (q & s2' & -> & Hq). cbn in Hq. subst q.
      destruct IH as [[H1 H2]|(l1 & p & s & l2 & E & H1 & H2 & H3)].
      * left. split; [exact H1|]. cbn [concat app]. constructor; [|exact H2]. inversion H2; assumption.
      * right. exists ([p0] :: l1), p, s, l2. cbn [length app]. rewrite Nat.add_succ_r, <- E. auto.
  - rewrite expected_cons_multi. cbn [map_upper_bound]. destruct (Z.leb_spec (fst p0) t) as [Hle|Hgt].
    + right. destruct IH as [[H1 H2]|(l1 & p & s & l2 & -> & H1 & H2 & H3)].
      * exists [], p0, (q0 :: s0), r. cbn [length multi app]. rewrite Nat.add_0_r, H1. repeat split; auto. right. discriminate.
      * exists ((p0 :: q0 :: s0) :: l1), p, s, l2. cbn [multi length app]. rewrite Nat.add_succ_r, H1, H2. auto.
    + left. split; [reflexivity|]. pose proof (chained_ge _ _ _ Hc) as G. eapply Forall_impl; [|exact G]. cbv beta. intros; lia.
Qed.

(** * ConsistencyStatus *)

Lemma nth_error_mid {A} (a : list A) x b : nth_error (a ++ x :: b) (length a) = Some x.
Proof. rewrite nth_error_app2, Nat.sub_diag by lia. reflexivity. Qed.

Lemma expected_index i segs t j : In (t, j) (expected i segs) -> (i <= j)%nat.
Proof.
  revert i. induction segs as [|[|p s] r IH]; intros i H; [destruct H| |].
  - apply IH in H. lia.
  - assert (G : In (t, j) ((fst p, i) :: expected (S i) r) -> (i <= j)%nat) by (intros [E|G]; [injection E; lia|apply IH in G; lia]).
    apply G. destruct s as [|q s]; [destruct r as [|s2 r]; [exact H|right; exact H]|]. rewrite expected_cons_multi in H. exact H.
Qed.
Lemma expected_index_hd i segs t j m : expected i segs = (t, j) :: m -> (i <= j)%nat.
Proof. intros H. apply (expected_index i segs t). rewrite H. left. reflexivity. Qed.

(** An entry of the map is for the left endpoint of its segment. *)
Lemma expected_entry i pre segs t j : length pre = i -> In (t, j) (expected i segs) -> exists p s, nth_error (pre ++ segs) j = Some (p :: s) /\ fst p = t.
Proof.
  revert i pre. induction segs as [|s r IH]; intros i pre Hi H; [destruct H|].
  assert (G : In (t, j) (expected (S i) r) -> exists p s', nth_error (pre ++ s :: r) j = Some (p :: s') /\ fst p = t).
  { intros G. destruct (IH (S i) (pre ++ [s])) as (p & s' & G1 & G2); [rewrite app_length; cbn; lia|assumption|].
    exists p, s'. rewrite <- app_assoc in G1. auto. }
  destruct s as [|p s]; [exact (G H)|].
  assert (G' : In (t, j) ((fst p, i) :: expected (S i) r)).
  { destruct s as [|q s]; [destruct r as [|s2 r]; [exact H|right; exact H]|]. rewrite expected_cons_multi in H. exact H. }
  destruct G' as [E|G']; [|exact (G G')]. injection E as <- <-. exists p, s. rewrite <- Hi, nth_error_mid. auto.
Qed.

Lemma endpoints_match_ok segs m : (forall t j, In (t, j) m -> exists p s, nth_error segs j = Some (p :: s) /\ fst p = t) -> endpoints_match segs m = Done true.
Proof.
  induction m as [|[t j] m IH]; intros H; [reflexivity|]. cbn [endpoints_match].
  destruct (H t j (or_introl eq_refl)) as (p & s & -> & <-). cbn [defined bind]. rewrite Z.eqb_refl. apply IH. intros; apply H; right; assumption.
Qed.

Lemma walk_ok segs pre l : segs = pre ++ l -> chained l -> walk segs l (length pre) (expected (length pre) l) = Done true.
Proof.
  revert pre. induction l as [|s l IH]; intros pre Hs Hc; [reflexivity|].
  assert (Hs' : segs = (pre ++ [s]) ++ l) by (rewrite <- app_assoc; assumption).
  assert (Hl : length (pre ++ [s]) = S (length pre)) by (rewrite app_length; cbn; lia).
  pose proof (IH (pre ++ [s]) Hs' (chained_tail _ _ Hc)) as G. rewrite Hl in G.
  assert (Skip : (length s <= 1)%nat -> (expected (S (length pre)) l = [] -> s = []) ->
    walk segs (s :: l) (length pre) (expected (S (length pre)) l) = Done true).
  { intros Hlen He. destruct (expected (S (length pre)) l) as [|[t j] m] eqn:E.
    - rewrite (He eq_refl). reflexivity.
    - cbn [walk]. destruct (expected_entry (S (length pre)) (pre ++ [s]) l t j Hl) as (p & s' & E1 & E2); [rewrite E; left; reflexivity|].
      rewrite <- Hs' in E1. rewrite E1. cbn [defined bind is_empty].
      pose proof (expected_index_hd _ _ _ _ _ E). destruct (Nat.eqb_spec (length pre) j); [lia|].
      apply Nat.leb_le in Hlen. rewrite Hlen. exact G. }
  assert (Take : forall p s', s = p :: s' -> walk segs (s :: l) (length pre) ((fst p, length pre) :: expected (S (length pre)) l) = Done true).
  { intros p s' ->. cbn [walk]. rewrite Hs, nth_error_mid. cbn [defined bind is_empty]. rewrite Nat.eqb_refl, <- Hs. exact G. }
  destruct s as [|p [|q s]].
  - rewrite expected_cons_nil. apply Skip; [cbn; lia|reflexivity].
  - destruct l as [|s2 l]; [exact (Take p [] eq_refl)|]. rewrite expected_cons_one. apply Skip; [cbn; lia|].
    intros E. exfalso. pose proof (expected_nil _ _ (chained_tail _ _ Hc) E) as K. inversion K; subst.
    destruct (chained_not_nil _ _ _ _ Hc) as (? & ? & ? & _). discriminate.
  - rewrite expected_cons_multi. exact (Take p (q :: s) eq_refl).
Qed.

Lemma junctions_ok segs : chained segs -> junctions_match segs = true.
Proof.
  induction segs as [|s [|s2 r] IH]; intros H; [reflexivity|reflexivity|].
  change (match s, s2 with [], _ => true | p :: _, [] => false | p :: _, q :: _ => (fst (last s p) =? fst q) && (snd (last s p) =? snd q) end && junctions_match (s2 :: r) = true).
  rewrite (IH (chained_tail _ _ H)), andb_true_r. destruct s as [|p s]; [reflexivity|].
  destruct (chained_not_nil _ _ _ _ H) as (q & s2' & -> & Hq). rewrite Hq, !Z.eqb_refl. reflexivity.
Qed.

Lemma expected_length i segs : (length (expected i segs) <= length segs)%nat.
Proof.
  revert i. induction segs as [|[|p s] r IH]; intros i; [cbn; lia| |].
  - rewrite expected_cons_nil. specialize (IH (S i)). cbn [length]. lia.
  - assert (length (expected i ((p :: s) :: r)) <= length ((fst p, i) :: expected (S i) r))%nat.
    { destruct s as [|q s]; [destruct r as [|s2 r]; [cbn; lia|rewrite expected_cons_one; cbn [length]; lia]|]. rewrite expected_cons_multi. lia. }
    specialize (IH (S i)). cbn [length] in *. lia.
Qed.

(** A well-formed trajectory passes the consistency check. *)
Lemma consistent_ok x : wf x -> ConsistencyStatus x = Done true.
Proof.
  intros [Hc Hl]. unfold ConsistencyStatus. rewrite Hl.
  pose proof (expected_length 0 (segments x)) as Hlen. apply Nat.leb_le in Hlen. rewrite Hlen. cbn [negb orb].
  assert (He : match expected 0 (segments x) with [] => forallb is_empty (segments x) | _ => true end = true).
  { destruct (expected 0 (segments x)) eqn:E; [|reflexivity]. apply forallb_forall. intros s Hs.
    pose proof (expected_nil _ _ Hc E) as K. rewrite Forall_forall in K. rewrite (K s Hs). reflexivity. }
  rewrite He. cbn [negb].
  rewrite endpoints_match_ok by (intros t j Hin; apply (expected_entry 0 []); auto). cbn [bind negb].
  pose proof (walk_ok (segments x) [] (segments x) eq_refl Hc) as Hw. cbn [length] in Hw. rewrite Hw. cbn [bind negb]. rewrite junctions_ok by assumption. reflexivity.
Qed.
Lemma checked_ok x : wf x -> checked x = Done x.
Proof. intros H. unfold checked. rewrite consistent_ok by assumption. reflexivity. Qed.

(** * The operations *)

Lemma chained_glue l r : chained l -> chained r ->
  (forall l' p s, l = l' ++ [p :: s] -> match r with [] => True | [] :: _ => False | (q :: _) :: _ => last (p :: s) p = q end) -> chained (l ++ r).
Proof.
  intros Hl Hr H. induction l as [|s l IH]; [exact Hr|]. change (chained (s :: (l ++ r))).
  split; [exact (chained_head _ _ Hl)|]. split.
  - destruct s as [|p s]; [exact I|]. destruct l as [|s2 l].
    + cbn [app]. specialize (H [] p s eq_refl). destruct r as [|[|q s2] r]; auto.
    + destruct (chained_not_nil _ _ _ _ Hl) as (q & s2' & -> & Hq). exact Hq.
  - apply IH; [exact (chained_tail _ _ Hl)|]. intros l' p s' ->. apply (H (s :: l') p s'). reflexivity.
Qed.

(** Replacing the last part of a segment that is the last one. *)
Lemma chained_replace l p s s' : chained (l ++ [p :: s]) -> sorted (p :: s') -> chained (l ++ [p :: s']).
Proof.
  intros H Hs. destruct (chained_app _ _ H) as [Hl _]. apply chained_glue; [assumption| |].
  - split; [exact Hs|]. split; exact I.
  - intros l' p' s'' ->. rewrite <- app_assoc in H. apply chained_app in H. destruct H as [_ H]. cbn [app] in H.
    exact (chained_next _ _ _ _ _ H).
Qed.

Lemma wf_new : wf new.
Proof. split; [|reflexivity]. cbn. repeat split; auto. constructor. Qed.

Lemma rev_nil {A} (l : list A) : rev l = [] -> l = [].
Proof. intros H. apply (f_equal (@rev _)) in H. rewrite rev_involutive in H. exact H. Qed.
Lemma rev_cons {A} (l : list A) x r : rev l = x :: r -> l = rev r ++ [x].
Proof. intros H. apply (f_equal (@rev _)) in H. rewrite rev_involutive in H. exact H. Qed.

Lemma expected_snoc i l p s : expected i (l ++ [p :: s]) = multi i l ++ [(fst p, (i + length l)%nat)].
Proof. rewrite expected_app by discriminate. rewrite expected_cons_last. reflexivity. Qed.

(** Keys before a segment. *)
Lemma multi_lt i l p s r : chained (l ++ (p :: s) :: r) -> key_lt (fst p) (multi i l).
Proof.
  revert i. induction l as [|s0 l IH]; intros i H; [constructor|]. pose proof (IH (S i) (chained_tail _ _ H)) as G.
  destruct s0 as [|p0 [|q0 s0]]; [exact G|exact G|]. cbn [multi]. constructor; [|exact G]. cbn [fst].
  pose proof (chained_after _ _ (l ++ (p :: s) :: r) H) as K. rewrite Forall_forall in K.
  assert (Kp : fst (last (p0 :: q0 :: s0) p0) <= fst p) by (apply K; rewrite concat_app; apply in_or_app; right; left; reflexivity).
  pose proof (sorted_first_lt_last p0 q0 s0 p0 (chained_head _ _ H)). lia.
Qed.

Theorem new_segment_wf x : wf x -> segments x <> [] -> exists y, NewSegment x = Done y /\ wf y /\ segments y <> [].
Proof.
  intros [Hc Hm] Hne. unfold NewSegment. destruct (rev (segments x)) as [|s r] eqn:Er; [apply rev_nil in Er; congruence|].
  apply rev_cons in Er. destruct (rev s) as [|p s'] eqn:Es.
  - apply rev_nil in Es. subst s. rewrite Er in Hc. pose proof (chained_nil_prefix _ _ Hc) as Hn.
    assert (Hall : Forall (fun s => s = []) (segments x ++ [[]])).
    { rewrite Er. apply Forall_app. split; [|repeat constructor]. apply Forall_app. split; [assumption|repeat constructor]. }
    assert (Hall' : Forall (fun s => s = []) (segments x)) by (apply Forall_app in Hall; apply Hall).
    rewrite Hm, (expected_all_nil _ _ Hall'). cbn [check bind].
    assert (wf (Trajectory (segments x ++ [[]]) [])).
    { split; [apply chained_all_nil; exact Hall|]. cbn. rewrite expected_all_nil; auto. }
    rewrite checked_ok by assumption. eexists. split; [reflexivity|]. split; [assumption|]. cbn. destruct (segments x); discriminate.
  - apply rev_cons in Es.
    assert (W : wf (Trajectory (segments x ++ [[p]]) (insert (fst p) (length (segments x)) (left x)))).
    { split; cbn [segments left].
      - apply chained_glue; [assumption|split; [repeat constructor|split; exact I]|].
        intros l' p0 s0 E. rewrite Er in E. apply app_inj_tail in E. destruct E as [_ <-]. rewrite Es. apply last_snoc.
      - rewrite Hm, Er. destruct s as [|p0 s]; [symmetry in Es; apply app_eq_nil in Es; destruct Es; discriminate|].
        rewrite expected_snoc, !expected_snoc. cbn [Nat.add].
        rewrite Er in Hc. pose proof (multi_lt 0 _ _ _ _ Hc) as Hk.
        rewrite multi_app. cbn [Nat.add].
        destruct s as [|q0 s].
        + destruct (rev s') as [|? [|]]; cbn in Es; try discriminate. injection Es as ->.
          rewrite insert_app by assumption. rewrite insert_same. cbn [multi]. rewrite app_nil_r. reflexivity.
        + cbn [multi]. rewrite insert_last; [reflexivity|].
          assert (Hlt : fst p0 < fst p).
          { pose proof (chained_app _ _ Hc) as [_ Hs]. apply chained_head in Hs. pose proof (sorted_first_lt_last p0 q0 s p0 Hs) as G.
            rewrite Es, last_snoc in G. exact G. }
          apply Forall_app. split; [|repeat constructor; exact Hlt].
          eapply Forall_impl; [|exact Hk]. cbv beta. intros; lia. }
    rewrite checked_ok by assumption. eexists. split; [reflexivity|]. split; [assumption|]. cbn. destruct (segments x); discriminate.
Qed.

Theorem clear_wf x : segments x <> [] -> clear x = Done new.
Proof. unfold clear. destruct (segments x); [congruence|reflexivity]. Qed.

(** ** Append *)

Lemma segment_append_ok b p f s : sorted (f :: s) -> fst (last (f :: s) f) < fst p ->
  exists s', segment_Append b p (f :: s) = Done (f :: s') /\ sorted (f :: s') /\ last (f :: s') f = p.
Proof.
  intros Hs Hp. unfold segment_Append. pose proof (sorted_last_ge _ f f Hs (or_introl eq_refl)).
  destruct (Z.eqb_spec (fst f) (fst p)); [lia|]. destruct (Z.ltb_spec (fst (last (f :: s) f)) (fst p)); [|lia]. cbn [check bind].
  assert (Hadd : sorted ((f :: s) ++ [p])).
  { apply sorted_app. split; [assumption|]. split; [repeat constructor|]. intros x y Hx [<-|[]]. pose proof (sorted_last_ge _ f x Hs Hx). lia. }
  destruct ((1 <? length (f :: s))%nat && b) eqn:E.
  - apply andb_true_iff in E. destruct E as [E _]. apply Nat.ltb_lt in E. destruct s as [|g s]; [cbn in E; lia|].
    change (removelast (f :: g :: s)) with (f :: removelast (g :: s)). exists (removelast (g :: s) ++ [p]).
    split; [reflexivity|]. split; [|change (f :: removelast (g :: s) ++ [p]) with ((f :: removelast (g :: s)) ++ [p]); apply last_snoc].
    rewrite (snoc_last (g :: s) g) in Hadd at 1 by discriminate.
    change (f :: removelast (g :: s) ++ [p]) with ((f :: removelast (g :: s)) ++ [p]).
    change ((f :: removelast (g :: s) ++ [last (g :: s) g]) ++ [p]) with (((f :: removelast (g :: s)) ++ [last (g :: s) g]) ++ [p]) in Hadd.
    rewrite <- app_assoc in Hadd. apply sorted_app in Hadd. destruct Hadd as (H1 & H2 & H3). apply sorted_app.
    split; [assumption|]. split; [repeat constructor|]. intros x y Hx [<-|[]]. apply H3; [assumption|]. right. left. reflexivity.
  - exists (s ++ [p]). split; [reflexivity|]. split; [assumption|]. change (f :: s ++ [p]) with ((f :: s) ++ [p]). apply last_snoc.
Qed.

Lemma set_segment_mid l s s' r : set_segment (length l) s' (l ++ s :: r) = l ++ s' :: r.
Proof.
  unfold set_segment. rewrite firstn_app, firstn_all, Nat.sub_diag. cbn [firstn]. rewrite app_nil_r. f_equal. f_equal.
  replace (S (length l)) with (length (l ++ [s])) by (rewrite app_length; cbn; lia).
  replace (l ++ s :: r) with ((l ++ [s]) ++ r) by (rewrite <- app_assoc; reflexivity).
  rewrite skipn_app, skipn_all, Nat.sub_diag. reflexivity.
Qed.

(** A point after all those of the trajectory. *)
Definition after_all (p : point) (x : trajectory) : Prop := Forall (fun q => fst q < fst p) (concat (segments x)).

Theorem append_wf b p x : wf x -> segments x <> [] -> after_all p x ->
  exists y, Append b p x = Done y /\ wf y /\ segments y <> [].
Proof.
  intros [Hc Hm] Hne Ha. unfold Append. destruct (left x) as [|e m] eqn:El.
  - destruct (rev (segments x)) as [|s r] eqn:Er; [apply rev_nil in Er; congruence|]. apply rev_cons in Er.
    assert (Hall : Forall (fun s => s = []) (segments x)) by (apply (expected_nil 0); auto).
    rewrite Er in Hall. apply Forall_app in Hall. destruct Hall as [Hl Hs]. apply Forall_inv in Hs. subst s. cbn [segment_Append bind].
    assert (Hlen : (length (segments x) - 1)%nat = length (rev r)) by (rewrite Er, app_length; cbn; lia).
    rewrite Hlen, Er, set_segment_mid.
    assert (W : wf (Trajectory (rev r ++ [[p]]) (insert (fst p) (length (rev r)) []))).
    { split; cbn [segments left].
      - apply chained_glue; [apply chained_all_nil; assumption|split; [repeat constructor|split; exact I]|].
        intros l' p' s' E. rewrite E in Hl. apply Forall_app in Hl. destruct Hl as [_ Hl]. apply Forall_inv in Hl. discriminate.
      - rewrite expected_snoc, multi_all_nil by assumption. reflexivity. }
    rewrite checked_ok by assumption. eexists. split; [reflexivity|]. split; [assumption|]. cbn. destruct (rev r); discriminate.
  - rewrite <- El in *. unfold FindSegment.
    destruct (find_segment 0 (segments x) (fst p) Hc) as [[H1 H2]|(l1 & f & s & l2 & E & H1 & H2 & H3 & H4 & H5)].
    + exfalso. unfold after_all in Ha.
      assert (In (fst e) (map fst (expected 0 (segments x)))) as K by (rewrite <- Hm, El; left; reflexivity).
      apply expected_keys in K. destruct K as (q & K1 & K2). rewrite Forall_forall in Ha, H2. specialize (Ha q K1). specialize (H2 q K1). lia.
    + rewrite <- Hm in H1, H2. rewrite H1.
      assert (l2 = []).
      { destruct l2 as [|s2 l2]; [reflexivity|]. exfalso. rewrite E in Hc. apply chained_app in Hc. destruct Hc as [_ Hc].
        destruct (chained_not_nil _ _ _ _ Hc) as (q & s2' & -> & _). unfold after_all in Ha. rewrite E, concat_app in Ha. cbn [concat] in Ha.
        apply Forall_app in Ha. destruct Ha as [_ Ha]. apply Forall_app in Ha. destruct Ha as [_ Ha]. inversion Ha; subst. inversion H4; subst. lia. }
      subst l2. cbn [Nat.add] in H2. unfold map_at. rewrite H2, nth_error_mid. cbn [defined bind].
      unfold segment_at. rewrite E, nth_error_mid. cbn [defined bind is_empty negb check].
      rewrite E in Hc.
      assert (Hs : sorted (f :: s)) by (apply chained_app in Hc; destruct Hc as [_ Hc]; exact (chained_head _ _ Hc)).
      destruct (segment_append_ok b p f s Hs) as (s' & A1 & A2 & A3).
      { unfold after_all in Ha. rewrite E, concat_app in Ha. apply Forall_app in Ha. destruct Ha as [_ Ha]. cbn [concat] in Ha. rewrite app_nil_r in Ha.
        rewrite Forall_forall in Ha. apply Ha. apply in_last. discriminate. }
      rewrite A1. cbn [bind]. rewrite set_segment_mid, <- H2.
      assert (W : wf (Trajectory (l1 ++ [f :: s']) (left x))).
      { split; cbn [segments left]; [exact (chained_replace l1 f s s' Hc A2)|]. rewrite Hm, E, !expected_snoc. reflexivity. }
      rewrite checked_ok by assumption. eexists. split; [reflexivity|]. split; [assumption|]. cbn. destruct l1; discriminate.
Qed.

(** ** ForgetBefore *)

Lemma filter_keep_all t s : Forall (fun q => t <= fst q) s -> filter (keep_after t) s = s.
Proof. intros H. apply filter_all. eapply Forall_impl; [|exact H]. intros q Hq. unfold keep_after. cbv beta in Hq. lia. Qed.
Lemma filter_keep_none t s : Forall (fun q => fst q < t) s -> filter (keep_after t) s = [].
Proof. intros H. apply filter_none. eapply Forall_impl; [|exact H]. intros q Hq. unfold keep_after. cbv beta in Hq. lia. Qed.

Lemma filter_last {A} (f : A -> bool) s d : s <> [] -> f (last s d) = true -> filter f s <> [] /\ last (filter f s) d = last s d.
Proof.
  intros H Hf. assert (E : exists l x, s = l ++ [x]) by (exists (removelast s), (last s d); apply snoc_last; assumption). destruct E as (l & x & ->).
  rewrite last_snoc in Hf |- *. rewrite filter_app. cbn [filter]. rewrite Hf.
  split; [intros E; apply app_eq_nil in E; destruct E; discriminate|]. apply last_snoc.
Qed.

Lemma chained_forget_before t segs : chained segs -> chained (map (filter (keep_after t)) segs).
Proof.
  induction segs as [|s r IH]; intros H; [exact I|]. cbn [map]. split; [apply sorted_filter; exact (chained_head _ _ H)|].
  split; [|exact (IH (chained_tail _ _ H))].
  destruct (filter (keep_after t) s) as [|p' s'] eqn:E; [exact I|]. destruct r as [|s2 r]; [exact I|]. cbn [map].
  destruct s as [|p s]; [discriminate|]. destruct (chained_not_nil _ _ _ _ H) as (q & s2' & -> & Hq).
  assert (Hk : keep_after t (last (p :: s) p) = true).
  { assert (Hin : In p' (p :: s)) by (apply (proj1 (filter_In (keep_after t) p' (p :: s))); rewrite E; left; reflexivity).
    assert (Hp' : keep_after t p' = true) by (apply (proj1 (filter_In (keep_after t) p' (p :: s))); rewrite E; left; reflexivity).
    pose proof (sorted_last_ge (p :: s) p p' (chained_head _ _ H) Hin). unfold keep_after in *. lia. }
  destruct (filter_last (keep_after t) (p :: s) p) as [_ Hl]; [discriminate|assumption|].
  pose proof Hk as Hk'. rewrite Hq in Hk'. cbn [filter]. rewrite Hk'.
  rewrite <- Hq, <- Hl, E. apply last_indep. discriminate.
Qed.

Lemma segment_nth x i s : nth_error (segments x) i = Some s -> segment_at x i = Done s.
Proof. intros H. unfold segment_at. rewrite H. reflexivity. Qed.

Lemma firstn_mid {A} (l : list A) r : firstn (length l) (l ++ r) = l.
Proof. rewrite firstn_app, firstn_all, Nat.sub_diag. cbn [firstn]. apply app_nil_r. Qed.
Lemma skipn_mid {A} (l : list A) r : skipn (length l) (l ++ r) = r.
Proof. rewrite skipn_app, skipn_all, Nat.sub_diag. reflexivity. Qed.
Lemma skipn_mid_S {A} (l : list A) x r : skipn (S (length l)) (l ++ x :: r) = r.
Proof. replace (S (length l)) with (length (l ++ [x])) by (rewrite app_length; cbn; lia). replace (l ++ x :: r) with ((l ++ [x]) ++ r) by (rewrite <- app_assoc; reflexivity). apply skipn_mid. Qed.

Lemma map_filter_all t l : Forall (fun q => t <= fst q) (concat l) -> map (filter (keep_after t)) l = l.
Proof.
  induction l as [|s l IH]; intros H; [reflexivity|]. cbn [concat] in H. apply Forall_app in H. destruct H. cbn [map]. rewrite IH by assumption.
  rewrite filter_keep_all by assumption. reflexivity.
Qed.
Lemma chained_sorted segs s : chained segs -> In s segs -> sorted s.
Proof. induction segs as [|s0 r IH]; intros H Hin; [destruct Hin|]. destruct Hin as [->|Hin]; [exact (chained_head _ _ H)|exact (IH (chained_tail _ _ H) Hin)]. Qed.
Lemma map_forget_before t l : (forall s, In s l -> sorted s) -> map (segment_ForgetBefore t) l = map (filter (keep_after t)) l.
Proof. intros H. apply map_ext_in. intros s Hs. apply forget_before_filter. auto. Qed.

(** At most one point of a sorted timeline is both at or before [t] and at or after [t]. *)
Lemma filter_at_most_one t s : sorted s -> Forall (fun q => fst q <= t) s -> (length (filter (keep_after t) s) <= 1)%nat.
Proof.
  intros Hs H. destruct (filter (keep_after t) s) as [|a [|b l]] eqn:E; cbn; try lia. exfalso.
  assert (Ha : In a s /\ keep_after t a = true) by (apply filter_In; rewrite E; left; reflexivity).
  assert (Hb : In b s /\ keep_after t b = true) by (apply filter_In; rewrite E; right; left; reflexivity).
  pose proof (sorted_filter (keep_after t) s Hs) as G. rewrite E in G. apply sorted_inv in G. destruct G as [_ G]. inversion G; subst.
  rewrite Forall_forall in H. destruct Ha as [Ha1 Ha2]. destruct Hb as [Hb1 Hb2]. apply H in Ha1. apply H in Hb1. unfold keep_after, earlier in *. lia.
Qed.
Lemma multi_short i l : Forall (fun s : timeline => (length s <= 1)%nat) l -> multi i l = [].
Proof. intros H. revert i. induction H as [|s l Hs _ IH]; intros i; [reflexivity|]. destruct s as [|p [|q s]]; cbn [multi]; [apply IH|apply IH|cbn in Hs; lia]. Qed.

(** The condition under which ForgetBefore breaks the map: [t] falls between the last two points of a segment that is
    followed by another one. *)
Definition between_last_two (t : time) (segs : list timeline) : Prop :=
  exists l1 s a b s2 l2, segs = l1 ++ (s ++ [a; b]) :: s2 :: l2 /\ fst a < t /\ t < fst b.

Theorem forget_before_wf t x : wf x -> segments x <> [] -> ~ between_last_two t (segments x) ->
  exists y, ForgetBefore t x = Done y /\ wf y /\ segments y = map (filter (keep_after t)) (segments x).
Proof.
  intros [Hc Hm] Hne Hb. unfold ForgetBefore, FindSegment. 
  destruct (find_segment 0 (segments x) t Hc) as [[H1 H2]|(l1 & f & s & l2 & E & H1 & H2 & H3 & H4 & H5)].
  - rewrite Hm, H1. exists x. split; [reflexivity|]. split; [split; assumption|]. symmetry. apply map_filter_all.
    eapply Forall_impl; [|exact H2]. cbv beta. intros; lia.
  - rewrite <- Hm in H1, H2. rewrite H1. cbn [Nat.add] in H2. unfold map_at. rewrite H2, nth_error_mid. cbn [defined bind].
    unfold segment_at. rewrite E, nth_error_mid. cbn [defined bind].
    rewrite firstn_mid, !skipn_mid_S.
    pose proof Hc as Hc'. rewrite E in Hc'.
    assert (Hs : sorted (f :: s)) by (apply chained_app in Hc'; destruct Hc' as [_ Hc']; exact (chained_head _ _ Hc')).
    rewrite map_forget_before by (intros s' Hs'; apply (chained_sorted (segments x)); [assumption|rewrite E; apply in_or_app; left; assumption]).
    rewrite forget_before_filter by assumption.
    assert (Hl2 : map (filter (keep_after t)) l2 = l2) by (apply map_filter_all; eapply Forall_impl; [|exact H4]; cbv beta; intros; lia).
    assert (Hsegs : map (filter (keep_after t)) l1 ++ filter (keep_after t) (f :: s) :: l2 = map (filter (keep_after t)) (segments x)).
    { rewrite E, map_app. cbn [map]. rewrite Hl2. reflexivity. }
    rewrite Hsegs. rewrite <- E.
    match goal with |- exists y, checked ?z = _ /\ _ => assert (W : wf z) end.
    { split; cbn [segments left]; [apply chained_forget_before; assumption|]. rewrite <- Hsegs.
      pose proof (chained_before _ _ _ _ Hc') as Hbef.
      assert (Hshort : Forall (fun s : timeline => (length s <= 1)%nat) (map (filter (keep_after t)) l1)).
      { apply Forall_forall. intros s' Hs'. apply in_map_iff in Hs'. destruct Hs' as (s0 & <- & Hs0). apply filter_at_most_one.
        - apply (chained_sorted (segments x)); [assumption|]. rewrite E. apply in_or_app. left. assumption.
        - apply Forall_forall. intros q Hq. rewrite Forall_forall in Hbef. assert (fst q <= fst f) by (apply Hbef; apply in_concat; eauto). lia. }
      rewrite expected_app by discriminate. rewrite multi_short by assumption. cbn [app]. rewrite map_length. cbn [Nat.add].
      destruct (filter (keep_after t) (f :: s)) as [|q s'] eqn:Ef; [reflexivity|].
      destruct l2 as [|s2 l2].
      { rewrite expected_cons_last. reflexivity. }
      destruct s' as [|q' s'].
      - (* the excluded case, or t is the first point *)
        exfalso. destruct H5 as [H5|H5]; [discriminate|]. apply Hb.
        set (b := last s f). set (a := last (removelast (f :: s)) f).
        assert (Hrl : removelast (f :: s) <> []) by (destruct s; [congruence|discriminate]).
        assert (Hfs : f :: s = removelast (removelast (f :: s)) ++ [a; b]).
        { rewrite (snoc_last (f :: s) f) at 1 by discriminate. rewrite (snoc_last (removelast (f :: s)) f) at 1 by assumption.
          rewrite <- app_assoc. cbn [app]. unfold a, b. destruct s; [congruence|]. reflexivity. }
        exists l1, (removelast (removelast (f :: s))), a, b, s2, l2. rewrite <- Hfs. split; [exact E|].
        rewrite Hfs in Ef. rewrite filter_app in Ef. cbn [filter] in Ef.
        assert (Hbt : t < fst b).
        { apply chained_app in Hc'. destruct Hc' as [_ Hc']. destruct (chained_not_nil _ _ _ _ Hc') as (r & s2' & -> & Hr).
          cbn [concat] in H4. inversion H4; subst. unfold b. destruct s; [congruence|]. rewrite <- (last_cons f p f f). assumption. }
        split; [|assumption]. destruct (keep_after t a) eqn:Ea; [|unfold keep_after in Ea; lia]. exfalso.
        assert (Ebt : keep_after t b = true) by (unfold keep_after; lia). rewrite Ebt in Ef.
        destruct (filter (keep_after t) (removelast (removelast (f :: s)))) as [|? [|]]; discriminate.
      - rewrite expected_cons_multi. apply insert_gt.
        assert (Hq : fst q < fst (last (f :: s) f)).
        { pose proof (sorted_filter (keep_after t) _ Hs) as Hf. rewrite Ef in Hf. pose proof (sorted_first_lt_last q q' s' q Hf) as G.
          rewrite <- Ef in G.
          assert (Hin : In (last (filter (keep_after t) (f :: s)) q) (f :: s)) by (apply (proj1 (filter_In (keep_after t) _ (f :: s))); apply in_last; rewrite Ef; discriminate).
          pose proof (sorted_last_ge (f :: s) f _ Hs Hin). lia. }
        apply (expected_ge (S (length l1)) (s2 :: l2) (fun t' => fst q < t')). apply chained_app in Hc'. destruct Hc' as [_ Hc'].
        eapply Forall_impl; [|exact (chained_after _ _ _ Hc')]. cbv beta. intros; lia. }
    rewrite checked_ok by exact W. eexists. split; [reflexivity|]. split; [exact W|]. reflexivity.
Qed.

(** ** ForgetAfter *)

(** The part of a chain that starts with [l1], before the 1-point segments at [t] that end [l1]. *)
Lemma one_point_spec l r t :
  exists l1 l2, l = l1 ++ l2 /\ one_point_segments (l ++ r) t (length l) = length l1 /\
    Forall (fun s : timeline => exists p s', s = p :: s' /\ fst p = t) l2 /\
    (l1 = [] \/ exists l0 s, l1 = l0 ++ [s] /\ forall p s', s = p :: s' -> fst p <> t).
Proof.
  revert r. induction l as [|s l IH] using rev_ind; intros r.
  - exists [], []. repeat split; auto.
  - rewrite app_length. cbn [length]. rewrite Nat.add_1_r. cbn [one_point_segments]. rewrite <- app_assoc. cbn [app]. rewrite nth_error_mid.
    assert (Stop : (forall p s', s = p :: s' -> fst p <> t) -> exists l1 l2, l ++ [s] = l1 ++ l2 /\ S (length l) = length l1 /\
      Forall (fun s : timeline => exists p s', s = p :: s' /\ fst p = t) l2 /\
      (l1 = [] \/ exists l0 s, l1 = l0 ++ [s] /\ forall p s', s = p :: s' -> fst p <> t)).
    { intros H. exists (l ++ [s]), []. rewrite app_nil_r, app_length. cbn [length]. repeat split; [lia|constructor|]. right. eauto. }
    destruct s as [|p s]; [apply Stop; discriminate|]. destruct (Z.eqb_spec (fst p) t) as [Ht|Ht]; [|apply Stop; intros ? ? E; injection E as -> ->; assumption].
    destruct (IH ((p :: s) :: r)) as (l1 & l2 & -> & G1 & G2 & G3). exists l1, (l2 ++ [p :: s]). rewrite G1, <- app_assoc.
    repeat split; [|assumption]. apply Forall_app. split; [assumption|]. repeat constructor. eauto.
Qed.


(** Segments all starting at [t] and followed by one starting at [t] have one point. *)
Lemma one_point_all t l p s r : chained (l ++ (p :: s) :: r) -> fst p = t ->
  Forall (fun s : timeline => exists p s', s = p :: s' /\ fst p = t) l -> Forall (fun s => s = [p]) l.
Proof.
  intros Hc Hp H. induction l as [|s0 l IH]; [constructor|]. apply Forall_cons_iff in H. destruct H as [(q & s' & -> & Hq) H].
  pose proof (IH (chained_tail _ _ Hc) H) as G. constructor; [|assumption].
  assert (E : last (q :: s') q = p).
  { destruct l as [|s1 l]; [exact (chained_next _ _ _ _ _ Hc)|]. apply Forall_inv in G. subst s1. exact (chained_next _ _ _ _ _ Hc). }
  destruct s' as [|q' s']; [cbn in E; congruence|]. pose proof (sorted_first_lt_last q q' s' q (chained_head _ _ Hc)). rewrite E in H0. lia.
Qed.

Lemma forget_after_first t p s : sorted (p :: s) -> fst p < t -> exists s', segment_ForgetAfter t (p :: s) = p :: s' /\ sorted (p :: s').
Proof.
  intros Hs H. rewrite forget_after_filter by assumption. pose proof (sorted_filter (keep_before t) _ Hs) as G. cbn [filter] in *.
  replace (keep_before t p) with true in * by (symmetry; apply Z.ltb_lt; assumption). eauto.
Qed.

(** The segments left by ForgetAfter: [l1] those before the segment where t is found and before the 1-point segments
    at [t]. *)
Theorem forget_after_wf t x : wf x -> segments x <> [] ->
  exists y, ForgetAfter t x = Done y /\ wf y /\ segments y <> [] /\
    ((Forall (fun q => t < fst q) (concat (segments x)) /\ segments y = [[]]) \/
     exists l1 p s l2, segments x = l1 ++ (p :: s) :: l2 /\ Forall (fun q => t < fst q) (concat l2) /\
       ((fst p < t /\ segments y = l1 ++ [filter (keep_before t) (p :: s)]) \/
        (fst p = t /\ exists l1' k, l1 = l1' ++ repeat [p] k /\ (segments y = l1' \/ l1' = [] /\ segments y = [[]]) /\
           (l1' = [] \/ exists l0 s0, l1' = l0 ++ [s0] /\ (s0 = [] \/ exists a b c, s0 = a :: b :: c /\ last s0 a = p))))).
Proof.
  intros [Hc Hm] Hne. unfold ForgetAfter, FindSegment.
  destruct (find_segment 0 (segments x) t Hc) as [[H1 H2]|(l1 & f & s & l2 & E & H1 & H2 & H3 & H4 & H5)].
  - rewrite Hm, H1, clear_wf by assumption. exists new. split; [reflexivity|]. split; [apply wf_new|]. split; [discriminate|]. left. auto.
  - rewrite <- Hm in H1, H2. rewrite H1. cbn [Nat.add] in H2. unfold map_at. rewrite H2, nth_error_mid. cbn [defined bind]. rewrite <- H2.
    pose proof Hc as Hc'. rewrite E in Hc'.
    assert (Hs : sorted (f :: s)) by (apply chained_app in Hc'; destruct Hc' as [_ Hc']; exact (chained_head _ _ Hc')).
    rewrite E. destruct (one_point_spec l1 ((f :: s) :: l2) t) as (l1' & l1'' & El1 & G1 & G2 & G3). rewrite G1.
    pose proof (chained_before _ _ _ _ Hc') as Hbef.
    destruct (Z.eq_dec (fst f) t) as [Hft|Hft].
    + (* at the beginning of a segment *)
      assert (Hone : Forall (fun s => s = [f]) l1'').
      { rewrite El1, <- app_assoc in Hc'. apply chained_app in Hc'. destruct Hc' as [_ Hc']. exact (one_point_all t l1'' f s l2 Hc' Hft G2). }
      assert (Hrep : l1'' = repeat [f] (length l1'')).
      { clear - Hone. induction Hone; [reflexivity|]. cbn. congruence. }
      assert (Hnth : exists p s', nth_error (l1 ++ (f :: s) :: l2) (length l1') = Some (p :: s') /\ fst p = t /\ sorted (p :: s')).
      { rewrite El1, <- app_assoc. destruct l1'' as [|s1 l1'']; cbn [app]; rewrite nth_error_mid.
        - exists f, s. auto.
        - apply Forall_inv in Hone. subst s1. exists f, []. repeat split; [assumption|]. repeat constructor. }
      destruct Hnth as (p & s' & Hn1 & Hn2 & Hn3).
      unfold segment_at. rewrite E, Hn1. cbn [defined bind].
      assert (Hfa : segment_ForgetAfter t (p :: s') = []).
      { unfold segment_ForgetAfter. cbn [lower_bound]. destruct (Z.ltb_spec (fst p) t); [lia|]. reflexivity. }
      rewrite Hfa.
      assert (Hlast : l1' = [] \/ exists l0 s0, l1' = l0 ++ [s0] /\ (s0 = [] \/ exists a b c, s0 = a :: b :: c /\ last s0 a = f)).
      { destruct G3 as [G3|(l0 & s0 & El0 & G3)]; [left; assumption|]. right. exists l0, s0. split; [assumption|].
        destruct s0 as [|a s0]; [left; reflexivity|]. right.
        assert (La : last (a :: s0) a = f).
        { rewrite El1, El0, <- !app_assoc in Hc'. apply chained_app in Hc'. destruct Hc' as [_ Hc']. cbn [app] in Hc'.
          destruct l1'' as [|s1 l1'']; [exact (chained_next _ _ _ _ _ Hc')|]. apply Forall_inv in Hone. subst s1. exact (chained_next _ _ _ _ _ Hc'). }
        destruct s0 as [|b s0]; [|exists a, b, s0; auto]. cbn in La. exfalso. apply (G3 a [] eq_refl). congruence. }
      assert (Hmulti : multi 0 l1'' = [] /\ forall i, multi i l1'' = []).
      { assert (forall i, multi i l1'' = []) by (intros i; apply multi_short; eapply Forall_impl; [|exact Hone]; cbv beta; intros ? ->; cbn; lia). auto. }
      assert (Hmap : firstn (length (multi 0 l1)) (left x) = multi 0 l1').
      { rewrite H2, firstn_mid, El1, multi_app. destruct Hmulti as [_ ->]. apply app_nil_r. }
      rewrite Hmap.
      assert (Hchain : chained l1') by (rewrite El1, <- app_assoc in Hc'; apply chained_app in Hc'; apply Hc').
      assert (Hsegs : (match length l1' with O => [[]] | S _ => firstn (length l1') (l1 ++ (f :: s) :: l2) end) = match l1' with [] => [[]] | _ => l1' end).
      { destruct l1' as [|s1 l1']; [reflexivity|]. rewrite El1, <- app_assoc. apply (firstn_mid (s1 :: l1')). }
      rewrite Hsegs.
      match goal with |- exists y, checked ?z = _ /\ _ => assert (W : wf z) end.
      { destruct Hlast as [->|(l0 & s0 & -> & Hl0)]; [split; [cbn; repeat split; auto; constructor|reflexivity]|].
        assert (Hm' : multi 0 (l0 ++ [s0]) = expected 0 (l0 ++ [s0])).
        { destruct Hl0 as [->|(a & b & c & -> & _)].
          - pose proof (chained_nil_prefix _ _ Hchain) as Hn.
            assert (Forall (fun s : timeline => s = []) (l0 ++ [[]])) by (apply Forall_app; split; [assumption|repeat constructor]).
            rewrite multi_all_nil, expected_all_nil by assumption. reflexivity.
          - rewrite expected_snoc, multi_app. reflexivity. }
        destruct (l0 ++ [s0]) as [|s1 l1'] eqn:El; [destruct l0; discriminate|]. split; [exact Hchain|exact Hm']. }
      rewrite checked_ok by exact W. eexists. split; [reflexivity|]. split; [exact W|]. cbn [segments].
      split; [destruct l1'; discriminate|]. right. exists l1, f, s, l2. split; [reflexivity|]. split; [assumption|]. right. split; [assumption|].
      exists l1', (length l1''). split; [rewrite <- Hrep; assumption|]. split; [|assumption].
      destruct l1'; [right; auto|left; reflexivity].
    + (* inside a segment *)
      assert (Hlt : fst f < t) by lia.
      assert (l1'' = []).
      { destruct l1'' as [|s1 l1'']; [reflexivity|]. exfalso. apply Forall_inv in G2. destruct G2 as (p & s' & -> & Hp).
        rewrite El1, concat_app in Hbef. apply Forall_app in Hbef. destruct Hbef as [_ Hbef]. cbn [concat] in Hbef. inversion Hbef; subst. lia. }
      subst l1''. rewrite app_nil_r in El1. subst l1'.
      unfold segment_at. rewrite E, nth_error_mid. cbn [defined bind].
      destruct (forget_after_first t f s Hs Hlt) as (s' & F1 & F2). rewrite F1.
      rewrite firstn_mid.
      match goal with |- exists y, checked ?z = _ /\ _ => assert (W : wf z) end.
      { split; cbn [segments left].
        - apply (chained_replace l1 f s s'); [|assumption]. apply (chained_app (l1 ++ [f :: s]) l2). rewrite <- app_assoc. exact Hc'.
        - rewrite expected_snoc, H2. replace (S (length (multi 0 l1))) with (length (multi 0 l1 ++ [(fst f, length l1)])) by (rewrite app_length; cbn; lia).
          change ((fst f, length l1) :: expected (S (length l1)) l2) with ([(fst f, length l1)] ++ expected (S (length l1)) l2).
          rewrite app_assoc. apply firstn_mid. }
      rewrite checked_ok by exact W. eexists. split; [reflexivity|]. split; [exact W|]. cbn [segments].
      split; [destruct l1; discriminate|]. right. exists l1, f, s, l2. split; [reflexivity|]. split; [assumption|]. left. split; [assumption|].
      rewrite <- forget_after_filter, F1 by assumption. reflexivity.
Qed.

(** ** DeleteSegments *)

Lemma map_upper_bound_insert t i a b : key_lt t a -> Forall (fun e => t <= fst e) b -> StronglySorted (fun e e' => fst e < fst e') b ->
  firstn (map_upper_bound t (insert t i (a ++ b))) (insert t i (a ++ b)) = a ++ [(t, i)].
Proof.
  intros Ha Hb Hs. rewrite insert_app by assumption. rewrite map_upper_bound_app by (eapply Forall_impl; [|exact Ha]; cbv beta; intros; lia).
  rewrite firstn_app, firstn_all2 by lia. f_equal. rewrite Nat.add_comm, Nat.add_sub.
  assert (G : forall m, key_gt t m -> firstn (map_upper_bound t ((t, i) :: m)) ((t, i) :: m) = [(t, i)]).
  { intros m Hm. cbn [map_upper_bound]. rewrite Z.leb_refl, (map_upper_bound_gt t m Hm). reflexivity. }
  destruct b as [|[t' j] b]; [apply G; constructor|]. cbn [insert]. apply Forall_cons_iff in Hb. destruct Hb as [Hb1 Hb2]. cbn [fst] in Hb1.
  inversion Hs as [|? ? Hs1 Hs2]; subst. destruct (Z.ltb_spec t t').
  - apply G. constructor; [assumption|]. eapply Forall_impl; [|exact Hs2]. cbn. intros; lia.
  - destruct (Z.eqb_spec t t'); [|lia]. subst t'. apply G. exact Hs2.
Qed.

Lemma expected_sorted i segs : chained segs -> StronglySorted (fun e e' => fst e < fst e') (expected i segs).
Proof.
  revert i. induction segs as [|s r IH]; intros i H; [constructor|]. pose proof (IH (S i) (chained_tail _ _ H)) as G.
  destruct s as [|p [|q s]]; [exact G| |].
  - destruct r as [|s2 r]; [repeat constructor|exact G].
  - rewrite expected_cons_multi. constructor; [assumption|]. cbn [fst]. apply (expected_ge (S i) r (fun t => fst p < t)).
    pose proof (sorted_first_lt_last p q s p (chained_head _ _ H)). eapply Forall_impl; [|exact (chained_after _ _ _ H)]. cbv beta. intros; lia.
Qed.

Theorem delete_segments_wf x k : wf x -> (k <= length (segments x))%nat ->
  exists y, DeleteSegments x k = Done y /\ wf y /\ segments y = firstn k (segments x).
Proof.
  intros [Hc Hm] Hk. unfold DeleteSegments.
  assert (Hfirst : chained (firstn k (segments x))) by (rewrite <- (firstn_skipn k (segments x)) in Hc; apply chained_app in Hc; apply Hc).
  pose proof (firstn_length_le _ Hk) as Hlen.
  destruct (rev (firstn k (segments x))) as [|s r] eqn:Er.
  - apply rev_nil in Er. rewrite Er. assert (W : wf (Trajectory [] [])) by (split; [exact I|reflexivity]).
    rewrite checked_ok by exact W. eexists. split; [reflexivity|]. split; [exact W|reflexivity].
  - apply rev_cons in Er. destruct s as [|p s].
    + assert (W : wf (Trajectory (firstn k (segments x)) [])).
      { split; [exact Hfirst|]. cbn. symmetry. apply expected_all_nil. rewrite Er in *. pose proof (chained_nil_prefix _ _ Hfirst).
        apply Forall_app. split; [assumption|repeat constructor]. }
      rewrite checked_ok by exact W. eexists. split; [reflexivity|]. split; [exact W|reflexivity].
    + set (l := rev r) in *. clearbody l.
      assert (k = length l + 1)%nat by (rewrite Er, app_length in Hlen; cbn [length] in Hlen; lia).
      assert (Hsplit : segments x = l ++ (p :: s) :: skipn k (segments x)).
      { rewrite <- (firstn_skipn k (segments x)) at 1. rewrite Er, <- app_assoc. reflexivity. }
      rewrite Hsplit in Hc, Hm. rewrite expected_app in Hm by discriminate. cbn [Nat.add] in Hm.
      pose proof (multi_lt 0 _ _ _ _ Hc) as Hlt. apply chained_app in Hc. destruct Hc as [_ Hc].
      cbv zeta. rewrite Hm, map_upper_bound_insert; [|assumption| |apply expected_sorted; assumption].
      * match goal with |- exists y, checked ?z = _ /\ _ => assert (W : wf z) end.
        { split; cbn [segments left]; [assumption|]. rewrite Er, expected_snoc. cbn [Nat.add]. replace (k - 1)%nat with (length l) by lia. reflexivity. }
        rewrite checked_ok by exact W. eexists. split; [reflexivity|]. split; [exact W|reflexivity].
      * apply (expected_ge (length l) _ (fun u => fst p <= u)). apply chained_ge. assumption.
Qed.

(** ** DetachSegments and AttachSegments *)

Definition shift (k base : nat) (e : time * nat) : time * nat := (fst e, (snd e - k + base)%nat).

Lemma copy_entries_ok k base from to :
  Forall (fun e => (k <= snd e)%nat) from -> StronglySorted (fun e e' => fst e < fst e') from -> (forall e, In e from -> key_lt (fst e) to) ->
  copy_entries k base from to = Done (to ++ map (shift k base) from).
Proof.
  intros Hk. revert to. induction from as [|[t i] r IH]; intros to Hs Hlt; [cbn; rewrite app_nil_r; reflexivity|].
  apply Forall_cons_iff in Hk. destruct Hk as [Hk1 Hk2]. cbn [fst snd] in *. cbn [copy_entries].
  destruct (Nat.leb_spec k i); [|lia]. inversion Hs as [|? ? Hs1 Hs2]; subst.
  rewrite (insert_last t (i - k + base) to (Hlt (t, i) (or_introl eq_refl))). rewrite IH; [|assumption|assumption|].
  - rewrite <- app_assoc. reflexivity.
  - intros e He. apply Forall_app. split; [apply Hlt; right; assumption|]. repeat constructor. cbn. rewrite Forall_forall in Hs2. exact (Hs2 e He).
Qed.

Lemma shift_expected k base i segs : (k <= i)%nat -> map (shift k base) (expected i segs) = expected (i - k + base) segs.
Proof.
  revert i. induction segs as [|s r IH]; intros i H; [reflexivity|].
  pose proof (IH (S i) ltac:(lia)) as G. replace (S i - k + base)%nat with (S (i - k + base)) in G by lia.
  destruct s as [|p [|q s]]; [exact G| |].
  - destruct r; [reflexivity|exact G].
  - rewrite !expected_cons_multi. cbn [map]. rewrite G. reflexivity.
Qed.

Lemma expected_indices i segs : Forall (fun e => (i <= snd e)%nat) (expected i segs).
Proof. apply Forall_forall. intros [t j] H. exact (expected_index _ _ _ _ H). Qed.

Lemma first_point_spec l p : first_point l = Done p -> exists n s r, l = repeat [] n ++ (p :: s) :: r.
Proof.
  induction l as [|[|q s] l IH]; intros H; [discriminate| |].
  - destruct (IH H) as (n & s & r & ->). exists (S n), s, r. reflexivity.
  - injection H as ->. exists 0%nat, s, l. reflexivity.
Qed.

Lemma first_point_ok l : concat l <> [] -> exists p, first_point l = Done p.
Proof. induction l as [|[|q s] l IH]; intros H; [contradiction|exact (IH H)|eexists; reflexivity]. Qed.

(** If a is a prefix of the chain up to a given segment, the segments at the same time have one point. *)
Lemma same_time_short a b p s q s' r : chained (a ++ (p :: s) :: b ++ (q :: s') :: r) -> fst q <= fst p ->
  Forall (fun l : timeline => (length l <= 1)%nat) ((p :: s) :: b).
Proof.
  intros H Hqp. apply chained_app in H. destruct H as [_ H]. revert p s H Hqp. induction b as [|s1 b IH]; intros p s H Hqp.
  - constructor; [|constructor]. destruct s as [|p' s]; [cbn; lia|]. pose proof (chained_next _ _ _ _ _ H).
    pose proof (sorted_first_lt_last p p' s p (chained_head _ _ H)). rewrite H0 in H1. lia.
  - cbn [app] in H. destruct (chained_not_nil _ _ _ _ H) as (p1 & s1' & -> & Hl).
    pose proof (chained_ge _ _ _ (chained_tail _ _ H)) as G. rewrite Forall_forall in G.
    assert (fst p1 <= fst q) by (apply G; cbn; right; rewrite concat_app; apply in_or_app; right; apply in_or_app; right; left; reflexivity).
    destruct s as [|p' s].
    + cbn in Hl. subst p1. constructor; [cbn; lia|]. exact (IH _ _ (chained_tail _ _ H) Hqp).
    + pose proof (sorted_first_lt_last p p' s p (chained_head _ _ H)). rewrite Hl in H1. lia.
Qed.

Lemma splice_find segs k p : chained segs -> (k <= length segs)%nat -> first_point (skipn k segs) = Done p ->
  exists n, FindSegment (fst p) (expected 0 segs) = Some n /\ firstn n (expected 0 segs) = multi 0 (firstn k segs) /\
    skipn n (expected 0 segs) = expected k (skipn k segs).
Proof.
  intros Hc Hk Hp. destruct (first_point_spec _ _ Hp) as (n & s & r & E).
  assert (Es : segs = (firstn k segs ++ repeat [] n) ++ (p :: s) :: r) by (rewrite <- (firstn_skipn k segs) at 1; rewrite E, app_assoc; reflexivity).
  pose proof (firstn_length_le _ Hk) as Hlen. remember (firstn k segs) as a eqn:Ea. remember (skipn k segs) as c eqn:Ec. clear Ea Ec.
  destruct (find_segment 0 segs (fst p) Hc) as [[_ H2]|(l1 & q & s' & l2 & E2 & H1 & H2 & H3 & H4 & H5)].
  { exfalso. rewrite Forall_forall in H2. assert (In p (concat segs)) by (rewrite Es, concat_app; apply in_or_app; right; left; reflexivity).
    specialize (H2 _ H). lia. }
  unfold FindSegment. rewrite H1. exists (length (multi 0 l1)). cbn [Nat.add] in H2.
  split; [reflexivity|].
  (* the segment found is at or after that of [p] *)
  assert (Hb : (l1 = a ++ repeat [] n /\ q = p /\ s' = s /\ l2 = r) \/ exists b, l1 = (a ++ repeat [] n) ++ (p :: s) :: b /\ r = b ++ (q :: s') :: l2).
  { rewrite Es in E2. apply app_eq_app in E2. destruct E2 as (l & [[E2 E3]|[E2 E3]]).
    - destruct l as [|s0 l].
      + rewrite app_nil_r in E2. cbn in E3. left. injection E3 as -> -> ->. auto.
      + exfalso. cbn [app] in E3. injection E3 as _ E3. rewrite E3, concat_app in H4. apply Forall_app in H4. destruct H4 as [_ H4]. apply Forall_inv in H4. lia.
    - destruct l as [|s0 l].
      + rewrite app_nil_r in E2. cbn in E3. left. injection E3 as -> -> ->. auto.
      + right. exists l. cbn [app] in E3. injection E3 as <- ->. auto. }
  assert (Hm : forall i, multi i (repeat [] n) = []) by (intros i; apply multi_short, Forall_forall; intros x Hx; apply repeat_spec in Hx; subst; cbn; lia).
  rewrite H2, firstn_mid, skipn_mid.
  assert (He : expected k c = expected (k + n) ((p :: s) :: r)).
  { rewrite E, expected_app, Hm, repeat_length by discriminate. reflexivity. }
  destruct Hb as [(-> & -> & -> & ->)|(b & -> & ->)].
  - rewrite multi_app, Hm, app_nil_r. split; [reflexivity|]. rewrite He, app_length, repeat_length, Hlen.
    destruct H5 as [->|H5]; [rewrite expected_cons_last; reflexivity|]. destruct s; [contradiction|reflexivity].
  - rewrite Es in Hc. pose proof (same_time_short _ _ _ _ _ _ _ Hc H3) as Hs.
    rewrite multi_app, (multi_short _ _ Hs), app_nil_r, multi_app, Hm, app_nil_r. split; [reflexivity|].
    rewrite He. replace ((p :: s) :: b ++ (q :: s') :: l2) with (((p :: s) :: b) ++ (q :: s') :: l2) by reflexivity.
    rewrite expected_app, (multi_short _ _ Hs) by discriminate. cbn [app]. rewrite !app_length, repeat_length, Hlen. cbn [length].
    destruct H5 as [->|H5].
    + rewrite expected_cons_last. reflexivity.
    + destruct s' as [|q' s']; [contradiction|]. rewrite expected_cons_multi. reflexivity.
Qed.

(** ConsistencyStatus is not checked for the detached segments, but they are consistent. *)
Theorem detach_segments_wf x k : wf x -> (k <= length (segments x))%nat -> concat (skipn k (segments x)) <> [] ->
  exists y z, DetachSegments x k = Done (y, z) /\ wf y /\ wf z /\ segments y = firstn k (segments x) /\ segments z = skipn k (segments x).
Proof.
  intros [Hc Hm] Hk Hn. unfold DetachSegments, AdjustAfterSplicing, segment_front. cbn [segments left].
  destruct (first_point_ok _ Hn) as (p & Hp).
  destruct (Nat.ltb_spec 0 (length (skipn k (segments x)))) as [Hl|Hl]; [|destruct (skipn k (segments x)); [contradiction|cbn in Hl; lia]].
  cbn [skipn]. rewrite Hp. cbn [bind].
  destruct (splice_find _ k p Hc Hk Hp) as (n & F1 & F2 & F3). rewrite <- Hm in F1, F2, F3. rewrite F1, F2, F3.
  pose proof Hc as Hc'. rewrite <- (firstn_skipn k (segments x)) in Hc'. apply chained_app in Hc'. destruct Hc' as [Hc1 Hc2].
  rewrite copy_entries_ok; [|apply expected_indices|apply expected_sorted; assumption|constructor].
  cbn [bind app]. rewrite shift_expected by lia. rewrite Nat.sub_diag. cbn [Nat.add].
  match goal with |- exists y z, bind (checked ?u) _ = Done _ /\ _ => assert (W : wf u) end.
  { split; cbn [segments left]; [assumption|]. destruct (rev (firstn k (segments x))) as [|s r] eqn:Er.
    - apply rev_nil in Er. rewrite Er. reflexivity.
    - apply rev_cons in Er. rewrite Er in *. destruct s as [|q s].
      + pose proof (chained_nil_prefix _ _ Hc1) as Hnil.
        assert (Forall (fun s : timeline => s = []) (rev r ++ [[]])) by (apply Forall_app; split; [assumption|repeat constructor]).
        rewrite multi_all_nil, expected_all_nil by assumption. reflexivity.
      + rewrite expected_snoc, multi_app. cbn [Nat.add]. rewrite app_length. cbn [length]. rewrite Nat.add_sub.
        pose proof (multi_lt 0 _ _ _ _ Hc1) as Hlt.
        destruct s as [|q' s]; cbn [multi].
        * rewrite app_nil_r. apply insert_last. assumption.
        * rewrite insert_app by assumption. rewrite insert_same. reflexivity. }
  rewrite checked_ok by exact W. cbn [bind]. eexists _, _. split; [reflexivity|]. split; [exact W|]. cbn [segments left]. repeat split; auto.
Qed.

Lemma copy_onto base a t i from : key_lt t a -> Forall (fun e => t <= fst e) from -> StronglySorted (fun e e' => fst e < fst e') from ->
  copy_entries 0 base from (a ++ [(t, i)]) =
    Done (a ++ (match from with (t', _) :: _ => if t' =? t then [] else [(t, i)] | [] => [(t, i)] end) ++ map (shift 0 base) from).
Proof.
  intros Ha Hf Hs. destruct from as [|[t' j] r]; [cbn [copy_entries map]; rewrite app_nil_r; reflexivity|].
  apply Forall_cons_iff in Hf. destruct Hf as [Hf1 Hf2]. cbn [fst] in Hf1. inversion Hs as [|? ? Hs1 Hs2]; subst.
  rewrite Forall_forall in Hs2. cbn [fst] in Hs2.
  destruct (Z.eqb_spec t' t) as [->|Hne].
  - cbn [copy_entries]. cbn [Nat.leb]. rewrite insert_app, insert_same by assumption.
    rewrite copy_entries_ok; [| |assumption|].
    + rewrite <- app_assoc. reflexivity.
    + apply Forall_forall. intros; lia.
    + intros e He. specialize (Hs2 e He). apply Forall_app. split; [eapply Forall_impl; [|exact Ha]; cbv beta; intros; lia|]. repeat constructor. assumption.
  - rewrite copy_entries_ok; [rewrite <- app_assoc; reflexivity| |assumption|].
    + apply Forall_forall. intros; lia.
    + intros e He. assert (t < fst e) by (destruct He as [<-|He]; [cbn; lia|specialize (Hs2 e He); lia]).
      apply Forall_app. split; [eapply Forall_impl; [|exact Ha]; cbv beta; intros; lia|]. repeat constructor. assumption.
Qed.

(** What AttachSegments requires of the attached trajectory. *)
Definition attachable (x y : list timeline) : Prop :=
  (concat x = [] /\ concat y <> []) \/
  exists l f s r, y = (f :: s) :: r /\
    ((exists b, concat x = l ++ [b] /\ fst b = fst f /\ snd b = snd f) \/
     (exists b, concat x = l ++ [b] /\ fst b < fst f /\ (s <> [] \/ r = []))).

Definition attached (x y : list timeline) : list timeline :=
  match rev (concat x), y with
  | [], _ => y
  | b :: _, (f :: s) :: r => if fst b =? fst f then x ++ y else x ++ (b :: f :: s) :: r
  | _, _ => x ++ y
  end.

Lemma empty_spec x : wf x -> empty x = true <-> concat (segments x) = [].
Proof.
  intros [Hc Hm]. unfold empty. rewrite Hm. split; intros H.
  - destruct (expected 0 (segments x)) eqn:E; [|discriminate]. apply concat_all_nil. exact (expected_nil 0 _ Hc E).
  - assert (Forall (fun s : timeline => s = []) (segments x)).
    { apply Forall_forall. intros s Hs. destruct s as [|p s]; [reflexivity|]. exfalso. apply in_split in Hs. destruct Hs as (a & b & Hs).
      rewrite Hs, concat_app in H. destruct (concat a); discriminate. }
    rewrite expected_all_nil by assumption. reflexivity.
Qed.

(** In a chain that is not empty the last segment is not. *)
Lemma chained_last segs b l : chained segs -> concat segs = l ++ [b] -> exists segs' s, segs = segs' ++ [s ++ [b]].
Proof.
  intros Hc H. destruct segs as [|s0 segs] using rev_ind; [destruct l; discriminate|]. clear IHsegs.
  destruct s0 as [|p s0] using rev_ind.
  - exfalso. pose proof (chained_nil_prefix _ _ Hc). rewrite concat_app, concat_all_nil in H by assumption. destruct l; discriminate.
  - clear IHs0. exists segs, s0. rewrite concat_app in H. cbn in H. rewrite app_nil_r, app_assoc in H. apply app_inj_tail in H. destruct H as [_ ->]. reflexivity.
Qed.

Lemma trajectory_back_ok x l b : wf x -> concat (segments x) = l ++ [b] -> trajectory_back x = Done b.
Proof.
  intros [Hc _] H. destruct (chained_last _ _ _ Hc H) as (segs' & s & E). unfold trajectory_back. rewrite E, rev_app_distr. cbn [rev app].
  rewrite rev_app_distr. reflexivity.
Qed.

Lemma trajectory_front_ok x f s r : wf x -> segments x = (f :: s) :: r -> trajectory_front x = Done f.
Proof.
  intros [Hc Hm] E. unfold trajectory_front, map_at, segment_at. rewrite Hm, E. rewrite E in Hc. clear Hm E.
  assert (G : forall r f s pre, chained ((f :: s) :: r) -> exists m i s', expected (length pre) ((f :: s) :: r) = (fst f, i) :: m /\ nth_error (pre ++ (f :: s) :: r) i = Some (f :: s')).
  { clear. induction r as [|s2 r IH]; intros f s pre Hc.
    - exists [], (length pre), s. rewrite expected_cons_last, nth_error_mid. auto.
    - destruct s as [|q s].
      + destruct (chained_not_nil _ _ _ _ Hc) as (q & s2' & -> & Hl). cbn in Hl. subst q.
        destruct (IH f s2' (pre ++ [[f]]) (chained_tail _ _ Hc)) as (m & i & s' & E1 & E2).
        rewrite app_length, Nat.add_1_r in E1. rewrite <- app_assoc in E2. exists m, i, s'. rewrite expected_cons_one. auto.
      + eexists _, (length pre), (q :: s). rewrite expected_cons_multi, nth_error_mid. auto. }
  destruct (G r f s [] Hc) as (m & i & s' & E1 & E2). cbn [length app] in *. rewrite E1. cbn [nth_error defined bind snd]. rewrite E2. reflexivity.
Qed.

(** Splicing [y] after [x]. *)
Lemma splice_wf x y l b f s r : wf x -> wf y -> concat (segments x) = l ++ [b] -> segments y = (f :: s) :: r -> b = f ->
  exists z, AdjustAfterSplicing (Trajectory [] (left y)) (Trajectory (segments x ++ segments y) (left x)) 0 (length (segments x)) = Done (Trajectory [] [], z) /\
    wf z /\ segments z = segments x ++ segments y.
Proof.
  intros [Hcx Hmx] [Hcy Hmy] Hl Hy <-. destruct (chained_last _ _ _ Hcx Hl) as (lx & sx & Ex).
  unfold AdjustAfterSplicing, segment_front. cbn [segments left]. rewrite skipn_mid.
  destruct (Nat.ltb_spec (length (segments x)) (length (segments x ++ segments y))) as [_|Hlt];
    [|exfalso; rewrite app_length, Hy in Hlt; cbn [length] in Hlt; lia].
  assert (Hfp : first_point (segments y) = Done b) by (rewrite Hy; reflexivity).
  rewrite Hfp. cbn [bind].
  destruct (splice_find (segments y) 0 b Hcy ltac:(lia) Hfp) as (n & F1 & F2 & F3). cbn [firstn skipn multi] in F2, F3.
  rewrite <- Hmy in F1, F2, F3. rewrite F1, F2, F3, Hmy.
  destruct (sx ++ [b]) as [|p sx'] eqn:Esx; [destruct sx; discriminate|].
  assert (Hlast : last (p :: sx') p = b) by (rewrite <- Esx; apply last_snoc).
  assert (Hpb : fst p <= fst b).
  { rewrite <- Hlast. apply sorted_last_ge; [|left; reflexivity]. apply chained_sorted with (segs := segments x); [assumption|]. rewrite Ex. apply in_or_app. right. left. reflexivity. }
  rewrite Hmx, Ex, expected_snoc. cbn [Nat.add].
  rewrite copy_onto; [|rewrite Ex in Hcx; exact (multi_lt 0 _ _ _ _ Hcx)| |apply expected_sorted; assumption].
  2: { apply (expected_ge 0 _ (fun u => fst p <= u)). rewrite Hy. rewrite Hy in Hcy. eapply Forall_impl; [|exact (chained_ge _ _ _ Hcy)]. cbv beta. intros; lia. }
  cbn [bind segments rev]. eexists. split; [reflexivity|]. cbn [segments]. split; [|reflexivity].
  split; cbn [segments left].
  - rewrite <- Ex. apply chained_glue; [assumption|assumption|]. intros l' p' s' E. rewrite Hy. rewrite Ex in E. apply app_inj_tail in E.
    destruct E as [_ E]. injection E as <- <-. exact Hlast.
  - rewrite shift_expected by lia. rewrite expected_app, multi_app by (rewrite Hy; discriminate). cbn [Nat.add]. rewrite Nat.sub_diag.
    rewrite <- app_assoc. f_equal. f_equal.
    assert (Hhd : exists j m, expected 0 (segments y) = (fst b, j) :: m).
    { assert (W : wf y) by (split; assumption). pose proof (trajectory_front_ok y b s r W Hy) as G. unfold trajectory_front, map_at in G.
      rewrite Hmy in G. destruct (expected 0 (segments y)) as [|[u j] m] eqn:E; [discriminate|]. cbn [nth_error defined bind snd] in G.
      destruct (expected_entry 0 [] (segments y) u j eq_refl) as (p' & s' & E1 & E2); [rewrite E; left; reflexivity|].
      cbn [app] in E1. unfold segment_at in G. rewrite E1 in G. cbn in G. injection G as ->. subst u. eauto. }
    destruct Hhd as (j & m & ->). destruct sx' as [|p2 sx'].
    + cbn in Hlast. subst p. rewrite Z.eqb_refl. reflexivity.
    + destruct (Z.eqb_spec (fst b) (fst p)) as [E|_]; [|reflexivity]. exfalso.
      assert (sorted (p :: p2 :: sx')) by (apply chained_sorted with (segs := segments x); [assumption|]; rewrite Ex; apply in_or_app; right; left; reflexivity).
      pose proof (sorted_first_lt_last p p2 sx' p H). rewrite Hlast in H0. lia.
Qed.

Theorem attach_wf x y : wf x -> wf y -> attachable (segments x) (segments y) ->
  exists z, AttachSegments x y = Done z /\ wf z /\ segments z = attached (segments x) (segments y).
Proof.
  intros Wx Wy H. unfold AttachSegments, attached.
  assert (Hye : concat (segments y) <> []) by (destruct H as [[_ H]|(l & f & s & r & -> & _)]; [assumption|discriminate]).
  destruct (empty y) eqn:Ey; [apply empty_spec in Ey; [contradiction|assumption]|]. cbn [negb check bind].
  destruct H as [[Hx _]|(l & f & s & r & Hy & H)].
  - rewrite Hx. cbn [rev]. destruct (empty x) eqn:Ex; [|apply (empty_spec _ Wx) in Hx; congruence]. cbn [bind segments left app length].
    destruct Wy as [Hc Hm]. destruct (first_point_ok _ Hye) as (p & Hp).
    unfold AdjustAfterSplicing, segment_front. cbn [segments left skipn].
    destruct (Nat.ltb_spec 0 (length (segments y))) as [_|Hl]; [|destruct (segments y); [contradiction|cbn in Hl; lia]].
    rewrite Hp. cbn [bind]. destruct (splice_find (segments y) 0 p Hc ltac:(lia) Hp) as (n & F1 & F2 & F3). cbn [firstn skipn multi] in F2, F3.
    rewrite <- Hm in F1, F2, F3. rewrite F1, F2, F3, Hm.
    rewrite copy_entries_ok; [|apply expected_indices|apply expected_sorted; assumption|constructor]. cbn [bind app].
    rewrite shift_expected by lia. cbn [Nat.sub Nat.add].
    assert (W : wf (Trajectory (segments y) (expected 0 (segments y)))) by (split; [assumption|reflexivity]).
    rewrite checked_ok by exact W. eexists. split; [reflexivity|]. split; [exact W|reflexivity].
  - assert (exists b, concat (segments x) = l ++ [b] /\ (fst b = fst f /\ snd b = snd f \/ fst b < fst f /\ (s <> [] \/ r = []))).
    { destruct H as [(b & H1 & H2)|(b & H1 & H2)]; exists b; auto. }
    clear H. destruct H0 as (b & Hl & H).
    assert (Ex : empty x = false).
    { destruct (empty x) eqn:E; [|reflexivity]. apply (empty_spec _ Wx) in E. rewrite E in Hl. destruct l; discriminate. }
    rewrite Ex, (trajectory_back_ok x l b Wx Hl), (trajectory_front_ok y f s r Wy Hy). cbn [bind].
    rewrite Hl, rev_app_distr. cbn [rev app]. rewrite Hy.
    destruct (Z.eqb_spec (fst b) (fst f)) as [E|Hne].
    + destruct H as [[_ H]|[H _]]; [|lia]. rewrite (proj2 (Z.eqb_eq _ _) H). cbn [check bind]. rewrite <- Hy.
      destruct (splice_wf x y l b f s r Wx Wy Hl Hy) as (z & Z1 & Z2 & Z3); [destruct b, f; cbn in *; congruence|].
      rewrite Z1. cbn [bind]. rewrite checked_ok by assumption. exists z. auto.
    + destruct H as [[H _]|[H H']]; [contradiction|]. destruct (Z.ltb_spec (fst b) (fst f)) as [_|?]; [|lia]. cbn [check bind].
      destruct Wy as [Hc Hm]. rewrite Hy in Hc, Hm.
      assert (Hm' : expected 0 ((f :: s) :: r) = (fst f, 0%nat) :: expected 1 r).
      { destruct H' as [H'| ->]; [destruct s; [contradiction|reflexivity]|rewrite expected_cons_last; reflexivity]. }
      rewrite Hm, Hm'.
      assert (Hpre : segment_Prepend b (f :: s) = Done (b :: f :: s)).
      { unfold segment_Prepend. rewrite (proj2 (Z.ltb_lt _ _) H). reflexivity. }
      rewrite Hpre. cbn [bind].
      assert (Hgt : key_gt (fst b) (expected 1 r)).
      { apply (expected_ge 1 r (fun u => fst b < u)). pose proof (chained_ge _ _ _ Hc) as G. cbn [concat] in G. apply Forall_app in G. destruct G as [_ G].
        eapply Forall_impl; [|exact G]. cbv beta. intros; lia. }
      rewrite insert_gt by assumption.
      set (y' := Trajectory ((b :: f :: s) :: r) ((fst b, 0%nat) :: expected 1 r)).
      assert (Wy' : wf y').
      { split; [|reflexivity]. unfold y'. cbn [segments]. pose proof (chained_head _ _ Hc) as Hs.
        assert (sorted (b :: f :: s)).
        { constructor; [assumption|]. apply Forall_forall. intros q Hq. pose proof (sorted_first_le f s q Hs Hq). unfold earlier. lia. }
        pose proof (chained_tail _ _ Hc) as Ht. destruct r as [|s2 r]; [split; [assumption|]; split; exact I|].
        destruct (chained_not_nil _ _ _ _ Hc) as (q & s2' & -> & Hq). split; [assumption|]. split; [|assumption].
        rewrite (last_cons b f b f). exact Hq. }
      destruct (splice_wf x y' l b b (f :: s) r Wx Wy' Hl eq_refl eq_refl) as (z & Z1 & Z2 & Z3).
      change (left y') with ((fst b, 0%nat) :: expected 1 r) in Z1. change (segments y') with ((b :: f :: s) :: r) in Z1, Z3.
      unfold y'. cbn [segments left]. rewrite Z1. cbn [bind]. rewrite checked_ok by assumption. exists z. auto.
Qed.

(** ** The time-to-segment map as a function *)

Definition starts (t : time) (s : timeline) : bool := match s with [] => false | p :: _ => fst p =? t end.

(** The position of the last segment that starts at [t]. *)
Fixpoint last_start (i : nat) (t : time) (segs : list timeline) : option nat :=
  match segs with
  | [] => None
  | s :: r => match last_start (S i) t r with Some j => Some j | None => if starts t s then Some i else None end
  end.

Definition sorted_map (m : endpoint_map) : Prop := StronglySorted (fun e e' => fst e < fst e') m.

Lemma map_find_gt t m : key_gt t m -> map_find t m = None.
Proof.
  induction m as [|[u i] m IH]; intros H; [reflexivity|]. apply Forall_cons_iff in H. destruct H as [H1 H2]. cbn [fst map_find] in *.
  destruct (Z.eqb_spec t u); [lia|auto].
Qed.

Lemma map_find_insert t u i m : map_find t (insert u i m) = if t =? u then Some i else map_find t m.
Proof.
  induction m as [|[v j] m IH]; cbn [insert map_find]; [reflexivity|].
  destruct (Z.ltb_spec u v).
  - cbn [map_find]. destruct (Z.eqb_spec t u); reflexivity.
  - destruct (Z.eqb_spec u v).
    + subst v. cbn [map_find]. destruct (Z.eqb_spec t u); reflexivity.
    + cbn [map_find]. rewrite IH. destruct (Z.eqb_spec t u); destruct (Z.eqb_spec t v); congruence || reflexivity.
Qed.

Lemma insert_key_gt u t i m : u < t -> key_gt u m -> key_gt u (insert t i m).
Proof.
  intros H. induction m as [|[v j] m IH]; intros G; [repeat constructor; assumption|]. apply Forall_cons_iff in G. destruct G as [G1 G2]. cbn [fst insert] in *.
  destruct (t <? v); [repeat (constructor; [assumption|]); assumption|]. destruct (t =? v); [constructor; assumption|]. constructor; [assumption|]. apply IH. assumption.
Qed.

Lemma insert_sorted t i m : sorted_map m -> sorted_map (insert t i m).
Proof.
  induction m as [|[v j] m IH]; intros H; [repeat constructor|]. inversion H as [|? ? H1 H2]; subst. cbn [insert].
  destruct (Z.ltb_spec t v).
  - constructor; [assumption|]. constructor; [assumption|]. eapply Forall_impl; [|exact H2]. cbn. intros; lia.
  - destruct (Z.eqb_spec t v).
    + subst v. constructor; assumption.
    + constructor; [apply IH; assumption|]. apply (insert_key_gt v); [lia|assumption].
Qed.

Lemma map_find_erase t u m : sorted_map m -> map_find t (map_erase u m) = if t =? u then None else map_find t m.
Proof.
  induction m as [|[v j] m IH]; intros H; [cbn; destruct (t =? u); reflexivity|]. inversion H as [|? ? H1 H2]; subst. cbn [map_erase map_find].
  destruct (Z.eqb_spec u v).
  - subst v. destruct (Z.eqb_spec t u); [subst; apply map_find_gt; assumption|reflexivity].
  - cbn [map_find]. rewrite IH by assumption. destruct (Z.eqb_spec t v); destruct (Z.eqb_spec t u); congruence || reflexivity.
Qed.

Lemma erase_sorted u m : sorted_map m -> sorted_map (map_erase u m).
Proof.
  induction m as [|[v j] m IH]; intros H; [constructor|]. inversion H as [|? ? H1 H2]; subst. cbn [map_erase]. destruct (u =? v); [assumption|].
  constructor; [apply IH; assumption|]. clear - H2. induction m as [|[w k] m IH]; [constructor|]. apply Forall_cons_iff in H2. destruct H2. cbn [map_erase].
  destruct (u =? w); [assumption|]. constructor; [assumption|]. apply IH. assumption.
Qed.

Lemma map_ext m m' : sorted_map m -> sorted_map m' -> (forall t, map_find t m = map_find t m') -> m = m'.
Proof.
  revert m'. induction m as [|[v j] m IH]; intros m' H H' E.
  - destruct m' as [|[v j] m']; [reflexivity|]. specialize (E v). cbn [map_find] in E. rewrite Z.eqb_refl in E. discriminate.
  - destruct m' as [|[v' j'] m']; [specialize (E v); cbn [map_find] in E; rewrite Z.eqb_refl in E; discriminate|].
    inversion H as [|? ? H1 H2]; inversion H' as [|? ? H1' H2']; subst.
    assert (Ev : v = v').
    { pose proof (E v) as E1. pose proof (E v') as E2. cbn [map_find] in E1, E2. rewrite Z.eqb_refl in E1, E2.
      destruct (Z.eqb_spec v v'); [assumption|]. destruct (Z.eqb_spec v' v); [congruence|].
      destruct (Z_lt_le_dec v v').
      - rewrite (map_find_gt v m') in E1; [discriminate|]. eapply Forall_impl; [|exact H2']. cbn. intros; lia.
      - rewrite (map_find_gt v' m) in E2; [discriminate|]. eapply Forall_impl; [|exact H2]. cbn. intros; lia. }
    subst v'. pose proof (E v) as E1. cbn [map_find] in E1. rewrite Z.eqb_refl in E1. injection E1 as <-. f_equal. apply IH; [assumption|assumption|].
    intros t. specialize (E t). cbn [map_find] in E. destruct (Z.eqb_spec t v); [|assumption]. subst t. rewrite !map_find_gt by assumption. reflexivity.
Qed.

Lemma last_start_none i t segs : Forall (fun q => t < fst q) (concat segs) -> last_start i t segs = None.
Proof.
  revert i. induction segs as [|s r IH]; intros i H; [reflexivity|]. cbn [concat] in H. apply Forall_app in H. destruct H as [H1 H2]. cbn [last_start].
  rewrite IH by assumption. destruct s as [|p s]; [reflexivity|]. cbn [starts]. inversion H1; subst. destruct (Z.eqb_spec (fst p) t); [lia|reflexivity].
Qed.

Lemma expected_find i segs t : chained segs -> map_find t (expected i segs) = last_start i t segs.
Proof.
  revert i. induction segs as [|s r IH]; intros i H; [reflexivity|]. pose proof (IH (S i) (chained_tail _ _ H)) as G. cbn [last_start].
  destruct s as [|p [|q s]].
  - rewrite expected_cons_nil, G. cbn [starts]. destruct (last_start (S i) t r); reflexivity.
  - destruct r as [|s2 r].
    + cbn. rewrite (Z.eqb_sym t). reflexivity.
    + rewrite expected_cons_one, G. destruct (last_start (S i) t (s2 :: r)) eqn:E; [reflexivity|]. cbn [starts].
      destruct (Z.eqb_spec (fst p) t); [|reflexivity]. exfalso. destruct (chained_not_nil _ _ _ _ H) as (q & s2' & -> & Hl). cbn in Hl. subst q.
      cbn [last_start] in E. destruct (last_start (S (S i)) t r); [discriminate|]. cbn [starts] in E. rewrite (proj2 (Z.eqb_eq _ _) e) in E. discriminate.
  - rewrite expected_cons_multi. cbn [map_find starts]. rewrite (Z.eqb_sym t), G. destruct (Z.eqb_spec (fst p) t); [|destruct (last_start (S i) t r); reflexivity].
    rewrite last_start_none; [reflexivity|]. pose proof (sorted_first_lt_last p q s p (chained_head _ _ H)).
    eapply Forall_impl; [|exact (chained_after _ _ _ H)]. cbv beta. intros; lia.
Qed.

Lemma last_start_app i t a b : last_start i t (a ++ b) = match last_start (i + length a) t b with Some j => Some j | None => last_start i t a end.
Proof.
  revert i. induction a as [|s a IH]; intros i; cbn [app last_start length]; [rewrite Nat.add_0_r; destruct (last_start i t b); reflexivity|].
  rewrite IH. replace (S i + length a)%nat with (i + S (length a))%nat by lia. destruct (last_start (i + S (length a)) t b); reflexivity.
Qed.

Lemma last_start_bounds i t segs j : last_start i t segs = Some j -> (i <= j < i + length segs)%nat.
Proof.
  revert i. induction segs as [|s r IH]; intros i H; [discriminate|]. cbn [last_start length] in *. destruct (last_start (S i) t r) eqn:E.
  - injection H as ->. specialize (IH _ E). lia.
  - destruct (starts t s); [|discriminate]. injection H as <-. lia.
Qed.

(** ** Merge *)

(** The points of [s] and [l], those of [l] being kept where both have one. *)
Definition merge_timelines (s l : timeline) : timeline :=
  match l with
  | [] => s
  | p :: _ => filter (fun q => fst q <? fst p) s ++ l ++ filter (fun q => fst (last l p) <? fst q) s
  end.
(** One of the timelines ends before the other one begins. *)
Definition separate (s l : timeline) : Prop :=
  (forall p q, In p s -> In q l -> fst p <= fst q) \/ (forall p q, In p s -> In q l -> fst q <= fst p).

Fixpoint merged (src tgt : list timeline) : list timeline :=
  match src, tgt with
  | s :: src', l :: tgt' => merge_timelines s l :: merged src' tgt'
  | src, [] => src
  | [], tgt => tgt
  end.

Lemma filter_true {A} (f : A -> bool) l : (forall x, In x l -> f x = true) -> filter f l = l.
Proof. intros H. apply filter_all, Forall_forall. assumption. Qed.
Lemma filter_false {A} (f : A -> bool) l : (forall x, In x l -> f x = false) -> filter f l = [].
Proof. intros H. apply filter_none, Forall_forall. assumption. Qed.

Lemma segment_merge_ok s l : sorted s -> sorted l -> separate s l -> segment_Merge s l = Done (merge_timelines s l).
Proof.
  intros Hs Hl H. destruct s as [|p s]; [destruct l; cbn; [reflexivity|rewrite app_nil_r; reflexivity]|]. destruct l as [|q l]; [reflexivity|].
  unfold segment_Merge, merge_timelines. set (L := q :: l) in *. set (S := p :: s) in *.
  assert (Lq : In q L) by (left; reflexivity). assert (Sp : In p S) by (left; reflexivity).
  assert (Ll : In (last L q) L) by (apply in_last; discriminate). assert (Sl : In (last S p) S) by (apply in_last; discriminate).
  pose proof (fun r => sorted_first_le q l r Hl) as Fl. pose proof (fun r => sorted_last_ge L q r Hl) as Gl.
  pose proof (fun r => sorted_first_le p s r Hs) as Fs. pose proof (fun r => sorted_last_ge S p r Hs) as Gs.
  pose proof (Fl _ Ll). pose proof (Fs _ Sl).
  destruct (Z.leb_spec (fst (last L q)) (fst p)) as [C|C].
  - rewrite (filter_false (fun r => fst r <? fst q) S) by (intros r Hr; specialize (Fs r Hr); apply Z.ltb_ge; lia). cbn [app].
    f_equal. f_equal. destruct (Z.eqb_spec (fst (last L q)) (fst p)) as [E|E].
    + unfold S at 1. cbn [filter]. destruct (Z.ltb_spec (fst (last L q)) (fst p)); [lia|].
      symmetry. apply filter_true. intros r Hr. apply Z.ltb_lt. destruct (sorted_inv _ _ Hs) as [_ G]. rewrite Forall_forall in G. specialize (G r Hr). unfold earlier in G. lia.
    + symmetry. apply filter_true. intros r Hr. apply Z.ltb_lt. specialize (Fs r Hr). lia.
  - assert (Hle : fst (last S p) <= fst q).
    { destruct H as [H|H]; [auto|]. specialize (H p (last L q) Sp Ll). lia. }
    destruct (Z.leb_spec (fst (last S p)) (fst q)); [|lia].
    rewrite (filter_false (fun r => fst (last L q) <? fst r) S) by (intros r Hr; specialize (Gs r Hr); apply Z.ltb_ge; lia). rewrite app_nil_r.
    f_equal. f_equal. destruct (Z.eqb_spec (fst (last S p)) (fst q)) as [E|E].
    + assert (Sn : exists s0 z, S = s0 ++ [z]) by (exists (removelast S), (last S p); apply snoc_last; discriminate).
      destruct Sn as (s0 & z & Sn). rewrite Sn in *. rewrite removelast_last. rewrite last_snoc in *. rewrite filter_app. cbn [filter].
      destruct (Z.ltb_spec (fst z) (fst q)); [lia|]. rewrite app_nil_r. symmetry. apply filter_true. intros r Hr. apply Z.ltb_lt.
      apply sorted_app in Hs. destruct Hs as (_ & _ & Hs). specialize (Hs r z Hr (or_introl eq_refl)). lia.
    + symmetry. apply filter_true. intros r Hr. apply Z.ltb_lt. specialize (Gs r Hr). lia.
Qed.

(** The first point can only become earlier. *)
Lemma merge_front s p l : exists p' l', merge_timelines s (p :: l) = p' :: l' /\ fst p' <= fst p.
Proof.
  cbn [merge_timelines]. destruct (filter (fun q => fst q <? fst p) s) as [|q r] eqn:E; [exists p; eexists; split; [reflexivity|lia]|].
  exists q. eexists. split; [reflexivity|]. assert (In q (filter (fun q => fst q <? fst p) s)) by (rewrite E; left; reflexivity).
  apply filter_In in H. destruct H as [_ H]. apply Z.ltb_lt in H. lia.
Qed.

Definition both (t : time) (P tgt : list timeline) : option nat :=
  match last_start 0 t P with Some h => Some h | None => last_start (length P) t tgt end.

Lemma last_start_snoc t P s : last_start 0 t (P ++ [s]) = if starts t s then Some (length P) else last_start 0 t P.
Proof. rewrite last_start_app. cbn [last_start Nat.add]. destruct (starts t s); reflexivity. Qed.

Lemma restore_ok tgt : forall P m, sorted_map m -> (forall t, map_find t m = both t P tgt) ->
  let m' := restore_entries (length P) tgt m in sorted_map m' /\ forall t, map_find t m' = last_start 0 t (P ++ tgt).
Proof.
  induction tgt as [|l tgt IH]; intros P m Hs Hm; cbn [restore_entries].
  - split; [assumption|]. intros t. rewrite Hm, app_nil_r. unfold both. cbn. destruct (last_start 0 t P); reflexivity.
  - cbv zeta. replace (S (length P)) with (length (P ++ [l])) by (rewrite app_length; cbn; lia). replace (P ++ l :: tgt) with ((P ++ [l]) ++ tgt) by (rewrite <- app_assoc; reflexivity).
    apply IH.
    + destruct l; [assumption|]. apply insert_sorted. assumption.
    + intros t. unfold both. rewrite last_start_snoc, app_length. cbn [length]. rewrite Nat.add_1_r. specialize (Hm t). unfold both in Hm. cbn [last_start] in Hm.
      destruct l as [|p l]; cbn [starts] in *.
      * rewrite Hm. destruct (last_start 0 t P); [reflexivity|]. destruct (last_start (S (length P)) t tgt); reflexivity.
      * rewrite map_find_insert, (Z.eqb_sym t). destruct (Z.eqb_spec (fst p) t); [reflexivity|]. rewrite Hm.
        destruct (last_start 0 t P); [reflexivity|]. destruct (last_start (S (length P)) t tgt); reflexivity.
Qed.

Fixpoint all_separate (src tgt : list timeline) : Prop :=
  match src, tgt with s :: src', l :: tgt' => separate s l /\ all_separate src' tgt' | _, _ => True end.

Lemma merge_loop_ok src : forall tgt P m, (forall s, In s src -> sorted s) -> (forall s, In s tgt -> sorted s) -> all_separate src tgt ->
  sorted_map m -> (forall t, map_find t m = both t P tgt) ->
  exists r spliced m', merge_loop (length P) src tgt m = Done (r, spliced, m') /\ merged src tgt = r ++ spliced /\ spliced = skipn (length tgt) src /\ length r = length tgt /\
    sorted_map m' /\ forall t, map_find t m' = last_start 0 t (P ++ r).
Proof.
  induction src as [|s src IH]; intros tgt P m Ss St Sep Hs Hm.
  - destruct (restore_ok tgt P m Hs Hm) as [R1 R2]. exists tgt, [], (restore_entries (length P) tgt m).
    rewrite skipn_nil, app_nil_r. destruct tgt; cbn [merge_loop]; auto 10.
  - destruct tgt as [|l tgt].
    + exists [], (s :: src), m. cbn [merge_loop merged app skipn length]. repeat split; try reflexivity; [assumption|].
      intros t. rewrite Hm, app_nil_r. unfold both. cbn. destruct (last_start 0 t P); reflexivity.
    + destruct Sep as [Sep1 Sep2]. cbn [merge_loop merged]. rewrite segment_merge_ok; [|apply Ss; left; reflexivity|apply St; left; reflexivity|assumption].
      cbn [bind]. set (l' := merge_timelines s l).
      match goal with |- context [merge_loop _ _ _ ?z] => set (m1 := z) end.
      assert (H1 : sorted_map m1 /\ forall t, map_find t m1 = both t (P ++ [l']) tgt).
      { split.
        - unfold m1. destruct l as [|p l]; destruct l' as [|p' l'']; try apply insert_sorted; try assumption.
          destruct (fst p' <? fst p); [|assumption]. destruct (map_find (fst p) m) as [j|]; [|assumption]. destruct (j =? length P)%nat; [|assumption].
          apply erase_sorted. assumption.
        - intros t. unfold both. rewrite last_start_snoc, app_length. cbn [length]. rewrite Nat.add_1_r.
          pose proof (Hm t) as Hmt. unfold both in Hmt. cbn [last_start] in Hmt.
          destruct l as [|p l].
          + assert (E : m1 = match l' with [] => m | p' :: _ => insert (fst p') (length P) m end) by (unfold m1; destruct l'; reflexivity).
            rewrite E. clear E. cbn [starts] in Hmt.
            assert (E : map_find t m = match last_start 0 t P with Some h => Some h | None => last_start (S (length P)) t tgt end).
            { rewrite Hmt. destruct (last_start 0 t P); [reflexivity|]. destruct (last_start (S (length P)) t tgt); reflexivity. }
            destruct l' as [|p' l'']; [exact E|]. cbn [starts]. rewrite map_find_insert, (Z.eqb_sym t). destruct (fst p' =? t); [reflexivity|exact E].
          + destruct (merge_front s p l) as (p' & l'' & E1 & E2). fold l' in E1. unfold m1. rewrite E1. cbn [starts] in *.
            rewrite map_find_insert, (Z.eqb_sym t). destruct (Z.eqb_spec (fst p') t) as [Et|Et]; [reflexivity|].
            destruct (Z.eqb_spec (fst p) t) as [Ep|Ep].
            * destruct (Z.ltb_spec (fst p') (fst p)) as [Hlt|Hge]; [|lia]. rewrite Ep, Hmt.
              destruct (last_start 0 t P) as [h|] eqn:Eh.
              -- pose proof (last_start_bounds _ _ _ _ Eh). destruct (Nat.eqb_spec h (length P)); [lia|]. rewrite Hmt. reflexivity.
              -- destruct (last_start (S (length P)) t tgt) as [j|] eqn:Ej.
                 ++ pose proof (last_start_bounds _ _ _ _ Ej). destruct (Nat.eqb_spec j (length P)); [lia|]. rewrite Hmt. reflexivity.
                 ++ rewrite Nat.eqb_refl, map_find_erase, Z.eqb_refl by assumption. reflexivity.
            * assert (E : map_find t m = match last_start 0 t P with Some h => Some h | None => last_start (S (length P)) t tgt end).
              { rewrite Hmt. destruct (last_start 0 t P); [reflexivity|]. destruct (last_start (S (length P)) t tgt); reflexivity. }
              rewrite <- E. destruct (fst p' <? fst p); [|reflexivity]. destruct (map_find (fst p) m) as [j|]; [|reflexivity].
              destruct (j =? length P)%nat; [|reflexivity]. rewrite map_find_erase by assumption. destruct (Z.eqb_spec t (fst p)); [congruence|reflexivity]. }
      destruct H1 as [H1 H2].
      destruct (IH tgt (P ++ [l']) m1) as (r & spl & m' & R1 & R2 & R3 & R4 & R5 & R6);
        [intros; apply Ss; right; assumption|intros; apply St; right; assumption|assumption|assumption|assumption|].
      rewrite app_length in R1. cbn [length] in R1. rewrite Nat.add_1_r in R1. rewrite R1. cbn [bind].
      exists (l' :: r), spl, m'. rewrite R2. split; [reflexivity|]. split; [reflexivity|]. split; [exact R3|]. split; [cbn [length]; congruence|]. split; [assumption|].
      intros t. rewrite R6, <- app_assoc. reflexivity.
Qed.

Lemma copy_find base k from : forall to, Forall (fun e => (k <= snd e)%nat) from -> sorted_map from -> sorted_map to ->
  exists m, copy_entries k base from to = Done m /\ sorted_map m /\
    forall t, map_find t m = match map_find t from with Some i => Some (i - k + base)%nat | None => map_find t to end.
Proof.
  induction from as [|[u i] r IH]; intros to Hk Hs Ht; [exists to; auto|]. apply Forall_cons_iff in Hk. destruct Hk as [Hk1 Hk2]. cbn [fst snd] in *.
  inversion Hs as [|? ? Hs1 Hs2]; subst. cbn [copy_entries]. destruct (Nat.leb_spec k i); [|lia].
  destruct (IH (insert u (i - k + base) to) Hk2 Hs1 (insert_sorted _ _ _ Ht)) as (m & M1 & M2 & M3). exists m. split; [assumption|]. split; [assumption|].
  intros t. rewrite M3, map_find_insert. cbn [map_find]. destruct (Z.eqb_spec t u); [|reflexivity]. subst t. rewrite map_find_gt by assumption. reflexivity.
Qed.

Lemma wf_of_find segs m : chained segs -> sorted_map m -> (forall t, map_find t m = last_start 0 t segs) -> wf (Trajectory segs m).
Proof.
  intros Hc Hs Hm. split; [assumption|]. cbn [segments left]. apply map_ext; [assumption|apply expected_sorted; assumption|].
  intros t. rewrite Hm, expected_find by assumption. reflexivity.
Qed.

(** The segments of the source which have no counterpart in the target must not all be empty. *)
Definition splices (src tgt : list timeline) : Prop := skipn (length tgt) src = [] \/ concat (skipn (length tgt) src) <> [].

Theorem merge_wf x y : wf x -> wf y -> segments x <> [] -> all_separate (segments y) (segments x) -> splices (segments y) (segments x) ->
  chained (merged (segments y) (segments x)) ->
  exists z, Merge x y = Done z /\ wf z /\ segments z = merged (segments y) (segments x).
Proof.
  intros [Hcx Hmx] [Hcy Hmy] Hne Hsep Hspl Hc. unfold Merge.
  destruct (merge_loop_ok (segments y) (segments x) [] (left x)) as (r & spl & m & R1 & R2 & R3 & R4 & R5 & R6);
    [intros u Hu; exact (chained_sorted _ _ Hcy Hu)|intros u Hu; exact (chained_sorted _ _ Hcx Hu)|assumption|rewrite Hmx; apply expected_sorted; assumption|
     intros t; rewrite Hmx, expected_find by assumption; reflexivity|].
  cbn [length] in R1. rewrite R1. cbn [bind]. rewrite R2 in *. cbn [app] in R6. destruct spl as [|s spl].
  - rewrite app_nil_r in *. assert (W : wf (Trajectory r m)) by (apply wf_of_find; assumption). rewrite checked_ok by exact W.
    eexists. split; [reflexivity|]. split; [exact W|reflexivity].
  - destruct r as [|s0 r]; [exfalso; apply Hne; apply length_zero_iff_nil; symmetry; exact R4|].
    set (R := s0 :: r) in *. set (spl' := s :: spl) in *.
    destruct Hspl as [Hspl|Hspl]; [rewrite <- R3 in Hspl; discriminate|].
    destruct (first_point_ok _ Hspl) as (p & Hp).
    assert (Hk : (length R <= length (segments y))%nat).
    { destruct (le_lt_dec (length (segments x)) (length (segments y))); [congruence|]. rewrite skipn_all2 in R3 by lia. discriminate. }
    unfold AdjustAfterSplicing, segment_front. cbn [segments left]. rewrite skipn_mid.
    destruct (Nat.ltb_spec (length R) (length (R ++ spl'))) as [_|?]; [|rewrite app_length in *; unfold spl' in *; cbn [length] in *; lia].
    rewrite <- R4 in *. rewrite R3, Hp. cbn [bind].
    destruct (splice_find _ (length R) p Hcy Hk Hp) as (n & F1 & F2 & F3). rewrite <- Hmy in F1, F2, F3. rewrite F1, F3.
    assert (Hc2 : chained (skipn (length R) (segments y))) by (rewrite <- (firstn_skipn (length R) (segments y)) in Hcy; apply chained_app in Hcy; apply Hcy).
    destruct (copy_find (length R) (length R) (expected (length R) (skipn (length R) (segments y))) m) as (m' & M1 & M2 & M3);
      [apply expected_indices|apply expected_sorted; assumption|assumption|].
    rewrite M1. cbn [bind].
    match goal with |- exists z, checked ?u = _ /\ _ => assert (W : wf u) end.
    { apply wf_of_find; [rewrite <- R3; assumption|assumption|]. intros t. rewrite M3, expected_find, last_start_app by assumption. cbn [Nat.add].
      destruct (last_start (length R) t (skipn (length R) (segments y))) as [j|] eqn:Ej; [|apply R6].
      pose proof (last_start_bounds _ _ _ _ Ej). f_equal. lia. }
    cbn [bind]. rewrite checked_ok by exact W. eexists. split; [reflexivity|]. split; [exact W|reflexivity].
Qed.
