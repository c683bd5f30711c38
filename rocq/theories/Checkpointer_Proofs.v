(** Specifications and proofs for the checkpointer. *)
From Coq Require Import List Arith ZArith Bool Lia Sorted Permutation.
From Verif Require Import Checkpointer_Model.
Import ListNotations.
Open Scope Z_scope.

(** * The map *)

Section Map.
Context {A : Type}.
Implicit Types m : list (Z * A).

Definition sorted m : Prop := StronglySorted (fun a b : Z * A => fst a < fst b) m.

Lemma sorted_filter f m : sorted m -> sorted (filter f m).
Proof.
  induction m as [|a r IH]; intros S; [constructor|]. apply StronglySorted_inv in S. destruct S as [S1 S2].
  cbn [filter]. destruct (f a); [|exact (IH S1)]. constructor; [exact (IH S1)|].
  rewrite Forall_forall in *. intros b B. apply filter_In in B. exact (S2 b (proj1 B)).
Qed.

Lemma filter_all (f : Z * A -> bool) m : (forall e, In e m -> f e = true) -> filter f m = m.
Proof.
  induction m as [|a r IH]; intros H; [reflexivity|]. cbn [filter]. rewrite (H a (or_introl eq_refl)), IH; [reflexivity|].
  intros e I. apply H. right. exact I.
Qed.
Lemma filter_none (f : Z * A -> bool) m : (forall e, In e m -> f e = false) -> filter f m = [].
Proof.
  induction m as [|a r IH]; intros H; [reflexivity|]. cbn [filter]. rewrite (H a (or_introl eq_refl)), IH; [reflexivity|].
  intros e I. apply H. right. exact I.
Qed.

Lemma split_at_filter before m : sorted m -> (forall a b, a < b -> before b = true -> before a = true) ->
  split_at before m = (filter (fun e => before (fst e)) m, filter (fun e => negb (before (fst e))) m).
Proof.
  intros S M. induction m as [|a r IH]; [reflexivity|]. apply StronglySorted_inv in S. destruct S as [S1 S2].
  cbn [split_at filter]. destruct (before (fst a)) eqn:E; cbn [negb].
  - rewrite (IH S1). reflexivity.
  - rewrite Forall_forall in S2.
    assert (K : forall e, In e r -> before (fst e) = false).
    { intros e I. destruct (before (fst e)) eqn:B; [|reflexivity]. rewrite (M _ _ (S2 e I) B) in E. discriminate. }
    rewrite filter_none by (intros e I; exact (K e I)).
    rewrite filter_all by (intros e I; rewrite (K e I); reflexivity). reflexivity.
Qed.

Lemma lower_bound_filter t m : sorted m ->
  lower_bound t m = (filter (fun e => fst e <? t) m, filter (fun e => t <=? fst e) m).
Proof.
  intros S. unfold lower_bound. rewrite split_at_filter; [|exact S|intros a b L; rewrite !Z.ltb_lt; lia].
  f_equal. apply filter_ext. intros e. rewrite Z.leb_antisym. reflexivity.
Qed.
Lemma upper_bound_filter t m : sorted m ->
  upper_bound t m = (filter (fun e => fst e <=? t) m, filter (fun e => t <? fst e) m).
Proof.
  intros S. unfold upper_bound. rewrite split_at_filter; [|exact S|intros a b L; rewrite !Z.leb_le; lia].
  f_equal. apply filter_ext. intros e. rewrite Z.ltb_antisym. reflexivity.
Qed.

Lemma sorted_unique m t a b : sorted m -> In (t, a) m -> In (t, b) m -> a = b.
Proof.
  induction m as [|e r IH]; intros S I J; [destruct I|]. apply StronglySorted_inv in S. destruct S as [S1 S2].
  rewrite Forall_forall in S2. destruct I as [->|I], J as [J|J].
  - congruence.
  - specialize (S2 _ J). cbn in S2. lia.
  - subst e. specialize (S2 _ I). cbn in S2. lia.
  - exact (IH S1 I J).
Qed.

Lemma find_in t m a : sorted m -> find t m = Some a <-> In (t, a) m.
Proof.
  intros S. unfold find. rewrite lower_bound_filter by exact S. cbn [snd].
  destruct (filter (fun e => t <=? fst e) m) as [|[k b] r] eqn:E.
  - split; [discriminate|]. intros I.
    assert (J : In (t, a) (filter (fun e => t <=? fst e) m)) by (apply filter_In; split; [exact I|apply Z.leb_le; cbn; lia]).
    rewrite E in J. destruct J.
  - pose proof (sorted_filter (fun e => t <=? fst e) m S) as SF. rewrite E in SF.
    assert (J : In (k, b) m /\ t <= k).
    { assert (J : In (k, b) (filter (fun e => t <=? fst e) m)) by (rewrite E; left; reflexivity).
      apply filter_In in J. destruct J as [J1 J2]. apply Z.leb_le in J2. auto. }
    destruct J as [J1 J2]. destruct (Z.eqb_spec k t) as [->|N].
    + split; [intros H; injection H as ->; exact J1|]. intros I. f_equal. exact (sorted_unique m t b a S J1 I).
    + split; [discriminate|]. intros I.
      assert (J : In (t, a) (filter (fun e => t <=? fst e) m)) by (apply filter_In; split; [exact I|apply Z.leb_le; cbn; lia]).
      rewrite E in J. destruct J as [J|J]; [congruence|].
      apply StronglySorted_inv in SF. destruct SF as [_ F]. rewrite Forall_forall in F. specialize (F _ J). cbn in F. lia.
Qed.
Lemma find_none t m : sorted m -> find t m = None <-> ~ In t (map fst m).
Proof.
  intros S. split.
  - intros E I. apply in_map_iff in I. destruct I as [[k a] [<- I]]. cbn [fst] in E. apply (find_in k m a S) in I. congruence.
  - intros N. destruct (find t m) as [a|] eqn:E; [|reflexivity]. apply (find_in t m a S) in E.
    exfalso. apply N. apply in_map_iff. exists (t, a). auto.
Qed.

Lemma sorted_app m1 m2 : sorted m1 -> sorted m2 -> (forall a b, In a m1 -> In b m2 -> fst a < fst b) -> sorted (m1 ++ m2).
Proof.
  induction m1 as [|a r IH]; intros S1 S2 H; [exact S2|]. apply StronglySorted_inv in S1. destruct S1 as [S1 F].
  cbn [app]. constructor.
  - apply IH; [exact S1|exact S2|]. intros x y X Y. apply H; [right; exact X|exact Y].
  - apply Forall_app. split; [exact F|]. apply Forall_forall. intros b B. apply H; [left; reflexivity|exact B].
Qed.

Lemma emplace_spec t a m : sorted m -> find t m = None -> sorted (emplace t a m) /\ Permutation (emplace t a m) ((t, a) :: m).
Proof.
  intros S N. unfold emplace. rewrite N. pose proof (lower_bound_filter t m S) as E. rewrite E.
  apply (find_none t m S) in N.
  assert (P : Permutation m (filter (fun e => fst e <? t) m ++ filter (fun e => t <=? fst e) m)).
  { clear. induction m as [|e r IH]; [reflexivity|]. cbn [filter]. rewrite Z.leb_antisym. destruct (fst e <? t); cbn [negb].
    - cbn [app]. constructor. exact IH.
    - apply Permutation_cons_app. exact IH. }
  split.
  - apply sorted_app.
    + apply sorted_filter, S.
    + constructor; [apply sorted_filter, S|]. apply Forall_forall. intros e I. apply filter_In in I. destruct I as [I L].
      apply Z.leb_le in L. cbn. assert (fst e <> t); [|lia]. intros <-. apply N. apply in_map. exact I.
    + intros x y X Y. apply filter_In in X. destruct X as [_ X]. apply Z.ltb_lt in X. destruct Y as [<-|Y]; [exact X|].
      apply filter_In in Y. destruct Y as [_ Y]. apply Z.leb_le in Y. lia.
  - rewrite P at 3. symmetry. apply Permutation_middle.
Qed.

Lemma last_entry_in m e : last_entry m = Some e -> In e m.
Proof.
  induction m as [|a [|b r] IH]; intros H; [discriminate|injection H as ->; left; reflexivity|].
  right. apply IH. exact H.
Qed.
Lemma last_entry_greatest m e : sorted m -> last_entry m = Some e -> forall x, In x m -> fst x <= fst e.
Proof.
  induction m as [|a r IH]; intros S H x I; [destruct I|]. apply StronglySorted_inv in S. destruct S as [S1 S2].
  destruct r as [|b r].
  - injection H as <-. destruct I as [<-|[]]. lia.
  - assert (L : last_entry (b :: r) = Some e) by exact H.
    destruct I as [<-|I]; [|exact (IH S1 L x I)].
    rewrite Forall_forall in S2. specialize (S2 e (last_entry_in _ _ L)). lia.
Qed.
Lemma last_entry_none m : last_entry m = None <-> m = [].
Proof.
  induction m as [|a [|b r] IH]; [split; reflexivity|split; discriminate|].
  split; [|discriminate]. intros H. apply IH in H. discriminate.
Qed.

(** * Queries *)

(** The least and the greatest key with a property. *)
Definition least (P : Z -> Prop) (keys : list Z) (i : instant) : Prop :=
  match i with
  | At t => In t keys /\ P t /\ forall u, In u keys -> P u -> t <= u
  | InfiniteFuture => forall u, In u keys -> ~ P u
  | InfinitePast => False
  end.
Definition greatest (P : Z -> Prop) (keys : list Z) (i : instant) : Prop :=
  match i with
  | At t => In t keys /\ P t /\ forall u, In u keys -> P u -> u <= t
  | InfinitePast => forall u, In u keys -> ~ P u
  | InfiniteFuture => False
  end.
(** A list of times is, in increasing order, those with a property. *)
Definition exactly (P : Z -> Prop) (keys l : list Z) : Prop :=
  StronglySorted Z.lt l /\ forall u, In u l <-> In u keys /\ P u.
(** A message is the one recorded at the given instant. *)
Definition designates m (i : instant) (o : option A) : Prop :=
  match i with At t => exists a, o = Some a /\ In (t, a) m | _ => o = None end.

Lemma first_least m (P : Z -> Prop) f : sorted m -> (forall e, f e = true <-> P (fst e)) ->
  least P (map fst m) (match filter f m with [] => InfiniteFuture | e :: _ => At (fst e) end).
Proof.
  intros S EQ. destruct (filter f m) as [|e r] eqn:E; cbn.
  - intros u I Q. apply in_map_iff in I. destruct I as [x [<- I]]. apply EQ in Q.
    assert (J : In x (filter f m)) by (apply filter_In; auto). rewrite E in J. destruct J.
  - assert (J : In e (filter f m)) by (rewrite E; left; reflexivity). apply filter_In in J. destruct J as [J1 J2].
    split; [apply in_map, J1|]. split; [apply EQ, J2|]. intros u I Q. apply in_map_iff in I. destruct I as [x [<- I]].
    apply EQ in Q. assert (J : In x (filter f m)) by (apply filter_In; auto). rewrite E in J.
    destruct J as [<-|J]; [lia|]. pose proof (sorted_filter f m S) as SF. rewrite E in SF.
    apply StronglySorted_inv in SF. destruct SF as [_ F]. rewrite Forall_forall in F. specialize (F _ J). lia.
Qed.
Lemma last_greatest m (P : Z -> Prop) f : sorted m -> (forall e, f e = true <-> P (fst e)) ->
  greatest P (map fst m) (match last_entry (filter f m) with None => InfinitePast | Some e => At (fst e) end).
Proof.
  intros S EQ. destruct (last_entry (filter f m)) as [e|] eqn:E; cbn.
  - pose proof (last_entry_in _ _ E) as J. apply filter_In in J. destruct J as [J1 J2].
    split; [apply in_map, J1|]. split; [apply EQ, J2|]. intros u I Q. apply in_map_iff in I. destruct I as [x [<- I]].
    apply EQ in Q. apply (last_entry_greatest (filter f m) e (sorted_filter f m S) E). apply filter_In; auto.
  - apply last_entry_none in E. intros u I Q. apply in_map_iff in I. destruct I as [x [<- I]]. apply EQ in Q.
    assert (J : In x (filter f m)) by (apply filter_In; auto). rewrite E in J. destruct J.
Qed.

Lemma oldest_ok m : sorted m -> least (fun _ => True) (map fst m) (oldest_checkpoint m).
Proof.
  intros S. pose proof (first_least m (fun _ => True) (fun _ => true) S) as H.
  rewrite filter_all in H by reflexivity. apply H. tauto.
Qed.
Lemma newest_ok m : sorted m -> greatest (fun _ => True) (map fst m) (newest_checkpoint m).
Proof.
  intros S. pose proof (last_greatest m (fun _ => True) (fun _ => true) S) as H.
  rewrite filter_all in H by reflexivity. apply H. tauto.
Qed.
Lemma at_or_after_ok t m : sorted m -> least (fun u => t <= u) (map fst m) (checkpoint_at_or_after t m).
Proof.
  intros S. unfold checkpoint_at_or_after. rewrite lower_bound_filter by exact S. cbn [snd].
  apply first_least; [exact S|]. intros e. apply Z.leb_le.
Qed.
Lemma at_or_before_ok t m : sorted m -> greatest (fun u => u <= t) (map fst m) (checkpoint_at_or_before t m).
Proof.
  intros S. unfold checkpoint_at_or_before. rewrite upper_bound_filter by exact S. cbn [fst].
  apply last_greatest; [exact S|]. intros e. apply Z.leb_le.
Qed.

Lemma sorted_keys m : sorted m -> StronglySorted Z.lt (map fst m).
Proof.
  induction m as [|a r IH]; intros S; [constructor|]. apply StronglySorted_inv in S. destruct S as [S1 S2].
  cbn [map]. constructor; [exact (IH S1)|]. rewrite Forall_forall in *. intros x I. apply in_map_iff in I.
  destruct I as [e [<- I]]. exact (S2 e I).
Qed.
Lemma filter_exactly m (P : Z -> Prop) f : sorted m -> (forall e, f e = true <-> P (fst e)) ->
  exactly P (map fst m) (map fst (filter f m)).
Proof.
  intros S EQ. split; [apply sorted_keys, sorted_filter, S|]. intros u. rewrite !in_map_iff. split.
  - intros [e [<- I]]. apply filter_In in I. destruct I as [I J]. split; [exists e; auto|apply EQ, J].
  - intros [[e [<- I]] Q]. exists e. split; [reflexivity|]. apply filter_In. split; [exact I|apply EQ, Q].
Qed.
Lemma all_ok m : sorted m -> exactly (fun _ => True) (map fst m) (all_checkpoints m).
Proof.
  intros S. pose proof (filter_exactly m (fun _ => True) (fun _ => true) S) as H.
  rewrite filter_all in H by reflexivity. apply H. tauto.
Qed.
Lemma all_at_or_before_ok t m : sorted m -> exactly (fun u => u <= t) (map fst m) (all_checkpoints_at_or_before t m).
Proof.
  intros S. unfold all_checkpoints_at_or_before. rewrite upper_bound_filter by exact S.
  apply filter_exactly; [exact S|]. intros e. apply Z.leb_le.
Qed.

Lemma between_filter t1 t2 m : sorted m -> t1 <= t2 ->
  filter (fun e => fst e <=? t2) m = filter (fun e => fst e <? t1) m ++ filter (fun e => (t1 <=? fst e) && (fst e <=? t2))%bool m /\
  filter (fun e => t1 <=? fst e) m = filter (fun e => (t1 <=? fst e) && (fst e <=? t2))%bool m ++ filter (fun e => t2 <? fst e) m.
Proof.
  intros S L. induction m as [|a r IH]; [split; reflexivity|]. apply StronglySorted_inv in S. destruct S as [S1 S2].
  destruct (IH S1) as [E1 E2]. rewrite Forall_forall in S2. cbn [filter].
  destruct (Z.leb_spec (fst a) t2), (Z.ltb_spec (fst a) t1), (Z.leb_spec t1 (fst a)), (Z.ltb_spec t2 (fst a)); try lia; cbn [andb].
  - split; [rewrite E1; reflexivity|exact E2].
  - assert (N : filter (fun e => fst e <? t1) r = []).
    { apply filter_none. intros e I. specialize (S2 e I). apply Z.ltb_ge. lia. }
    rewrite N in *. cbn [app] in *. split; [rewrite E1; reflexivity|rewrite E2; reflexivity].
  - assert (N : filter (fun e => (t1 <=? fst e) && (fst e <=? t2))%bool r = []).
    { apply filter_none. intros e I. specialize (S2 e I). apply andb_false_iff. right. apply Z.leb_gt. lia. }
    split; [exact E1|]. rewrite N in *. cbn [app] in *. rewrite E2. reflexivity.
Qed.

Lemma all_between_ok t1 t2 m : sorted m -> exactly (fun u => t1 <= u <= t2) (map fst m) (all_checkpoints_between t1 t2 m).
Proof.
  intros S. unfold all_checkpoints_between. destruct (Z.ltb_spec t2 t1) as [L|L].
  - split; [constructor|]. intros u. split; [intros []|lia].
  - rewrite lower_bound_filter, upper_bound_filter by exact S. cbn [fst snd].
    destruct (between_filter t1 t2 m S L) as [E1 E2]. rewrite E1, E2, app_length.
    replace (_ + _ - _)%nat with (length (filter (fun e => (t1 <=? fst e) && (fst e <=? t2))%bool m)) by lia.
    rewrite firstn_app, firstn_all, Nat.sub_diag, firstn_O, app_nil_r.
    apply filter_exactly; [exact S|]. intros e. rewrite andb_true_iff, !Z.leb_le. reflexivity.
Qed.

Lemma read_oldest_ok m : designates m (oldest_checkpoint m) (ReadFromOldestCheckpoint m).
Proof. destruct m as [|[t a] r]; cbn; [reflexivity|]. exists a. auto. Qed.
Lemma read_newest_ok m : designates m (newest_checkpoint m) (ReadFromNewestCheckpoint m).
Proof.
  unfold newest_checkpoint, ReadFromNewestCheckpoint. destruct (last_entry m) as [[t a]|] eqn:E; cbn; [|reflexivity].
  exists a. split; [reflexivity|]. exact (last_entry_in _ _ E).
Qed.
Lemma read_at_or_before_ok t m : sorted m -> designates m (checkpoint_at_or_before t m) (ReadFromCheckpointAtOrBefore t m).
Proof.
  intros S. unfold checkpoint_at_or_before, ReadFromCheckpointAtOrBefore. rewrite upper_bound_filter by exact S. cbn [fst].
  destruct (last_entry _) as [[u a]|] eqn:E; cbn; [|reflexivity].
  exists a. split; [reflexivity|]. apply last_entry_in in E. apply filter_In in E. tauto.
Qed.
Lemma read_at_ok t m a : sorted m -> ReadFromCheckpointAt t m = Some a <-> In (t, a) m.
Proof. apply find_in. Qed.

(** * Histories *)

Inductive operation := OpWrite (t : Z) (a : A) | OpWriteIfNeeded (t d : Z) (a : A).
Fixpoint execute (ops : list operation) m : option (list (Z * A)) :=
  match ops with
  | [] => Some m
  | OpWrite t a :: r => match WriteToCheckpoint t a m with Some m' => execute r m' | None => None end
  | OpWriteIfNeeded t d a :: r =>
      match WriteToCheckpointIfNeeded t d a m with Some (_, m') => execute r m' | None => None end
  end.
(** The specification: the checkpoints created, in the order of their creation. *)
Definition old_enough (t d : Z) (created : list (Z * A)) : Prop := forall e, In e created -> d < t - fst e.
Inductive history : list operation -> list (Z * A) -> list (Z * A) -> Prop :=
| history_nil c : history [] c c
| history_write t a r c c' : ~ In t (map fst c) -> history r (c ++ [(t, a)]) c' -> history (OpWrite t a :: r) c c'
| history_needed t d a r c c' : old_enough t d c -> ~ In t (map fst c) ->
    history r (c ++ [(t, a)]) c' -> history (OpWriteIfNeeded t d a :: r) c c'
| history_not_needed t d a r c c' : ~ old_enough t d c -> history r c c' -> history (OpWriteIfNeeded t d a :: r) c c'.

Lemma needed_ok t d m : sorted m -> needed t d m = true <-> (forall e, In e m -> d < t - fst e).
Proof.
  intros S. unfold needed. destruct (last_entry m) as [e|] eqn:E.
  - rewrite Z.ltb_lt. split.
    + intros L x I. pose proof (last_entry_greatest m e S E x I). lia.
    + intros H. apply H. exact (last_entry_in _ _ E).
  - apply last_entry_none in E. subst m. split; [intros _ e []|reflexivity].
Qed.

Lemma write_ok t a m c : sorted m -> Permutation m c ->
  match WriteToCheckpoint t a m with
  | Some m' => ~ In t (map fst c) /\ sorted m' /\ Permutation m' (c ++ [(t, a)])
  | None => In t (map fst c)
  end.
Proof.
  intros S P. unfold WriteToCheckpoint. destruct (find t m) as [b|] eqn:E.
  - apply (find_in t m b S) in E. apply in_map_iff. exists (t, b). split; [reflexivity|]. exact (Permutation_in _ P E).
  - pose proof (proj1 (find_none t m S) E) as N. destruct (emplace_spec t a m S E) as [S' P'].
    split; [|split; [exact S'|]].
    + intros I. apply N. exact (Permutation_in _ (Permutation_map fst (Permutation_sym P)) I).
    + rewrite P', P. apply Permutation_cons_append.
Qed.

Lemma execute_ok ops : forall m c, sorted m -> Permutation m c ->
  (forall m', execute ops m = Some m' -> exists c', history ops c c' /\ sorted m' /\ Permutation m' c') /\
  (execute ops m = None -> forall c', ~ history ops c c').
Proof.
  induction ops as [|[t a|t d a] r IH]; intros m c S P; cbn [execute].
  - split; [|discriminate]. intros m' H. injection H as <-. exists c. split; [constructor|auto].
  - pose proof (write_ok t a m c S P) as W. destruct (WriteToCheckpoint t a m) as [m1|].
    + destruct W as (N & S1 & P1). destruct (IH m1 (c ++ [(t, a)]) S1 P1) as [I1 I2]. split.
      * intros m' H. destruct (I1 m' H) as (c' & H1 & H2). exists c'. split; [constructor; assumption|exact H2].
      * intros H c' Hc. inversion Hc; subst. exact (I2 H c' ltac:(eassumption)).
    + split; [discriminate|]. intros _ c' Hc. inversion Hc; subst. contradiction.
  - unfold WriteToCheckpointIfNeeded. pose proof (needed_ok t d m S) as ND.
    assert (OE : needed t d m = true <-> old_enough t d c).
    { rewrite ND. split; intros H e I; apply H; [exact (Permutation_in _ (Permutation_sym P) I)|exact (Permutation_in _ P I)]. }
    destruct (needed t d m).
    + pose proof (proj1 OE eq_refl) as O. pose proof (write_ok t a m c S P) as W. destruct (WriteToCheckpoint t a m) as [m1|].
      * destruct W as (N & S1 & P1). destruct (IH m1 (c ++ [(t, a)]) S1 P1) as [I1 I2]. split.
        -- intros m' H. destruct (I1 m' H) as (c' & H1 & H2). exists c'. split; [apply history_needed; assumption|exact H2].
        -- intros H c' Hc. inversion Hc; subst; [exact (I2 H c' ltac:(eassumption))|contradiction].
      * split; [discriminate|]. intros _ c' Hc. inversion Hc; subst; contradiction.
    + assert (O : ~ old_enough t d c) by (intros O; apply OE in O; discriminate).
      destruct (IH m c S P) as [I1 I2]. split.
      * intros m' H. destruct (I1 m' H) as (c' & H1 & H2). exists c'. split; [apply history_not_needed; assumption|exact H2].
      * intros H c' Hc. inversion Hc; subst; [contradiction|exact (I2 H c' ltac:(eassumption))].
Qed.

(** The result of WriteToCheckpointIfNeeded says whether a checkpoint was created. *)
Lemma if_needed_result t d a m b m' : sorted m -> WriteToCheckpointIfNeeded t d a m = Some (b, m') ->
  (b = true <-> old_enough t d m) /\ (b = true -> In (t, a) m' /\ ~ In t (map fst m)) /\ (b = false -> m' = m).
Proof.
  intros S. unfold WriteToCheckpointIfNeeded. pose proof (needed_ok t d m S) as ND.
  destruct (needed t d m); intros H.
  - pose proof (write_ok t a m m S (Permutation_refl _)) as W. destruct (WriteToCheckpoint t a m) as [m1|]; [|discriminate].
    injection H as <- <-. destruct W as (N & S1 & P1). split; [exact ND|]. split; [|discriminate]. intros _.
    split; [|exact N]. apply (Permutation_in _ (Permutation_sym P1)). apply in_or_app. right. left. reflexivity.
  - injection H as <- <-. split; [exact ND|]. split; [discriminate|reflexivity].
Qed.

(** * Serialization *)

Lemma emplace_last t a m : sorted m -> (forall e, In e m -> fst e < t) -> emplace t a m = m ++ [(t, a)].
Proof.
  intros S L. unfold emplace. assert (N : find t m = None).
  { apply find_none; [exact S|]. intros I. apply in_map_iff in I. destruct I as [e [<- I]]. specialize (L e I). lia. }
  rewrite N. rewrite lower_bound_filter by exact S.
  rewrite filter_all by (intros e I; apply Z.ltb_lt; exact (L e I)).
  rewrite filter_none by (intros e I; apply Z.leb_gt; exact (L e I)). reflexivity.
Qed.

Lemma read_write_gen f m : forall m0, sorted (m0 ++ m) ->
  fold_left (fun m e => emplace (fst e) (f (snd e)) m) m (map (fun e => (fst e, f (snd e))) m0) =
  map (fun e => (fst e, f (snd e))) (m0 ++ m).
Proof.
  assert (SM : forall m, sorted m -> sorted (map (fun e => (fst e, f (snd e))) m)).
  { clear m. induction m as [|a r IH]; intros S; [constructor|]. apply StronglySorted_inv in S. destruct S as [S1 S2].
    cbn [map]. constructor; [exact (IH S1)|]. rewrite Forall_forall in *. intros x I. apply in_map_iff in I.
    destruct I as [e [<- I]]. exact (S2 e I). }
  induction m as [|[t a] r IH]; intros m0 S; [rewrite app_nil_r; reflexivity|]. cbn [fold_left fst snd].
  assert (S' : sorted ((m0 ++ [(t, a)]) ++ r)) by (rewrite <- app_assoc; exact S).
  assert (SL : sorted m0 /\ forall e, In e m0 -> fst e < t).
  { clear - S. induction m0 as [|b q IH]; [split; [constructor|intros e []]|]. cbn [app] in S. apply StronglySorted_inv in S.
    destruct S as [S F]. destruct (IH S) as [I1 I2]. apply Forall_app in F. destruct F as [F1 F2]. split; [constructor; assumption|].
    intros e [<-|I]; [exact (Forall_inv F2)|exact (I2 e I)]. }
  destruct SL as [S0 L]. rewrite emplace_last.
  - specialize (IH (m0 ++ [(t, a)]) S'). rewrite map_app in IH. cbn [map fst snd] in IH. rewrite IH. rewrite <- app_assoc. reflexivity.
  - apply SM, S0.
  - intros e I. apply in_map_iff in I. destruct I as [x [<- I]]. exact (L x I).
Qed.

(** The first entry of the message for a time. *)
Definition first_for (message : list (Z * A)) t a : Prop :=
  exists l1 l2, message = l1 ++ (t, a) :: l2 /\ ~ In t (map fst l1).
Lemma read_any_gen f message : forall m, sorted m ->
  let r := fold_left (fun m e => emplace (fst e) (f (snd e)) m) message m in
  sorted r /\ forall t x, In (t, x) r <-> In (t, x) m \/ (~ In t (map fst m) /\ exists a, first_for message t a /\ x = f a).
Proof.
  induction message as [|[k b] r IH]; intros m S; cbn [fold_left fst snd].
  - split; [exact S|]. intros t x. split; [auto|]. intros [I|(_ & a & (l1 & l2 & E & _) & _)]; [exact I|]. destruct l1; discriminate.
  - destruct (find k m) as [c|] eqn:F.
    + replace (emplace k (f b) m) with m by (unfold emplace; rewrite F; reflexivity).
      destruct (IH m S) as [IH1 IH2]. split; [exact IH1|]. intros t x. rewrite IH2. apply find_in in F; [|exact S].
      assert (K : In k (map fst m)) by (apply in_map_iff; exists (k, c); auto).
      split; (intros [I|(N & a & (l1 & l2 & E & M) & X)]; [left; exact I|right; split; [exact N|]]; exists a; split; [|exact X]).
      * exists ((k, b) :: l1), l2. split; [rewrite E; reflexivity|]. cbn [map fst]. intros [->|J]; auto.
      * destruct l1 as [|e l1]; [injection E as -> -> ->; contradiction|]. injection E as E1 E2; subst r e.
        exists l1, l2. split; [reflexivity|]. intros J. apply M. right. exact J.
    + destruct (emplace_spec k (f b) m S F) as [S' P]. destruct (IH _ S') as [IH1 IH2]. split; [exact IH1|].
      intros t x. rewrite IH2. apply find_none in F; [|exact S].
      assert (PI : forall e, In e (emplace k (f b) m) <-> e = (k, f b) \/ In e m).
      { intros e. split; intros I; [apply (Permutation_in _ P) in I; destruct I as [<-|I]; auto|].
        apply (Permutation_in _ (Permutation_sym P)). destruct I as [->|I]; [left; reflexivity|right; exact I]. }
      assert (PK : forall u, In u (map fst (emplace k (f b) m)) <-> u = k \/ In u (map fst m)).
      { intros u. rewrite !in_map_iff. split.
        - intros (e & <- & I). apply PI in I. destruct I as [->|I]; [left; reflexivity|right; exists e; auto].
        - intros [->|(e & <- & I)]; [exists (k, f b); split; [reflexivity|apply PI; auto]|exists e; split; [reflexivity|apply PI; auto]]. }
      rewrite PI, PK. split.
      * intros [[E|I]|(N & a & (l1 & l2 & E & M) & X)].
        -- injection E as -> ->. right. split; [exact F|]. exists b. split; [|reflexivity]. exists [], r. split; [reflexivity|intros []].
        -- left. exact I.
        -- right. split; [tauto|]. exists a. split; [|exact X]. exists ((k, b) :: l1), l2. split; [rewrite E; reflexivity|].
           cbn [map fst]. intros [->|J]; tauto.
      * intros [I|(N & a & (l1 & l2 & E & M) & X)]; [left; right; exact I|].
        destruct l1 as [|e l1]; [injection E as -> -> ->; left; left; rewrite X; reflexivity|]. injection E as E1 E2; subst r e.
        right. split; [intros [->|J]; [apply M; left; reflexivity|contradiction]|]. exists a. split; [|exact X].
        exists l1, l2. split; [reflexivity|]. intros J. apply M. right. exact J.
Qed.
Definition rewritten (rewriter : option (A -> A)) (a : A) : A := match rewriter with None => a | Some f => f a end.
Lemma read_any rewriter message :
  sorted (ReadFromMessage rewriter message) /\
  forall t x, In (t, x) (ReadFromMessage rewriter message) <-> exists a, first_for message t a /\ x = rewritten rewriter a.
Proof.
  destruct (read_any_gen (rewritten rewriter) message [] (SSorted_nil _)) as [H1 H2]. split; [exact H1|].
  intros t x. specialize (H2 t x). change (ReadFromMessage rewriter message) with
    (fold_left (fun m e => emplace (fst e) (rewritten rewriter (snd e)) m) message []). rewrite H2. cbn. tauto.
Qed.

Lemma round_trip m : sorted m -> ReadFromMessage None (WriteToMessage m) = m.
Proof.
  intros S. unfold ReadFromMessage, WriteToMessage. etransitivity; [exact (read_write_gen (fun a => a) m [] S)|]. cbn [app].
  induction m as [|[t a] r IH]; [reflexivity|]. cbn [map fst snd]. f_equal. apply IH. apply StronglySorted_inv in S. tauto.
Qed.
Lemma round_trip_rewriter f m : sorted m ->
  ReadFromMessage (Some f) (WriteToMessage m) = map (fun e => (fst e, f (snd e))) m.
Proof. intros S. exact (read_write_gen f m [] S). Qed.

End Map.

(** * Threads *)

Definition writing (c : nat) (th : thread) : Prop := (exists i, doing th = Inserted i c) \/ doing th = Filling c.
Definition mentions (th : thread) : list nat :=
  match doing th with Inserted _ c | Filling c | Found _ c | Reading c => [c] | Idle => [] end.

Record invariant (s : state) : Prop := {
  inv_sorted : sorted (entries (shared s));
  inv_bound : forall t c, In (t, c) (entries (shared s)) -> (c < length (messages (shared s)))%nat;
  inv_mentions : forall th c, In th (threads s) -> In c (mentions th) -> (c < length (messages (shared s)))%nat;
  inv_filled : forall t c, In (t, c) (entries (shared s)) ->
    nth c (messages (shared s)) false = true \/ exists th, In th (threads s) /\ writing c th }.

Lemma set_nth_split {A} n (a x : A) l : nth_error l n = Some x ->
  exists l1 l2, l = l1 ++ x :: l2 /\ length l1 = n /\ set_nth n a l = l1 ++ a :: l2.
Proof.
  intros H. destruct (nth_error_split l n H) as (l1 & l2 & E & L). exists l1, l2. split; [exact E|]. split; [exact L|].
  unfold set_nth. subst l n. rewrite firstn_app, firstn_all, Nat.sub_diag, firstn_O, app_nil_r.
  f_equal. f_equal. change (S (length l1)) with (1 + length l1)%nat. rewrite Nat.add_comm.
  rewrite skipn_app. rewrite skipn_all2 by lia. replace (length l1 + 1 - length l1)%nat with 1%nat by lia. reflexivity.
Qed.

Lemma set_nth_nth {A} n m (a d : A) l : (n < length l)%nat -> nth m (set_nth n a l) d = if Nat.eqb m n then a else nth m l d.
Proof.
  intros L. destruct (nth_error l n) as [x|] eqn:E; [|apply nth_error_None in E; lia].
  destruct (set_nth_split n a x l E) as (l1 & l2 & -> & L1 & ->).
  destruct (Nat.eqb_spec m n) as [->|N].
  - rewrite app_nth2, L1, Nat.sub_diag by lia. reflexivity.
  - destruct (Nat.ltb_spec m n) as [K|K].
    + rewrite !app_nth1 by lia. reflexivity.
    + rewrite !app_nth2 by lia. destruct (m - length l1)%nat as [|k] eqn:F; [lia|]. reflexivity.
Qed.
Lemma set_nth_length {A} n (a : A) l : (n < length l)%nat -> length (set_nth n a l) = length l.
Proof.
  intros L. destruct (nth_error l n) as [x|] eqn:E; [|apply nth_error_None in E; lia].
  destruct (set_nth_split n a x l E) as (l1 & l2 & -> & L1 & ->). rewrite !app_length. reflexivity.
Qed.

(** Replacing the activity of a thread that is not writing, without changing the memory. *)
Lemma quiet_step s n th a cs b : invariant s -> nth_error (threads s) n = Some th ->
  (forall c, writing c th -> writing c (Thread a cs)) ->
  (forall c, In c (mentions (Thread a cs)) -> (c < length (messages (shared s)))%nat) ->
  invariant (State (shared s) (set_nth n (Thread a cs) (threads s)) b Running).
Proof.
  intros [S B M F] E W MB. destruct (set_nth_split n (Thread a cs) th _ E) as (l1 & l2 & E1 & _ & E2).
  constructor; cbn [shared threads]; try assumption.
  - rewrite E2. intros th' c I J. apply in_app_or in I. destruct I as [I|[<-|I]].
    + apply (M th' c); [rewrite E1; apply in_or_app; left; exact I|exact J].
    + exact (MB c J).
    + apply (M th' c); [rewrite E1; apply in_or_app; right; right; exact I|exact J].
  - intros t c I. destruct (F t c I) as [K|(th' & J & K)]; [left; exact K|]. right.
    rewrite E1 in J. rewrite E2. apply in_app_or in J. destruct J as [J|[<-|J]].
    + exists th'. split; [apply in_or_app; left; exact J|exact K].
    + exists (Thread a cs). split; [apply in_or_app; right; left; reflexivity|exact (W c K)].
    + exists th'. split; [apply in_or_app; right; right; exact J|exact K].
Qed.

Lemma insertion_step s n th t cs b : invariant s -> nth_error (threads s) n = Some th -> doing th = Idle ->
  find t (entries (shared s)) = None ->
  invariant (State (insert_message t (shared s))
    (set_nth n (Thread (Inserted (S (version (shared s))) (length (messages (shared s)))) cs) (threads s)) b Running).
Proof.
  intros [S B M F] E ID N.
  destruct (set_nth_split n (Thread (Inserted (Datatypes.S (version (shared s))) (length (messages (shared s)))) cs) th _ E) as (l1 & l2 & E1 & _ & E2).
  destruct (emplace_spec t (length (messages (shared s))) _ S N) as [S' P'].
  constructor; cbn [shared threads insert_message entries messages].
  - exact S'.
  - intros u c I. rewrite app_length. cbn [length]. apply (Permutation_in _ P') in I. destruct I as [I|I].
    + injection I as _ <-. lia.
    + specialize (B u c I). lia.
  - rewrite E2, app_length. cbn [length]. intros th' c I J. apply in_app_or in I. destruct I as [I|[<-|I]].
    + assert (K : In th' (threads s)) by (rewrite E1; apply in_or_app; left; exact I). specialize (M th' c K J). lia.
    + destruct J as [<-|[]]. lia.
    + assert (K : In th' (threads s)) by (rewrite E1; apply in_or_app; right; right; exact I). specialize (M th' c K J). lia.
  - intros u c I. apply (Permutation_in _ P') in I. destruct I as [I|I].
    + injection I as _ <-. right. eexists. split; [rewrite E2; apply in_or_app; right; left; reflexivity|].
      left. eexists. reflexivity.
    + specialize (B u c I). destruct (F u c I) as [K|(th' & J & K)].
      * left. rewrite app_nth1 by exact B. exact K.
      * right. exists th'. split; [|exact K]. rewrite E1 in J. rewrite E2. apply in_app_or in J. destruct J as [J|[<-|J]].
        -- apply in_or_app; left; exact J.
        -- destruct K as [[i K]|K]; rewrite ID in K; discriminate.
        -- apply in_or_app; right; right; exact J.
Qed.

Lemma filling_step s n c cs b : invariant s -> nth_error (threads s) n = Some (Thread (Filling c) cs) ->
  invariant (State (Memory (entries (shared s)) (set_nth c true (messages (shared s))) (version (shared s)))
    (set_nth n (Thread Idle cs) (threads s)) b Running).
Proof.
  intros [S B M F] E. destruct (set_nth_split n (Thread Idle cs) _ _ E) as (l1 & l2 & E1 & _ & E2).
  assert (LC : (c < length (messages (shared s)))%nat).
  { apply (M (Thread (Filling c) cs) c); [exact (nth_error_In _ _ E)|left; reflexivity]. }
  constructor; cbn [shared threads entries messages].
  - exact S.
  - rewrite set_nth_length by exact LC. exact B.
  - rewrite E2, set_nth_length by exact LC. intros th' c' I J. apply in_app_or in I. destruct I as [I|[<-|I]].
    + apply (M th' c'); [rewrite E1; apply in_or_app; left; exact I|exact J].
    + destruct J.
    + apply (M th' c'); [rewrite E1; apply in_or_app; right; right; exact I|exact J].
  - intros t c' I. rewrite set_nth_nth by exact LC. destruct (Nat.eqb_spec c' c) as [->|NE]; [left; reflexivity|].
    destruct (F t c' I) as [K|(th' & J & K)]; [left; exact K|]. right.
    rewrite E1 in J. rewrite E2. apply in_app_or in J. destruct J as [J|[<-|J]].
    + exists th'. split; [apply in_or_app; left; exact J|exact K].
    + destruct K as [[i K]|K]; cbn in K; congruence.
    + exists th'. split; [apply in_or_app; right; right; exact J|exact K].
Qed.

Lemma read_oldest_in {A} (m : list (Z * A)) c : ReadFromOldestCheckpoint m = Some c -> exists t, In (t, c) m.
Proof. destruct m as [|[t a] r]; [discriminate|]. intros H. injection H as ->. exists t. left. reflexivity. Qed.
Lemma read_newest_in {A} (m : list (Z * A)) c : ReadFromNewestCheckpoint m = Some c -> exists t, In (t, c) m.
Proof.
  unfold ReadFromNewestCheckpoint. destruct (last_entry m) as [[t a]|] eqn:E; [|discriminate].
  intros H. injection H as ->. exists t. exact (last_entry_in _ _ E).
Qed.
Lemma read_at_or_before_in {A} t (m : list (Z * A)) c : sorted m -> ReadFromCheckpointAtOrBefore t m = Some c -> exists t, In (t, c) m.
Proof.
  intros S H. pose proof (read_at_or_before_ok t m S) as D. rewrite H in D.
  destruct (checkpoint_at_or_before t m) as [|u|]; [discriminate| |discriminate].
  destruct D as (a & E & I). injection E as <-. exists u. exact I.
Qed.

Lemma step_invariant n s s' : invariant s -> step n s = Some s' -> invariant s'.
Proof.
  intros I H. unfold step in H. destruct (result s) eqn:R; try discriminate.
  destruct (nth_error (threads s) n) as [[a cs]|] eqn:E; [|discriminate]. cbn [doing calls] in H.
  assert (SAME : forall o, invariant (State (shared s) (threads s) (seen s) o)) by (intros o; destruct I; constructor; assumption).
  assert (MB : forall c, In c (mentions (Thread a cs)) -> (c < length (messages (shared s)))%nat).
  { intros c J. exact (inv_mentions s I _ c (nth_error_In _ _ E) J). }
  assert (RD : forall o cs', a = Idle -> (forall c, o = Some c -> exists t, In (t, c) (entries (shared s))) ->
    invariant (State (shared s) (set_nth n (Thread (read_activity o) cs') (threads s)) (seen s) Running)).
  { intros o cs' -> K. apply (quiet_step s n _ _ _ _ I E).
    - intros c [[i W]|W]; discriminate.
    - intros c J. destruct o as [c'|]; [|destruct J]. destruct J as [<-|[]]. destruct (K c' eq_refl) as [t T].
      exact (inv_bound s I t c' T). }
  destruct a as [|i c|c|i c|c].
  - destruct cs as [|[t|t d| | |t|t] cs]; [discriminate| | | | | |].
    + destruct (find t (entries (shared s))) eqn:F; injection H as <-; [apply SAME|].
      exact (insertion_step s n _ t cs (seen s) I E eq_refl F).
    + destruct (needed t d (entries (shared s))).
      * destruct (find t (entries (shared s))) eqn:F; injection H as <-; [apply SAME|].
        exact (insertion_step s n _ t cs (seen s) I E eq_refl F).
      * injection H as <-. apply (quiet_step s n _ _ _ _ I E); [intros c W; destruct W as [[i W]|W]; discriminate|intros c []].
    + injection H as <-. apply RD; [reflexivity|]. intros c. apply read_oldest_in.
    + injection H as <-. apply RD; [reflexivity|]. intros c. apply read_newest_in.
    + injection H as <-. apply RD; [reflexivity|]. intros c. apply read_at_or_before_in. exact (inv_sorted s I).
    + injection H as <-. apply (quiet_step s n _ _ _ _ I E); [intros c W; destruct W as [[i W]|W]; discriminate|].
      intros c J. destruct (find t (entries (shared s))) as [c'|] eqn:F; [|destruct J]. destruct J as [<-|[]].
      apply (find_in t _ c' (inv_sorted s I)) in F. exact (inv_bound s I t c' F).
  - destruct (Nat.eqb i (version (shared s))); injection H as <-; [|apply SAME].
    apply (quiet_step s n _ _ _ _ I E); [|exact MB]. intros c' [[i' W]|W]; [|discriminate]. injection W as <- <-. right. reflexivity.
  - injection H as <-. exact (filling_step s n c cs (seen s) I E).
  - destruct (Nat.eqb i (version (shared s))); injection H as <-; [|apply SAME].
    apply (quiet_step s n _ _ _ _ I E); [|exact MB]. intros c' W; destruct W as [[i' W]|W]; discriminate.
  - injection H as <-. apply (quiet_step s n _ _ _ _ I E); [intros c' W; destruct W as [[i' W]|W]; discriminate|intros c' []].
Qed.

Lemma reachable_invariant programs s : reachable programs s -> invariant s.
Proof.
  induction 1 as [|s n s' R I H]; [|exact (step_invariant n s s' I H)].
  constructor; cbn.
  - constructor.
  - intros t c [].
  - intros th c J K. apply in_map_iff in J. destruct J as [cs [<- J]]. destruct K.
  - intros t c [].
Qed.

(** Once filled, a checkpoint remains filled. *)
Lemma filled_stays n s s' c : invariant s -> step n s = Some s' -> nth c (messages (shared s)) false = true ->
  nth c (messages (shared s')) false = true.
Proof.
  intros I H F. unfold step in H. destruct (result s) eqn:R; try discriminate.
  destruct (nth_error (threads s) n) as [[a cs]|] eqn:E; [|discriminate]. cbn [doing calls] in H.
  assert (LC : (c < length (messages (shared s)))%nat).
  { destruct (Nat.ltb_spec c (length (messages (shared s)))) as [L|L]; [exact L|]. rewrite nth_overflow in F by exact L. discriminate. }
  assert (K : forall t, nth c (messages (insert_message t (shared s))) false = true).
  { intros t. cbn. rewrite app_nth1 by exact LC. exact F. }
  destruct a as [|i c'|c'|i c'|c'].
  - destruct cs as [|[t|t d| | |t|t] cs]; [discriminate| | | | | |]; try destruct (needed _ _ _);
      try destruct (find t (entries (shared s))); injection H as <-; cbn [shared]; try exact F; exact (K t).
  - destruct (Nat.eqb _ _); injection H as <-; exact F.
  - injection H as <-. cbn [shared messages].
    assert (LC' : (c' < length (messages (shared s)))%nat).
    { apply (inv_mentions s I (Thread (Filling c') cs) c'); [exact (nth_error_In _ _ E)|left; reflexivity]. }
    rewrite set_nth_nth by exact LC'. destruct (Nat.eqb c c'); [reflexivity|exact F].
  - destruct (Nat.eqb _ _); injection H as <-; exact F.
  - injection H as <-. exact F.
Qed.

(** ** One thread that writes, the others only reading through pointers *)

Definition pointer_read (c : call) : Prop :=
  match c with ReadOldest | ReadNewest | ReadAtOrBefore _ => True | _ => False end.
Definition reader (th : thread) : Prop :=
  Forall pointer_read (calls th) /\ match doing th with Idle | Reading _ => True | _ => False end.
Definition writer (v : nat) (th : thread) : Prop :=
  match doing th with Inserted i _ | Found i _ => i = v | _ => True end.

Lemma one_writer_step s n s' w rs : threads s = w :: rs -> writer (version (shared s)) w -> Forall reader rs ->
  step n s = Some s' -> result s' <> UndefinedBehaviour /\
  exists w' rs', threads s' = w' :: rs' /\ writer (version (shared s')) w' /\ Forall reader rs'.
Proof.
  intros ET W RS H. unfold step in H. destruct (result s) eqn:R; try discriminate.
  destruct (nth_error (threads s) n) as [[a cs]|] eqn:E; [|discriminate]. cbn [doing calls] in H.
  destruct n as [|n].
  - rewrite ET in E. cbn in E. injection E as ->. unfold writer in W. cbn [doing] in W.
    assert (Q : forall x, set_nth 0 x (threads s) = x :: rs) by (intros x; rewrite ET; reflexivity).
    destruct a as [|i c|c|i c|c].
    + destruct cs as [|[t|t d| | |t|t] cs]; [discriminate| | | | | |]; try destruct (needed _ _ _);
        try destruct (find t (entries (shared s))); injection H as <-; cbn [shared threads result]; rewrite ?Q;
        (split; [discriminate|]);
        first [rewrite ET; do 2 eexists; split; [reflexivity|split; [exact Logic.I|exact RS]] |
               do 2 eexists; split; [reflexivity|split; [|exact RS]]]; unfold writer; cbn [doing]; try reflexivity; try exact Logic.I.
      all: unfold read_activity; match goal with |- context [match ?x with _ => _ end] => destruct x; exact Logic.I end.
    + subst i. rewrite Nat.eqb_refl in H. injection H as <-. split; [discriminate|]. cbn [threads shared]. rewrite Q.
      do 2 eexists. split; [reflexivity|]. split; [exact Logic.I|exact RS].
    + injection H as <-. split; [discriminate|]. cbn [threads shared]. rewrite Q.
      do 2 eexists. split; [reflexivity|]. split; [exact Logic.I|exact RS].
    + subst i. rewrite Nat.eqb_refl in H. injection H as <-. split; [discriminate|]. cbn [threads shared]. rewrite Q.
      do 2 eexists. split; [reflexivity|]. split; [exact Logic.I|exact RS].
    + injection H as <-. split; [discriminate|]. cbn [threads shared]. rewrite Q.
      do 2 eexists. split; [reflexivity|]. split; [exact Logic.I|exact RS].
  - rewrite ET in E. cbn [nth_error] in E.
    assert (Q : forall x, set_nth (S n) x (threads s) = w :: set_nth n x rs) by (intros x; rewrite ET; reflexivity).
    assert (RT : reader (Thread a cs)) by (rewrite Forall_forall in RS; exact (RS _ (nth_error_In _ _ E))).
    assert (K : forall x, reader x -> Forall reader (set_nth n x rs)).
    { intros x X. destruct (set_nth_split n x _ _ E) as (l1 & l2 & E1 & _ & E2). rewrite E2. rewrite E1 in RS.
      apply Forall_app in RS. destruct RS as [R1 R2]. apply Forall_app. split; [exact R1|]. constructor; [exact X|].
      exact (Forall_inv_tail R2). }
    destruct RT as [C D]. cbn [calls doing] in C, D.
    destruct a as [|i c|c|i c|c]; try contradiction.
    + destruct cs as [|[t|t d| | |t|t] cs]; [discriminate| | | | | |]; pose proof (Forall_inv C) as C0;
        try contradiction; apply Forall_inv_tail in C; injection H as <-; cbn [shared threads result]; rewrite ?Q;
        (split; [discriminate|]); do 2 eexists; (split; [reflexivity|split; [exact W|]]); apply K; (split; [exact C|]);
        cbn [doing]; unfold read_activity; match goal with |- context [match ?x with Some _ => _ | None => _ end] => destruct x; exact Logic.I end.
    + injection H as <-. split; [discriminate|]. cbn [threads shared]. rewrite Q. do 2 eexists. split; [reflexivity|].
      split; [exact W|]. apply K. split; [exact C|exact Logic.I].
Qed.

Lemma one_writer w rs s : Forall (Forall pointer_read) rs -> reachable (w :: rs) s ->
  result s <> UndefinedBehaviour.
Proof.
  intros P R.
  assert (K : result s <> UndefinedBehaviour /\
    exists w' rs', threads s = w' :: rs' /\ writer (version (shared s)) w' /\ Forall reader rs').
  { induction R as [|s n s' R (_ & w' & rs' & E & W & F) H].
    - split; [discriminate|]. do 2 eexists. split; [reflexivity|]. split; [exact Logic.I|].
      apply Forall_forall. intros th I. apply in_map_iff in I. destruct I as [cs [<- I]].
      rewrite Forall_forall in P. split; [exact (P cs I)|exact Logic.I].
    - exact (one_writer_step s n s' w' rs' E W F H). }
  tauto.
Qed.

(** ** A single thread *)

Lemma single_thread program s : reachable [program] s ->
  result s <> UndefinedBehaviour /\ Forall (fun b => b = true) (seen s).
Proof.
  intros R. split; [exact (one_writer program [] s (Forall_nil _) R)|].
  assert (K : Forall (fun b => b = true) (seen s) /\ exists th, threads s = [th] /\
    match doing th with Reading c | Found _ c => nth c (messages (shared s)) false = true | _ => True end).
  { induction R as [|s n s' R (F & th & ET & D) H].
    - split; [constructor|]. eexists. split; [reflexivity|exact Logic.I].
    - pose proof (reachable_invariant _ _ R) as INV.
      unfold step in H. destruct (result s) eqn:RE; try discriminate. rewrite ET in H.
      destruct n as [|n]; [|cbn in H; destruct n; discriminate H]. cbn [nth_error] in H. destruct th as [a cs]. cbn [doing calls] in H, D.
      assert (Q : forall x, set_nth 0 x [Thread a cs] = [x]) by reflexivity.
      assert (FL : a = Idle -> forall t c, In (t, c) (entries (shared s)) -> nth c (messages (shared s)) false = true).
      { intros -> t c I. destruct (inv_filled s INV t c I) as [T|(th & J & K)]; [exact T|].
        rewrite ET in J. destruct J as [<-|[]]. destruct K as [[i K]|K]; discriminate. }
      destruct a as [|i c|c|i c|c].
      + specialize (FL eq_refl).
        destruct cs as [|[t|t d| | |t|t] cs]; [discriminate| | | | | |].
        * destruct (find t (entries (shared s))); injection H as <-; (split; [exact F|]); cbn [threads]; eexists;
            (split; [first [exact ET|reflexivity]|]); exact Logic.I.
        * destruct (needed _ _ _); [destruct (find t (entries (shared s)))|]; injection H as <-; (split; [exact F|]);
            cbn [threads]; eexists; (split; [first [exact ET|reflexivity]|]); exact Logic.I.
        * injection H as <-. split; [exact F|]. eexists. split; [reflexivity|]. cbn [doing shared].
          destruct (ReadFromOldestCheckpoint _) as [c|] eqn:E; [|exact Logic.I]. destruct (read_oldest_in _ _ E) as [t I]. exact (FL t c I).
        * injection H as <-. split; [exact F|]. eexists. split; [reflexivity|]. cbn [doing shared].
          destruct (ReadFromNewestCheckpoint _) as [c|] eqn:E; [|exact Logic.I]. destruct (read_newest_in _ _ E) as [t I]. exact (FL t c I).
        * injection H as <-. split; [exact F|]. eexists. split; [reflexivity|]. cbn [doing shared].
          destruct (ReadFromCheckpointAtOrBefore _ _) as [c|] eqn:E; [|exact Logic.I].
          destruct (read_at_or_before_in _ _ _ (inv_sorted s INV) E) as [u I]. exact (FL u c I).
        * injection H as <-. split; [exact F|]. eexists. split; [reflexivity|]. cbn [doing shared].
          destruct (find t _) as [c|] eqn:E; [|exact Logic.I].
          apply (find_in t _ c (inv_sorted s INV)) in E. exact (FL t c E).
      + destruct (Nat.eqb _ _); injection H as <-; (split; [exact F|]); eexists; (split; [first [exact ET|reflexivity]|]); exact Logic.I.
      + injection H as <-. split; [exact F|]. eexists. split; [reflexivity|]. exact Logic.I.
      + destruct (Nat.eqb _ _); injection H as <-; (split; [exact F|]); eexists; (split; [first [exact ET|reflexivity]|]); exact D.
      + injection H as <-. split; [constructor; [exact D|exact F]|]. eexists. split; [reflexivity|]. exact Logic.I. }
  tauto.
Qed.
