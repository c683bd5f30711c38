(** Specifications and proofs for the protector and the clientele. *)
From Coq Require Import List Arith ZArith Bool Lia Sorted Permutation.
From Verif Require Import Protector_Model.
Import ListNotations.
Open Scope Z_scope.

(** * Sorted containers *)

Definition ordered {A} (key : A -> Z) : list A -> Prop := StronglySorted (fun a b => key a <= key b).

Lemma insert_permutation {A} (key : A -> Z) a l : Permutation (insert key a l) (a :: l).
Proof.
  induction l as [|b r IH]; [reflexivity|]. cbn [insert]. destruct (key a <? key b); [reflexivity|].
  rewrite IH. apply perm_swap.
Qed.

Lemma insert_ordered {A} (key : A -> Z) a l : ordered key l -> ordered key (insert key a l).
Proof.
  induction l as [|b r IH]; intros H; cbn [insert].
  - constructor; constructor.
  - apply StronglySorted_inv in H. destruct H as [H1 H2].
    destruct (Z.ltb_spec (key a) (key b)) as [L|L].
    + constructor; [constructor; assumption|]. constructor; [lia|].
      eapply Forall_impl; [|exact H2]. intros; cbn in *; lia.
    + constructor; [exact (IH H1)|].
      apply (Permutation_Forall (Permutation_sym (insert_permutation key a r))). constructor; [lia|exact H2].
Qed.

Lemma erase_permutation k l l' : erase k l = Some l' -> Permutation l (k :: l').
Proof.
  revert l'. induction l as [|a r IH]; intros l' H; [discriminate|]. cbn [erase] in H.
  destruct (Z.eqb_spec a k) as [->|N].
  - injection H as ->. reflexivity.
  - destruct (erase k r) as [r'|]; [|discriminate]. injection H as <-. rewrite (IH _ eq_refl). apply perm_swap.
Qed.

Lemma erase_in k l : In k l <-> erase k l <> None.
Proof.
  induction l as [|a r IH]; [cbn; intuition|]. cbn [erase In].
  destruct (Z.eqb_spec a k) as [->|N]; [split; [discriminate|intros; left; reflexivity]|].
  destruct (erase k r); rewrite IH; split; intros; try discriminate; intuition congruence.
Qed.

Lemma erase_ordered k l l' : ordered (fun x => x) l -> erase k l = Some l' -> ordered (fun x => x) l'.
Proof.
  revert l'. induction l as [|a r IH]; intros l' S H; [discriminate|]. cbn [erase] in H.
  apply StronglySorted_inv in S. destruct S as [S1 S2].
  destruct (Z.eqb_spec a k) as [->|N].
  - injection H as <-. exact S1.
  - destruct (erase k r) as [r'|] eqn:E; [|discriminate]. injection H as <-.
    constructor; [exact (IH _ S1 eq_refl)|].
    pose proof (Permutation_Forall (erase_permutation _ _ _ E) S2) as F. exact (Forall_inv_tail F).
Qed.

Lemma filter_ordered {A} (key : A -> Z) f l : ordered key l -> ordered key (filter f l).
Proof.
  induction l as [|a r IH]; intros S; [constructor|]. apply StronglySorted_inv in S. destruct S as [S1 S2].
  cbn [filter]. destruct (f a); [|exact (IH S1)]. constructor; [exact (IH S1)|].
  rewrite Forall_forall in *. intros b B. apply filter_In in B. exact (S2 b (proj1 B)).
Qed.

Lemma filter_partition {A} (f : A -> bool) l : Permutation l (filter f l ++ filter (fun a => negb (f a)) l).
Proof.
  induction l as [|a r IH]; [reflexivity|]. cbn [filter]. destruct (f a); cbn [negb app].
  - constructor. exact IH.
  - apply Permutation_cons_app. exact IH.
Qed.

(** * Clientele *)

(** The specification: the live keys, in no particular order. *)
Inductive event := Joins (key : Z) | Leaves (key : Z).
Fixpoint remove_one (k : Z) (l : list Z) : list Z :=
  match l with [] => [] | a :: r => if Z.eq_dec a k then r else a :: remove_one k r end.
Fixpoint live (past_first : list event) (l : list Z) : list Z :=
  match past_first with
  | [] => l
  | Joins k :: r => live r (k :: l)
  | Leaves k :: r => live r (remove_one k l)
  end.
(** No client leaves without having joined. *)
Fixpoint balanced (es : list event) (l : list Z) : Prop :=
  match es with
  | [] => True
  | Joins k :: r => balanced r (k :: l)
  | Leaves k :: r => In k l /\ balanced r (remove_one k l)
  end.
Fixpoint run (es : list event) (c : clientele) : option clientele :=
  match es with
  | [] => Some c
  | Joins k :: r => run r (Join k c)
  | Leaves k :: r => match Leave k c with Some c' => run r c' | None => None end
  end.
Definition least_or_default (d : Z) (keys : list Z) (k : Z) : Prop :=
  (keys = [] /\ k = d) \/ (In k keys /\ forall j, In j keys -> k <= j).

Lemma remove_one_permutation k l : In k l -> Permutation l (k :: remove_one k l).
Proof.
  induction l as [|a r IH]; [intros []|]. cbn [remove_one]. intros [->|H].
  - destruct (Z.eq_dec k k); [reflexivity|contradiction].
  - destruct (Z.eq_dec a k) as [->|N]; [reflexivity|]. rewrite (IH H) at 1. apply perm_swap.
Qed.

Lemma run_spec es : forall c l, ordered (fun k => k) (clients c) -> Permutation (clients c) l ->
  match run es c with
  | Some c' => balanced es l /\ default_key c' = default_key c /\ ordered (fun k => k) (clients c') /\
               Permutation (clients c') (live es l)
  | None => ~ balanced es l
  end.
Proof.
  induction es as [|[k|k] r IH]; intros c l S P; cbn [run balanced live].
  - auto.
  - specialize (IH (Join k c) (k :: l)). cbn [Join clients default_key] in IH. apply IH.
    + apply insert_ordered. exact S.
    + rewrite insert_permutation. constructor. exact P.
  - unfold Leave. destruct (erase k (clients c)) as [l'|] eqn:E.
    + assert (I : In k l). { apply (Permutation_in _ P). apply erase_in. congruence. }
      specialize (IH (Clientele (default_key c) l') (remove_one k l)). cbn [clients default_key] in IH.
      assert (P' : Permutation l' (remove_one k l)).
      { apply (Permutation_cons_inv (a := k)). rewrite <- (erase_permutation _ _ _ E), P. apply remove_one_permutation, I. }
      specialize (IH (erase_ordered _ _ _ S E) P').
      destruct (run r _); [|tauto]. tauto.
    + intros [I _]. apply (Permutation_in k (Permutation_sym P)) in I. apply erase_in in I. contradiction.
Qed.

Lemma first_spec c : ordered (fun k => k) (clients c) -> least_or_default (default_key c) (clients c) (first c).
Proof.
  unfold least_or_default, first. destruct (clients c) as [|k r]; [left; auto|]. intros S. right.
  split; [left; reflexivity|]. intros j [<-|J]; [lia|].
  apply StronglySorted_inv in S. destruct S as [_ F]. rewrite Forall_forall in F. exact (F j J).
Qed.

Lemma clientele_ok d es :
  (run es (Clientele d []) <> None <-> balanced es []) /\
  forall c, run es (Clientele d []) = Some c -> least_or_default d (live es []) (first c).
Proof.
  pose proof (run_spec es (Clientele d []) [] (SSorted_nil _) (Permutation_refl _)) as H.
  destruct (run es (Clientele d [])) as [c|].
  - destruct H as (B & D & S & P). split; [split; [intros _; exact B|discriminate]|].
    intros c' E. injection E as <-. cbn [default_key] in D. rewrite <- D.
    destruct (first_spec c S) as [[E1 E2]|[I M]].
    + left. split; [|exact E2]. rewrite E1 in P. apply Permutation_nil in P. exact P.
    + right. split; [exact (Permutation_in _ P I)|]. intros j J. apply M. exact (Permutation_in _ (Permutation_sym P) J).
  - split; [split; [congruence|contradiction]|discriminate].
Qed.

(** Join followed by Leave of the same key is the identity on [first] and on the live keys. *)
Lemma join_leave c k : ordered (fun x => x) (clients c) ->
  exists c', Leave k (Join k c) = Some c' /\ Permutation (clients c') (clients c) /\ first c' = first c.
Proof.
  intros S. unfold Leave, Join. cbn [clients default_key].
  destruct (erase k (insert (fun x => x) k (clients c))) as [l|] eqn:E.
  - eexists. split; [reflexivity|]. cbn [clients].
    assert (P : Permutation l (clients c)).
    { apply (Permutation_cons_inv (a := k)). rewrite <- (erase_permutation _ _ _ E). apply insert_permutation. }
    split; [exact P|].
    pose proof (first_spec (Clientele (default_key c) l) (erase_ordered _ _ _ (insert_ordered _ _ _ S) E)) as F1.
    pose proof (first_spec c S) as F2. cbn [clients default_key] in F1.
    destruct F1 as [[E1 E2]|[I1 M1]], F2 as [[E3 E4]|[I2 M2]].
    + congruence.
    + subst l. apply Permutation_nil in P. rewrite P in I2. destruct I2.
    + rewrite E3 in P. apply Permutation_sym, Permutation_nil in P. subst l. destruct I1.
    + apply (Permutation_in _ P) in I1. apply (Permutation_in _ (Permutation_sym P)) in I2.
      specialize (M1 _ I2). specialize (M2 _ I1). lia.
  - exfalso. apply (proj1 (erase_in k (insert (fun x => x) k (clients c)))); [|exact E].
    apply (Permutation_in _ (Permutation_sym (insert_permutation _ _ _))). left; reflexivity.
Qed.

(** RAII clients with distinct identities never fail, and the keys present are those of the objects alive. *)
Fixpoint fresh (es : list client_event) (ids : list nat) : Prop :=
  match es with
  | [] => True
  | Construct id _ :: r => ~ In id ids /\ fresh r (id :: ids)
  | Destroy _ :: r => fresh r ids
  end.

Lemma find_filter (objects : list (nat * Z)) id o : NoDup (map fst objects) ->
  find (fun o => Nat.eqb (fst o) id) objects = Some o ->
  Permutation objects (o :: filter (fun o => negb (Nat.eqb (fst o) id)) objects).
Proof.
  induction objects as [|a r IH]; intros N F; [discriminate|]. cbn [find filter map] in *.
  apply NoDup_cons_iff in N. destruct N as [N1 N2]. destruct (Nat.eqb_spec (fst a) id) as [E|E]; cbn [negb].
  - injection F as <-. constructor. subst id.
    assert (K : filter (fun o => negb (Nat.eqb (fst o) (fst a))) r = r).
    { clear - N1. induction r as [|b r IH]; [reflexivity|]. cbn [filter map] in *.
      destruct (Nat.eqb_spec (fst b) (fst a)) as [E|E]; [exfalso; apply N1; left; exact E|].
      cbn [negb]. rewrite IH; [reflexivity|]. intros I. apply N1. right. exact I. }
    rewrite K. reflexivity.
  - rewrite (IH N2 F) at 1. apply perm_swap.
Qed.

Lemma raii_ok es : forall ids objects c, fresh es ids -> incl (map fst objects) ids -> NoDup (map fst objects) ->
  ordered (fun k => k) (clients c) -> Permutation (clients c) (map snd objects) ->
  exists objects' c', client_run es (objects, c) = Some (objects', c') /\
    Permutation (clients c') (map snd objects') /\ least_or_default (default_key c) (map snd objects') (first c').
Proof.
  induction es as [|[id k|id] r IH]; intros ids objects c F I N S P; cbn [client_run fresh] in *.
  - exists objects, c. split; [reflexivity|]. split; [exact P|].
    destruct (first_spec c S) as [[E1 E2]|[I1 M]].
    + left. split; [|exact E2]. rewrite E1 in P. apply Permutation_nil in P. exact P.
    + right. split; [exact (Permutation_in _ P I1)|]. intros j J. apply M. exact (Permutation_in _ (Permutation_sym P) J).
  - destruct F as [F1 F2]. cbn [client_step].
    apply (IH (id :: ids) ((id, k) :: objects) (Join k c)); try assumption.
    + cbn [map fst]. intros x [<-|X]; [left; reflexivity|right; exact (I x X)].
    + cbn [map fst]. constructor; [|exact N]. intros X. exact (F1 (I _ X)).
    + apply insert_ordered. exact S.
    + cbn [Join clients map snd]. rewrite insert_permutation. constructor. exact P.
  - cbn [client_step]. destruct (find _ objects) as [o|] eqn:E; [|exact (IH ids objects c F I N S P)].
    pose proof (find_filter objects id o N E) as Q. unfold Leave.
    destruct (erase (snd o) (clients c)) as [l|] eqn:L.
    + assert (NF : NoDup (fst o :: map fst (filter (fun o0 => negb (Nat.eqb (fst o0) id)) objects))).
      { apply (Permutation_NoDup (l := map fst objects)); [|exact N].
        change (fst o :: map fst ?x) with (map fst (o :: x)). apply Permutation_map. exact Q. }
      apply (IH ids _ (Clientele (default_key c) l)).
      * exact F.
      * intros x X. apply I. apply (Permutation_in (l := map fst (o :: filter (fun o0 => negb (Nat.eqb (fst o0) id)) objects))).
        -- apply Permutation_map, Permutation_sym, Q.
        -- right. exact X.
      * apply NoDup_cons_iff in NF. tauto.
      * exact (erase_ordered _ _ _ S L).
      * cbn [clients]. apply (Permutation_cons_inv (a := snd o)). rewrite <- (erase_permutation _ _ _ L), P.
        change (snd o :: map snd ?x) with (map snd (o :: x)). apply Permutation_map. exact Q.
    + exfalso. apply (proj1 (erase_in (snd o) (clients c))); [|exact L].
      apply (Permutation_in (l := map snd objects)); [apply Permutation_sym, P|].
      apply in_map. apply (Permutation_in _ (Permutation_sym Q)). left; reflexivity.
Qed.

(** * Protector *)

(** ]-∞, t[ does not meet any of the [s, +∞[. *)
Definition unprotected (t : Z) (times : list Z) : Prop := forall s, In s times -> forall x, x < t -> ~ s <= x.

Lemma unprotected_le t times : unprotected t times <-> (forall s, In s times -> t <= s).
Proof.
  split; intros H s I.
  - specialize (H s I (t - 1)). lia.
  - intros x X. specialize (H s I). lia.
Qed.

Lemma unprotected_first t s r : ordered (fun k => k) (s :: r) -> unprotected t (s :: r) <-> t <= s.
Proof.
  intros S. rewrite unprotected_le. split; [intros H; apply H; left; reflexivity|].
  intros L s' [<-|I]; [exact L|]. apply StronglySorted_inv in S. destruct S as [_ F]. rewrite Forall_forall in F.
  specialize (F s' I). cbn in F. lia.
Qed.

Record invariant (s : state) : Prop := {
  inv_conserved : Permutation (submitted s) (map fst (trace s) ++ concat (map running (threads s)) ++ callbacks (shared s));
  inv_times : ordered (fun k => k) (protection_start_times (shared s));
  inv_callbacks : ordered fst (callbacks (shared s));
  inv_delayed : forall cb, In cb (callbacks (shared s)) -> ~ unprotected (fst cb) (protection_start_times (shared s));
  inv_running : Forall (fun th => ordered fst (running th)) (threads s) }.

Lemma set_nth_split {A} n (a x : A) l : nth_error l n = Some x ->
  exists l1 l2, l = l1 ++ x :: l2 /\ length l1 = n /\ set_nth n a l = l1 ++ a :: l2.
Proof.
  intros H. destruct (nth_error_split l n H) as (l1 & l2 & E & L). exists l1, l2. split; [exact E|]. split; [exact L|].
  unfold set_nth. subst l n. rewrite firstn_app, firstn_all, Nat.sub_diag, firstn_O, app_nil_r.
  f_equal. f_equal. change (S (length l1)) with (1 + length l1)%nat. rewrite Nat.add_comm.
  rewrite skipn_app. rewrite skipn_all2 by lia. replace (length l1 + 1 - length l1)%nat with 1%nat by lia. reflexivity.
Qed.

Lemma run_locked_spec cb p now p' : ordered (fun k => k) (protection_start_times p) ->
  RunWhenUnprotected_locked cb p = (now, p') ->
  protection_start_times p' = protection_start_times p /\
  (now = true -> p' = p /\ unprotected (fst cb) (protection_start_times p)) /\
  (now = false -> callbacks p' = insert fst cb (callbacks p) /\ ~ unprotected (fst cb) (protection_start_times p)).
Proof.
  unfold RunWhenUnprotected_locked. destruct (protection_start_times p) as [|s r] eqn:E; intros S H.
  - injection H as <- <-. split; [exact E|]. split; [|discriminate]. intros _. split; [reflexivity|]. intros s [].
  - destruct (Z.ltb_spec s (fst cb)) as [L|L]; injection H as <- <-; cbn [protection_start_times callbacks].
    + split; [reflexivity|]. split; [discriminate|]. intros _. split; [reflexivity|].
      rewrite unprotected_first by exact S. lia.
    + split; [exact E|]. split; [|discriminate]. intros _. split; [reflexivity|]. apply unprotected_first; assumption.
Qed.

Lemma unprotect_locked_spec t p ran p' : ordered (fun k => k) (protection_start_times p) -> ordered fst (callbacks p) ->
  Unprotect_locked t p = Some (ran, p') ->
  Permutation (protection_start_times p) (t :: protection_start_times p') /\
  ordered (fun k => k) (protection_start_times p') /\
  Permutation (callbacks p) (ran ++ callbacks p') /\ ordered fst ran /\ ordered fst (callbacks p') /\
  (forall cb, In cb ran -> unprotected (fst cb) (protection_start_times p')) /\
  (forall cb, In cb (callbacks p') -> ~ unprotected (fst cb) (protection_start_times p')).
Proof.
  unfold Unprotect_locked. destruct (erase t (protection_start_times p)) as [times|] eqn:E; [|discriminate].
  intros S C H. injection H as <- <-. cbn [protection_start_times callbacks].
  pose proof (erase_ordered _ _ _ S E) as S'.
  split; [exact (erase_permutation _ _ _ E)|]. split; [exact S'|].
  split; [apply filter_partition|]. split; [apply filter_ordered, C|]. split; [apply filter_ordered, C|].
  split; intros cb I; apply filter_In in I; destruct I as [_ I]; destruct times as [|s r]; try discriminate.
  - intros s [].
  - apply Z.leb_le in I. apply unprotected_first; assumption.
  - apply negb_true_iff, Z.leb_gt in I. rewrite unprotected_first by exact S'. lia.
Qed.

Lemma permutation_pull {A} (T C R D : list A) a : Permutation (T ++ (C ++ a :: R) ++ D) (a :: T ++ (C ++ R) ++ D).
Proof.
  rewrite <- !app_assoc. cbn [app]. rewrite (app_assoc T C), (app_assoc T C). symmetry. apply Permutation_middle.
Qed.

Lemma step_invariant n s s' : invariant s -> step n s = Some s' -> invariant s'.
Proof.
  intros [P T C D R] H. unfold step in H.
  destruct (nth_error (threads s) n) as [[rn cs]|] eqn:E; [|discriminate].
  assert (SN := fun a => set_nth_split n a _ _ E).
  destruct rn as [|cb rn].
  - destruct cs as [|c cs]; [discriminate|]. destruct c as [cb|t|t].
    + destruct (RunWhenUnprotected_locked cb (shared s)) as [now p'] eqn:L. injection H as <-.
      destruct (run_locked_spec _ _ _ _ T L) as (ET & HT & HF).
      destruct (SN (Thread (if now then [cb] else []) cs)) as (l1 & l2 & E1 & _ & E2).
      rewrite E1 in P, R. rewrite map_app, concat_app in P. cbn [map concat running app] in P.
      apply Forall_app in R. destruct R as [R1 R2]. apply Forall_inv_tail in R2.
      constructor; cbn [submitted trace threads shared].
      * rewrite E2, map_app, concat_app. cbn [map concat running]. destruct now.
        -- destruct (HT eq_refl) as [-> _]. rewrite P.
           rewrite <- !app_assoc. cbn [app].
           rewrite (app_assoc (map fst (trace s))), (app_assoc (map fst (trace s)) _ (cb :: _)).
           apply Permutation_middle.
        -- destruct (HF eq_refl) as [-> _]. cbn [app]. rewrite P. rewrite insert_permutation.
           rewrite !app_assoc. apply Permutation_middle.
      * rewrite ET. exact T.
      * destruct now; [destruct (HT eq_refl) as [-> _]; exact C|].
        destruct (HF eq_refl) as [-> _]. apply insert_ordered, C.
      * rewrite ET. destruct now; [destruct (HT eq_refl) as [-> _]; exact D|].
        destruct (HF eq_refl) as [-> U]. intros cb' I.
        apply (Permutation_in _ (insert_permutation _ _ _)) in I. destruct I as [<-|I]; [exact U|exact (D cb' I)].
      * rewrite E2. apply Forall_app. split; [exact R1|]. constructor; [|exact R2]. cbn [running].
        destruct now; repeat constructor.
    + injection H as <-. destruct (SN (Thread [] cs)) as (l1 & l2 & E1 & _ & E2).
      rewrite E1 in P, R. rewrite map_app, concat_app in P. cbn [map concat running app] in P.
      apply Forall_app in R. destruct R as [R1 R2]. apply Forall_inv_tail in R2.
      constructor; cbn [submitted trace threads shared Protect callbacks protection_start_times].
      * rewrite E2, map_app, concat_app. exact P.
      * apply insert_ordered, T.
      * exact C.
      * intros cb I U. apply (D cb I). intros x X. apply U.
        apply (Permutation_in _ (Permutation_sym (insert_permutation _ _ _))). right. exact X.
      * rewrite E2. apply Forall_app. split; [exact R1|]. constructor; [constructor|exact R2].
    + destruct (Unprotect_locked t (shared s)) as [[ran p']|] eqn:U; injection H as <-.
      * destruct (unprotect_locked_spec _ _ _ _ T C U) as (PT & ST & PC & SR & SC & HR & HD).
        destruct (SN (Thread ran cs)) as (l1 & l2 & E1 & _ & E2).
        rewrite E1 in P, R. rewrite map_app, concat_app in P. cbn [map concat running app] in P.
        apply Forall_app in R. destruct R as [R1 R2]. apply Forall_inv_tail in R2.
        constructor; cbn [submitted trace threads shared].
        -- rewrite E2, map_app, concat_app. cbn [map concat running]. rewrite P, PC.
           apply Permutation_app_head. rewrite <- !app_assoc. apply Permutation_app_head.
           rewrite !app_assoc. apply Permutation_app_tail. apply Permutation_app_comm.
        -- exact ST.
        -- exact SC.
        -- exact HD.
        -- rewrite E2. apply Forall_app. split; [exact R1|]. constructor; [exact SR|exact R2].
      * destruct (SN (Thread [] [])) as (l1 & l2 & E1 & _ & E2).
        rewrite E1 in P, R. rewrite map_app, concat_app in P. cbn [map concat running app] in P.
        apply Forall_app in R. destruct R as [R1 R2]. apply Forall_inv_tail in R2.
        constructor; cbn [submitted trace threads shared]; try assumption.
        -- rewrite E2, map_app, concat_app. exact P.
        -- rewrite E2. apply Forall_app. split; [exact R1|]. constructor; [constructor|exact R2].
  - injection H as <-. destruct (SN (Thread rn cs)) as (l1 & l2 & E1 & _ & E2).
    rewrite E1 in P, R. rewrite map_app, concat_app in P. cbn [map concat running app] in P.
    apply Forall_app in R. destruct R as [R1 R2]. pose proof (Forall_inv R2) as R0. apply Forall_inv_tail in R2.
    constructor; cbn [submitted trace threads shared map fst]; try assumption.
    + rewrite E2, map_app, concat_app. cbn [map concat running]. rewrite P.
      apply permutation_pull.
    + rewrite E2. apply Forall_app. split; [exact R1|]. constructor; [|exact R2]. cbn [running] in *.
      apply StronglySorted_inv in R0. tauto.
Qed.

Lemma initial_invariant programs : invariant (initial programs).
Proof.
  constructor; cbn.
  - induction programs; [constructor|exact IHprograms].
  - constructor.
  - constructor.
  - intros _ [].
  - induction programs; constructor; [constructor|exact IHprograms].
Qed.

Lemma reachable_invariant programs s : reachable programs s -> invariant s.
Proof. induction 1; [apply initial_invariant|eapply step_invariant; eassumption]. Qed.

(** The decision to run is taken while the range is unprotected. *)
Lemma decision programs s n s' th th' : reachable programs s -> step n s = Some s' ->
  nth_error (threads s) n = Some th -> nth_error (threads s') n = Some th' -> running th = [] ->
  Forall (fun cb => unprotected (fst cb) (protection_start_times (shared s'))) (running th').
Proof.
  intros RE H E1 E2 R0. apply reachable_invariant in RE. destruct RE as [_ T C _ _]. unfold step in H. rewrite E1 in H.
  destruct th as [rn cs]. cbn [running] in R0. subst rn.
  assert (K : forall a, nth_error (set_nth n a (threads s)) n = Some a).
  { intros a. destruct (set_nth_split n a _ _ E1) as (l1 & l2 & _ & L & E). rewrite E, nth_error_app2 by lia.
    rewrite L, Nat.sub_diag. reflexivity. }
  destruct cs as [|c cs]; [discriminate|]. destruct c as [cb|t|t].
  - destruct (RunWhenUnprotected_locked cb (shared s)) as [now p'] eqn:L. injection H as <-.
    cbn [threads shared] in *. rewrite K in E2. injection E2 as <-. cbn [running].
    destruct (run_locked_spec _ _ _ _ T L) as (ET & HT & HF). destruct now; [|constructor].
    constructor; [|constructor]. rewrite ET. exact (proj2 (HT eq_refl)).
  - injection H as <-. cbn [threads shared] in *. rewrite K in E2. injection E2 as <-. constructor.
  - destruct (Unprotect_locked t (shared s)) as [[ran p']|] eqn:U; injection H as <-; cbn [threads shared] in *;
      rewrite K in E2; injection E2 as <-; cbn [running]; [|constructor].
    destruct (unprotect_locked_spec _ _ _ _ T C U) as (_ & _ & _ & _ & _ & HR & _).
    apply Forall_forall. exact HR.
Qed.

(** With a single thread the callbacks run while their range is unprotected. *)
Lemma single_thread_invariant program s : reachable [program] s ->
  (exists th, threads s = [th] /\
     Forall (fun cb => unprotected (fst cb) (protection_start_times (shared s))) (running th)) /\
  Forall (fun e => unprotected (fst (fst e)) (snd e)) (trace s).
Proof.
  induction 1 as [|s n s' RE [(th & ET & FR) FT] H].
  - split; [exists (Thread [] program); split; [reflexivity|constructor]|constructor].
  - pose proof (fun th' => decision [program] s n s' th th' RE H) as DEC.
    assert (N : n = O).
    { unfold step in H. rewrite ET in H. destruct n as [|n]; [reflexivity|]. cbn in H. destruct n; discriminate H. }
    subst n. rewrite ET in DEC. cbn [nth_error] in DEC.
    assert (exists th', threads s' = [th']) as [th' ET'].
    { unfold step in H. rewrite ET in H. cbn [nth_error] in H. destruct th as [[|cb rn] [|c cs]]; try discriminate;
        try (destruct c as [cb'|t|t]); try destruct (RunWhenUnprotected_locked _ _);
        try destruct (Unprotect_locked _ _) as [[? ?]|]; injection H as <-; cbn; eexists; reflexivity. }
    rewrite ET' in DEC. cbn [nth_error] in DEC. specialize (DEC th' eq_refl eq_refl).
    destruct th as [[|cb rn] cs].
    + split; [exists th'; split; [exact ET'|exact (DEC eq_refl)]|].
      assert (ETR : trace s' = trace s).
      { unfold step in H. rewrite ET in H. cbn [nth_error] in H. destruct cs as [|c cs]; [discriminate|].
        destruct c as [cb'|t|t]; try destruct (RunWhenUnprotected_locked _ _);
        try destruct (Unprotect_locked _ _) as [[? ?]|]; injection H as <-; reflexivity. }
      rewrite ETR. exact FT.
    + unfold step in H. rewrite ET in H. cbn [nth_error] in H. injection H as <-. cbn [threads shared trace] in *.
      cbn [running] in FR. split.
      * exists (Thread rn cs). split; [reflexivity|]. exact (Forall_inv_tail FR).
      * constructor; [exact (Forall_inv FR)|exact FT].
Qed.

(** Threads with callbacks to run are never blocked, and running them terminates. *)
Lemma progress s n th : nth_error (threads s) n = Some th -> running th <> [] -> exists s', step n s = Some s'.
Proof. intros E R. unfold step. rewrite E. destruct th as [[|cb r] cs]; [contradiction|]. eexists; reflexivity. Qed.

(** Once all the threads are idle, the callbacks that have not run are those whose range is protected. *)
Lemma quiescent programs s : reachable programs s -> (forall th, In th (threads s) -> running th = []) ->
  Permutation (submitted s) (map fst (trace s) ++ callbacks (shared s)) /\
  forall cb, In cb (callbacks (shared s)) -> ~ unprotected (fst cb) (protection_start_times (shared s)).
Proof.
  intros RE Q. apply reachable_invariant in RE. destruct RE as [P _ _ D _]. split; [|exact D].
  assert (E : concat (map running (threads s)) = []).
  { clear P D. induction (threads s) as [|th r IH]; [reflexivity|]. cbn [map concat]. rewrite (Q th (or_introl eq_refl)).
    apply IH. intros th' I. apply Q. right. exact I. }
  rewrite E in P. exact P.
Qed.
