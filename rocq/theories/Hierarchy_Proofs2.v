(** Hierarchical systems: the order, the bodies, the construction, the sort. *)
From Coq Require Import Reals List Bool Arith Lra Lia Permutation.
From Verif Require Import Geometry_Model Hierarchy_Model Hierarchy_Proofs.
Import ListNotations.
Open Scope R_scope.

(** * The result *)
Lemma concat_perm {A B} (f : A -> list B) l m : Permutation l m -> Permutation (concat (map f l)) (concat (map f m)).
Proof.
  induction 1; cbn.
  - constructor.
  - now apply Permutation_app_head.
  - rewrite !app_assoc. apply Permutation_app_tail, Permutation_app_comm.
  - eapply Permutation_trans; eassumption.
Qed.
Lemma laid_bodies : (forall s c l, laid_out s c l -> Permutation (map fst l) (all_bodies s)) /\
  (forall inner sats l, satellites_laid inner sats l -> Permutation (map fst l) (map fst inner ++ concat (map (fun x => all_bodies (snd x)) sats))).
Proof.
  apply laid_mind.
  - intros p sats o x l PM _ _ IH. cbn [all_bodies]. eapply Permutation_trans; [exact IH|]. cbn [map fst app]. constructor. now apply concat_perm, Permutation_sym.
  - intros inner. cbn. now rewrite app_nil_r.
  - intros inner el s rest c g l _ IH1 _ _ IH2. eapply Permutation_trans; [exact IH2|]. rewrite map_app, <- app_assoc. cbn [map concat snd]. apply Permutation_app_head, Permutation_app_tail, IH1.
Qed.
Lemma consume order s : sorts order -> well_formed s ->
  exists bs dofs, ConsumeBarycentricSystem order s = Some (bs, dofs) /\ length bs = length dofs /\ laid_out s dzero (combine bs dofs) /\
    Permutation bs (all_bodies s) /\ moment (combine bs dofs) = dzero.
Proof.
  intros SO WF. destruct (conversion order s SO WF) as (r & E & L & LO & PO & _). unfold ConsumeBarycentricSystem. rewrite E. cbn [bind].
  assert (ID : map (fun d => dadd dzero d) (barycentric_degrees_of_freedom r) = barycentric_degrees_of_freedom r).
  { rewrite <- map_id. apply map_ext. intros d. de. }
  rewrite ID. exists (bodies r), (barycentric_degrees_of_freedom r). split; [reflexivity|]. split; [exact L|]. split; [exact LO|]. split.
  - assert (F : map fst (result_of r) = bodies r).
    { unfold result_of. clear -L. revert L. generalize (barycentric_degrees_of_freedom r). induction (bodies r) as [|b l I]; intros [|d m] L; try discriminate; [reflexivity|]. cbn. f_equal. apply I. now injection L. }
    rewrite <- F. now apply (proj1 laid_bodies _ dzero).
  - apply zero_moment; [|symmetry; now apply (laid_barycentre s)]. apply mass_pos; [exact PO|]. eapply (proj1 sat_inner_nonempty); exact LO.
Qed.

(** * The order of the semimajor axes *)
(** The semimajor axis of an orbit for the gravitational parameter [m]; by Kepler's third law, if it is not given. *)
Definition is_semimajor_axis (m : R) (e : Elements) (a : R) : Prop :=
  match semimajor_axis e, mean_motion e, period e with
  | Some a', _, _ => a = a'
  | None, Some n, _ => 0 < a /\ 0 < n /\ a ^ 3 * n ^ 2 = m
  | None, None, Some T => 0 < a /\ 0 < T /\ a ^ 3 * (2 * PI) ^ 2 = m * T ^ 2
  | None, None, None => False
  end.
Lemma cube_le a b : 0 < a -> 0 < b -> a ^ 3 <= b ^ 3 -> a <= b.
Proof. intros A B H. destruct (Rle_lt_dec a b) as [L|L]; [exact L|]. exfalso. assert (0 < a - b) by lra. assert (0 < (a - b) * (a * a + a * b + b * b)) by (apply Rmult_lt_0_compat; nra). nra. Qed.
Lemma less_false e e' m m' a a' : comparable [e; e'] -> semimajor_axis_less_than e' e = Some false -> 0 < m <= m' ->
  is_semimajor_axis m e a -> is_semimajor_axis m' e' a' -> a <= a'.
Proof.
  intros C L M A A'. unfold semimajor_axis_less_than, is_semimajor_axis, Rltb in *.
  destruct C as [C|[C|C]]; pose proof (C e (or_introl eq_refl)) as E; pose proof (C e' (or_intror (or_introl eq_refl))) as E'.
  - destruct (semimajor_axis e), (semimajor_axis e'); try congruence. destruct (Rlt_dec _ _); [discriminate|]. lra.
  - destruct E as [S E], E' as [S' E']. rewrite S, S' in *. destruct (mean_motion e) as [n|], (mean_motion e') as [n'|]; try congruence. destruct (Rlt_dec _ _); [discriminate|].
    destruct A as (PA & PN & K), A' as (PA' & PN' & K'). apply cube_le; [assumption..|]. assert (N : n' ^ 2 <= n ^ 2) by nra. pose proof (pow_lt a 3 PA). pose proof (pow_lt n' 2 PN').
    assert (a ^ 3 * n' ^ 2 <= a' ^ 3 * n' ^ 2) by nra. apply Rmult_le_reg_r with (n' ^ 2); assumption.
  - destruct E as (S & S2 & E), E' as (S' & S2' & E'). rewrite S, S', S2, S2' in *. destruct (period e) as [n|], (period e') as [n'|]; try congruence. destruct (Rlt_dec _ _); [discriminate|].
    destruct A as (PA & PN & K), A' as (PA' & PN' & K'). apply cube_le; [assumption..|]. pose proof PI_RGT_0. assert (0 < (2 * PI) ^ 2) by (apply pow_lt; lra).
    apply Rmult_le_reg_r with ((2 * PI) ^ 2); [assumption|]. rewrite K, K'. assert (N : n ^ 2 <= n' ^ 2) by nra. pose proof (pow_lt n 2 PN). nra.
Qed.
Lemma comparable_perm l m : Permutation l m -> comparable l -> comparable m.
Proof. intros P [C|[C|C]]; [left|right; left|right; right]; intros k I; apply C; (eapply Permutation_in; [apply Permutation_sym, P|exact I]). Qed.
Lemma laid_split inner pre e s post l : satellites_laid inner (pre ++ (e, s) :: post) l ->
  exists more c g rest, satellites_laid inner pre (inner ++ more) /\ laid_out s c g /\ dsub c (barycentre (inner ++ more)) = state_vectors e (mass (inner ++ more) + mass g) /\
    satellites_laid (inner ++ more ++ g) post l /\ l = inner ++ more ++ g ++ rest.
Proof.
  revert inner. induction pre as [|[e0 s0] pre IH]; intros inner H; inversion H as [|? ? ? ? c g ? LO EQ SL]; subst.
  - destruct (inner_in _ _ _ SL) as (o & EL). exists [], c, g, o. cbn [app]. rewrite app_nil_r. split; [constructor|]. split; [exact LO|]. split; [exact EQ|]. split; [exact SL|].
    now rewrite EL, <- app_assoc.
  - destruct (IH _ SL) as (more & c' & g' & rest & A & B & C & D & E). exists (g ++ more), c', g', rest. rewrite <- !app_assoc in *. split; [eapply MoreSatellites; eassumption|]. auto.
Qed.
(** The semimajor axes increase, although the mean motions or the periods may be those that are compared, and the
    gravitational parameters differ. *)
Lemma axes_in_order s c l : laid_out s c l -> well_formed s -> positive l -> exists x ordered,
  Permutation (let (_, sats) := s in sats) ordered /\ satellites_laid [(primary_of s, x)] ordered l /\
  forall pre e1 s1 mid e2 s2 post, ordered = pre ++ (e1, s1) :: mid ++ (e2, s2) :: post ->
  exists inner1 c1 g1 inner2 c2 g2 rest1 rest2,
    l = inner1 ++ g1 ++ rest1 /\ laid_out s1 c1 g1 /\ l = inner2 ++ g2 ++ rest2 /\ laid_out s2 c2 g2 /\
    dsub c1 (barycentre inner1) = state_vectors e1 (mass inner1 + mass g1) /\
    dsub c2 (barycentre inner2) = state_vectors e2 (mass inner2 + mass g2) /\
    forall a1 a2, is_semimajor_axis (mass inner1 + mass g1) e1 a1 -> is_semimajor_axis (mass inner2 + mass g2) e2 a2 -> a1 <= a2.
Proof.
  intros LO WF PO. inversion LO as [p sats ordered x l' PM IO SL]; subst. destruct WF as (_ & C & _). exists x, ordered. split; [exact PM|]. split; [exact SL|].
  intros pre e1 s1 mid e2 s2 post EO.
  rewrite EO in SL. destruct (laid_split _ _ _ _ _ _ SL) as (more & c1 & g1 & rest & S1 & L1 & Q1 & SL1 & EL1).
  destruct (laid_split _ _ _ _ _ _ SL1) as (more2 & c2 & g2 & rest2 & S2 & L2 & Q2 & SL2 & EL2).
  exists ([(p, x)] ++ more), c1, g1, (([(p, x)] ++ more ++ g1) ++ more2), c2, g2, rest, rest2.
  split; [rewrite EL1, <- !app_assoc; reflexivity|]. split; [exact L1|]. split; [rewrite EL2, <- !app_assoc; reflexivity|]. split; [exact L2|]. split; [exact Q1|]. split; [exact Q2|].
  intros a1 a2. apply less_false.
  - assert (C' : comparable (map fst ordered)) by (eapply comparable_perm; [apply Permutation_map, PM|exact C]). rewrite EO in C'.
    assert (I1 : In e1 (map fst (pre ++ (e1, s1) :: mid ++ (e2, s2) :: post))) by (rewrite map_app; apply in_or_app; right; now left).
    assert (I2 : In e2 (map fst (pre ++ (e1, s1) :: mid ++ (e2, s2) :: post))) by (rewrite map_app; apply in_or_app; right; right; rewrite map_app; apply in_or_app; right; now left).
    destruct C' as [C'|[C'|C']]; [left|right; left|right; right]; intros k [<-|[<-|[]]]; now apply C'.
  - apply (IO (length pre) (length pre + S (length mid))%nat); [lia| |].
    + rewrite EO, map_app, nth_error_app2; rewrite map_length; [|lia]. now rewrite Nat.sub_diag.
    + rewrite EO, map_app, nth_error_app2; rewrite map_length; [|lia]. replace (length pre + S (length mid) - length pre)%nat with (S (length mid)) by lia. cbn [map nth_error].
      rewrite map_app, nth_error_app2; rewrite map_length; [|lia]. now rewrite Nat.sub_diag.
  - assert (POS : forall u v w, positive (u ++ v ++ w) -> positive u /\ positive v) by (intros u v w H; split; intros y I; apply H; apply in_or_app; [now left|right; apply in_or_app; now left]).
    assert (P1 := PO). rewrite EL1 in P1. rewrite app_assoc in P1. destruct (POS _ _ _ P1) as [PI1 PG1]. assert (P2 := PO). rewrite EL2 in P2. rewrite app_assoc in P2. destruct (POS _ _ _ P2) as [PI2 PG2].
    pose proof (mass_pos _ PI1 ltac:(discriminate)). pose proof (mass_nonneg _ PG1). pose proof (mass_nonneg _ PG2). split; [lra|].
    rewrite app_assoc, !(mass_app _ more2), (mass_app _ g1).
    assert (0 <= mass more2). { apply mass_nonneg. intros y I. apply PI2. apply in_or_app. now right. } lra.
Qed.

(** * The construction *)
Lemma insert_unchanged s parent new : ~ In parent (addresses s) -> insert s parent new = s.
Proof.
  revert s. apply (system_ind (fun s => ~ In parent (addresses s) -> insert s parent new = s)). intros p sats IH NI. cbn [insert addresses] in *.
  destruct (Nat.eqb_spec (address p) parent) as [E|_]; [exfalso; apply NI; now left|]. f_equal.
  assert (K : forall x, In x sats -> ~ In parent (addresses (snd x))).
  { intros x I K. apply NI. right. apply in_concat. exists (addresses (snd x)). split; [|exact K]. apply in_map_iff. now exists x. }
  clear NI. induction IH as [|[e s] l H F IHl]; [reflexivity|]. cbn [map fst snd]. cbn [snd] in H. rewrite (H (K (e, s) (or_introl eq_refl))). f_equal. apply IHl. intros; apply K; now right.
Qed.
Lemma addresses_bodies s : addresses s = map address (all_bodies s).
Proof.
  revert s. apply (system_ind (fun s => addresses s = map address (all_bodies s))). intros p sats IH. cbn. f_equal. rewrite concat_map, map_map. f_equal.
  induction IH as [|x l H F IHl]; [reflexivity|]. cbn. now f_equal.
Qed.
Lemma insert_bodies s parent body el : NoDup (addresses s) -> In parent (addresses s) -> Permutation (all_bodies (insert s parent (el, mkSystem body []))) (body :: all_bodies s).
Proof.
  revert s. apply (system_ind (fun s => NoDup (addresses s) -> In parent (addresses s) -> Permutation (all_bodies (insert s parent (el, mkSystem body []))) (body :: all_bodies s))).
  intros p sats IH ND I. cbn [insert addresses] in *. inversion ND as [|? ? NP ND']; subst. destruct (Nat.eqb_spec (address p) parent) as [E|NE].
  - cbn [all_bodies]. rewrite map_app, concat_app. cbn. eapply perm_trans; [|apply perm_swap]. constructor. apply Permutation_sym, Permutation_cons_append.
  - destruct I as [E|I]; [congruence|]. cbn [all_bodies]. eapply perm_trans; [|apply perm_swap]. constructor. clear NP ND. rewrite map_map. cbn [snd].
    induction IH as [|[e s] l H F IHl]; [destruct I|]. cbn [map concat snd] in *. apply in_app_or in I.
    destruct (in_dec Nat.eq_dec parent (addresses s)) as [IS|NS].
    + assert (NL : forall x, In x l -> ~ In parent (addresses (snd x))).
      { intros x IX K. assert (M : In parent (concat (map (fun x => addresses (snd x)) l))) by (apply in_concat; exists (addresses (snd x)); split; [apply in_map_iff; now exists x|exact K]).
        clear -ND' IS M. induction (addresses s) as [|a m IHm]; [destruct IS|]. cbn in ND'. inversion ND'; subst. destruct IS as [->|IS]; [apply H1; apply in_or_app; now right|auto]. }
      assert (ML : map (fun x => all_bodies (insert (snd x) parent (el, mkSystem body []))) l = map (fun x => all_bodies (snd x)) l) by (apply map_ext_in; intros x IX; now rewrite insert_unchanged by (apply NL; exact IX)).
      rewrite ML. apply Permutation_app_tail with (l' := body :: all_bodies s). apply H; [|exact IS]. clear -ND'. induction (addresses s) as [|a m IHm]; [constructor|]. cbn in ND'. inversion ND'; subst. constructor; [|auto]. intros K. apply H1, in_or_app. now left.
    + destruct I as [I|I]; [contradiction|]. rewrite insert_unchanged by exact NS. eapply perm_trans; [apply Permutation_app_head, IHl|apply Permutation_sym, Permutation_middle].
      * exact I.
      * clear -ND'. induction (addresses s) as [|a m IHm]; [exact ND'|]. cbn in ND'. inversion ND'; auto.
Qed.
Lemma add_spec s body parent el : NoDup (addresses s) ->
  (Add s body parent el = None <-> ~ In parent (addresses s)) /\
  forall s', Add s body parent el = Some s' -> Permutation (all_bodies s') (body :: all_bodies s) /\ (~ In (address body) (addresses s) -> NoDup (addresses s')).
Proof.
  intros ND. unfold Add. destruct (existsb (Nat.eqb parent) (addresses s)) eqn:E.
  - apply existsb_exists in E. destruct E as (x & I & EX). apply Nat.eqb_eq in EX. subst x. split; [split; [discriminate|contradiction]|]. intros s' H. injection H as <-.
    pose proof (insert_bodies s parent body el ND I) as P. split; [exact P|]. intros NI. apply (Permutation_map address) in P. rewrite <- addresses_bodies in P. cbn [map] in P. rewrite <- addresses_bodies in P.
    eapply Permutation_NoDup; [apply Permutation_sym, P|]. now constructor.
  - split; [|discriminate]. split; [|reflexivity]. intros _ I. assert (K : existsb (Nat.eqb parent) (addresses s) = true) by (apply existsb_exists; exists parent; rewrite Nat.eqb_refl; auto). congruence.
Qed.

(** * The insertion sort satisfies the contract *)
Lemma comparable_less k l : comparable [k; l] -> exists b, semimajor_axis_less_than k l = Some b.
Proof.
  intros [C|[C|C]]; pose proof (C k (or_introl eq_refl)) as E; pose proof (C l (or_intror (or_introl eq_refl))) as E'; unfold semimajor_axis_less_than.
  - destruct (semimajor_axis k), (semimajor_axis l); try congruence. eauto.
  - destruct E as [S E], E' as [S' E']. rewrite S. destruct (mean_motion k), (mean_motion l); try congruence. eauto.
  - destruct E as (S & S2 & E), E' as (S' & S2' & E'). rewrite S, S2. destruct (period k), (period l); try congruence. eauto.
Qed.
Lemma comparable_sub l m : (forall k, In k m -> In k l) -> comparable l -> comparable m.
Proof. intros H [C|[C|C]]; [left|right; left|right; right]; intros k I; auto. Qed.
Lemma less_trans a b c : comparable [a; b; c] -> semimajor_axis_less_than b a = Some false -> semimajor_axis_less_than c b = Some false -> semimajor_axis_less_than c a = Some false.
Proof.
  intros [C|[C|C]]; pose proof (C a (or_introl eq_refl)) as E; pose proof (C b (or_intror (or_introl eq_refl))) as E'; pose proof (C c (or_intror (or_intror (or_introl eq_refl)))) as E''; unfold semimajor_axis_less_than, Rltb.
  - destruct (semimajor_axis a), (semimajor_axis b), (semimajor_axis c); try congruence. repeat destruct (Rlt_dec _ _); try discriminate; intros; try reflexivity. lra.
  - destruct E as [S E], E' as [S' E'], E'' as [S'' E'']. rewrite S, S', S''. destruct (mean_motion a), (mean_motion b), (mean_motion c); try congruence. repeat destruct (Rlt_dec _ _); try discriminate; intros; try reflexivity. lra.
  - destruct E as (S & T & E), E' as (S' & T' & E'), E'' as (S'' & T'' & E''). rewrite S, S', S'', T, T', T''. destruct (period a), (period b), (period c); try congruence. repeat destruct (Rlt_dec _ _); try discriminate; intros; try reflexivity. lra.
Qed.
Lemma less_asym a b : semimajor_axis_less_than a b = Some true -> semimajor_axis_less_than b a = Some false.
Proof.
  unfold semimajor_axis_less_than, Rltb. destruct (semimajor_axis a), (semimajor_axis b); try (repeat destruct (Rlt_dec _ _); intros; try discriminate; try reflexivity; lra);
    destruct (mean_motion a), (mean_motion b); try (repeat destruct (Rlt_dec _ _); intros; try discriminate; try reflexivity; lra);
    destruct (period a), (period b); try (repeat destruct (Rlt_dec _ _); intros; try discriminate; try reflexivity; lra).
Qed.
(** Sorted lists, by consecutive comparisons with all that follows. *)
Fixpoint chain (l : list Elements) : Prop := match l with [] => True | k :: l => (forall m, In m l -> semimajor_axis_less_than m k = Some false) /\ chain l end.
Lemma chain_in_order l : chain l -> in_order l.
Proof.
  induction l as [|a l IH]; intros C i j k m L EK EM; [destruct i; discriminate|]. destruct C as [C1 C2]. destruct i as [|i], j as [|j]; try lia; cbn in EK, EM.
  - injection EK as <-. apply C1. eapply nth_error_In; exact EM.
  - eapply IH; [exact C2| |exact EK|exact EM]. lia.
Qed.
Lemma insert_index_spec k i l : comparable (k :: map fst l) -> chain (map fst l) -> exists m, insert_index k i l = Some m /\ Permutation m ((k, i) :: l) /\ chain (map fst m).
Proof.
  induction l as [|[k' i'] l IH]; intros C S; cbn [insert_index].
  - eexists. split; [reflexivity|]. split; [apply Permutation_refl|]. cbn. split; [intros ? []|exact I].
  - cbn [map fst] in C, S. destruct (comparable_less k k') as ([|] & E); [eapply comparable_sub; [|exact C]; intros x [<-|[<-|[]]]; [now left|right; now left]| |]; rewrite E.
    + eexists. split; [reflexivity|]. split; [apply Permutation_refl|]. cbn [map fst chain]. split; [|exact S]. intros m [<-|I]; [now apply less_asym|].
      apply (less_trans k k' m); [|now apply less_asym|now apply S]. eapply comparable_sub; [|exact C]. intros x [<-|[<-|[<-|[]]]]; [now left|right; now left|right; now right].
    + destruct IH as (m & EI & PM & CM); [eapply comparable_sub; [|exact C]; intros x [<-|H]; [now left|right; now right]|now destruct S|]. rewrite EI. eexists. split; [reflexivity|]. split.
      * eapply perm_trans; [apply perm_skip, PM|apply perm_swap].
      * cbn [map fst chain]. split; [|exact CM]. intros x H. apply (Permutation_map fst) in PM. eapply Permutation_in in H; [|exact PM]. cbn [map fst] in H. destruct H as [<-|H]; [exact E|now apply S].
Qed.
Lemma insertion_sort_spec l : forall sorted, comparable (map fst l ++ map fst sorted) -> chain (map fst sorted) -> exists m, insertion_sort l sorted = Some m /\ Permutation m (l ++ sorted) /\ chain (map fst m).
Proof.
  induction l as [|[k i] l IH]; intros sorted C S; cbn [insertion_sort].
  - exists sorted. auto.
  - destruct (insert_index_spec k i sorted) as (m & E & P & CM); [eapply comparable_sub; [|exact C]; intros x [<-|H]; [now left|cbn; right; apply in_or_app; now right]|exact S|]. rewrite E.
    destruct (IH m) as (m' & E' & P' & C'); [|exact CM|].
    + eapply comparable_sub; [|exact C]. intros x H. apply in_app_or in H. destruct H as [H|H]; [right; apply in_or_app; now left|]. apply (Permutation_map fst) in P. eapply Permutation_in in H; [|exact P].
      cbn in H. destruct H as [<-|H]; [now left|right; apply in_or_app; now right].
    + exists m'. split; [exact E'|]. split; [|exact C']. eapply perm_trans; [exact P'|]. cbn [app]. eapply perm_trans; [apply Permutation_app_head, P|]. apply Permutation_sym, Permutation_middle.
Qed.
Lemma insertion_sorts : sorts insertion_order.
Proof.
  intros keys C. unfold insertion_order. set (l := combine keys (seq 0 (length keys))).
  assert (L : forall (ks : list Elements) n, map fst (combine ks (seq n (length ks))) = ks /\ map snd (combine ks (seq n (length ks))) = seq n (length ks)) by (induction ks as [|k ks IH]; intros n; [auto|]; cbn; destruct (IH (S n)) as [-> ->]; auto).
  destruct (L keys 0%nat) as [LF LS]. fold l in LF, LS.
  destruct (insertion_sort_spec l []) as (m & E & P & CM); [rewrite LF; cbn; now rewrite app_nil_r|exact I|]. rewrite app_nil_r in P. rewrite E. eexists. split; [reflexivity|]. split.
  - rewrite <- LS. now apply Permutation_map.
  - intros ks EQ. assert (K : ks = map fst m); [|subst ks; now apply chain_in_order].
    assert (N : forall x, In x m -> nth_error keys (snd x) = Some (fst x)).
    { intros x I. assert (IL : In x l) by (eapply Permutation_in; [exact P|exact I]). unfold l in IL. clear -IL.
      assert (G : forall n, In x (combine keys (seq n (length keys))) -> (n <= snd x)%nat /\ nth_error keys (snd x - n) = Some (fst x)).
      { clear IL. induction keys as [|k keys IH]; intros n H; [destruct H|]. cbn in H. destruct H as [<-|H]; [cbn; rewrite Nat.sub_diag; auto|]. destruct (IH (S n) H) as [A B]. split; [lia|]. replace (snd x - n)%nat with (S (snd x - S n)) by lia. exact B. }
      destruct (G 0%nat IL) as [_ G']. now rewrite Nat.sub_0_r in G'. }
    rewrite map_map in EQ. clear -N EQ. revert ks EQ. induction m as [|x m IH]; intros [|k ks] EQ; try discriminate; [reflexivity|]. cbn in *. injection EQ as E1 E2. rewrite (N x (or_introl eq_refl)) in E1. injection E1 as <-. f_equal. apply IH; auto.
Qed.
