(* The construction of the thresholds of the damping of the harmonics. *)
From Coq Require Import Reals List Arith Bool Lia Lra Permutation Sorted.
From Verif Require Import Geometry_Model Geopotential_Model Geopotential_Proofs.
Import ListNotations.
Open Scope R_scope.

(* * Lengths that may be infinite. *)

Definition ext_le (a b : extended) : Prop :=
  match a, b with
  | _, Infinite => True
  | Infinite, Finite _ => False
  | Finite x, Finite y => x <= y
  end.

Definition ext_max (a b : extended) : extended :=
  match a, b with
  | Finite x, Finite y => Finite (Rmax x y)
  | _, _ => Infinite
  end.

Lemma ext_le_refl a : ext_le a a.
Proof. destruct a; cbn; auto with real. Qed.
Lemma ext_le_trans a b c : ext_le a b -> ext_le b c -> ext_le a c.
Proof. destruct a, b, c; cbn; try tauto; lra. Qed.
Lemma ext_le_antisym a b : ext_le a b -> ext_le b a -> a = b.
Proof.
  destruct a, b; cbn; try tauto. intros. f_equal. lra.
Qed.
Lemma ext_max_l a b : ext_le a (ext_max a b).
Proof. destruct a, b; cbn; auto. apply Rmax_l. Qed.
Lemma ext_max_r a b : ext_le b (ext_max a b).
Proof. destruct a, b; cbn; auto. apply Rmax_r. Qed.
Lemma ext_max_lub a b c : ext_le a c -> ext_le b c -> ext_le (ext_max a b) c.
Proof. destruct a, b, c; cbn; try tauto. apply Rmax_lub. Qed.

(* The largest length of a list, at least 0. *)
Definition largest (l : list extended) : extended :=
  fold_right ext_max (Finite 0) l.

Lemma largest_upper l a : In a l -> ext_le a (largest l).
Proof.
  induction l as [|b l IH]; cbn; [tauto|]. intros [->|H].
  - apply ext_max_l.
  - eapply ext_le_trans; [apply IH; exact H | apply ext_max_r].
Qed.

Lemma largest_lub l b :
  nonnegative b -> (forall a, In a l -> ext_le a b) -> ext_le (largest l) b.
Proof.
  intros Hb. induction l as [|a l IH]; intros H; cbn [largest fold_right].
  - destruct b; cbn in *; auto.
  - apply ext_max_lub; [apply H; left; reflexivity|].
    apply IH. intros c Hc. apply H. right. exact Hc.
Qed.

(* * The thresholds that are expected. *)

(* The harmonics of a degree at least n. *)
Definition harmonics_from (n degree : nat) : list (nat * nat) :=
  filter (fun km => Nat.leb n (fst km) && Nat.leb (snd km) (fst km))
         (list_prod (seq 0 (S degree)) (seq 0 (S degree))).

Lemma harmonics_from_spec n degree k m :
  In (k, m) (harmonics_from n degree) <-> (n <= k <= degree /\ m <= k)%nat.
Proof.
  unfold harmonics_from. rewrite filter_In, in_prod_iff, !in_seq. cbn [fst snd].
  rewrite andb_true_iff, !Nat.leb_le. lia.
Qed.

(* The threshold of degree n covers the harmonics of degree at least n. *)
Definition degree_inner_of (P : nat -> nat -> R) (tolerance : R)
    (body : oblate_body) (n : nat) : extended :=
  largest (map (fun km => harmonic_threshold P tolerance body (fst km) (snd km))
               (harmonics_from n (geopotential_degree body))).

(* That of the sectoral harmonics covers (2, 2) and the degrees above 2. *)
Definition sectoral_inner_of (P : nat -> nat -> R) (tolerance : R)
    (body : oblate_body) : extended :=
  ext_max (harmonic_threshold P tolerance body 2 2)
          (degree_inner_of P tolerance body 3).

Lemma harmonic_threshold_nonnegative P tolerance body n m :
  0 < reference_radius body ->
  nonnegative (harmonic_threshold P tolerance body n m).
Proof.
  intros H. unfold harmonic_threshold. cbv zeta.
  destruct (_ || _); [|cbn; lra].
  destruct (nonzero tolerance); [|exact I].
  cbn [nonnegative]. apply Rmult_le_pos; [lra|].
  unfold Rpower. apply Rlt_le, exp_pos.
Qed.

(* * The queue. *)

Definition decreasing (a b : threshold) : Prop :=
  ext_le (threshold_r b) (threshold_r a).

Lemma after_true a b : after a b = true -> ext_le (threshold_r a) (threshold_r b).
Proof.
  unfold after. rewrite orb_true_iff, andb_true_iff.
  intros [H|[H _]]; destruct (threshold_r a), (threshold_r b); cbn in *;
    try discriminate; auto.
  - destruct (Rlt_dec r r0); [lra | discriminate].
  - destruct (Req_EM_T r r0); [lra | discriminate].
Qed.

Lemma after_false a b :
  after a b = false -> ext_le (threshold_r b) (threshold_r a).
Proof.
  unfold after. rewrite orb_false_iff. intros [H _].
  destruct (threshold_r a), (threshold_r b); cbn in *; try discriminate; auto.
  destruct (Rlt_dec r r0); [discriminate | lra].
Qed.

Lemma push_permutation q t : Permutation (t :: q) (push q t).
Proof.
  induction q as [|a q IH]; cbn; [apply Permutation_refl|].
  destruct (after a t); [apply Permutation_refl|].
  eapply Permutation_trans; [apply perm_swap|].
  apply perm_skip. exact IH.
Qed.

Lemma push_sorted q t :
  StronglySorted decreasing q -> StronglySorted decreasing (push q t).
Proof.
  induction q as [|a q IH]; intros Hs; cbn.
  - constructor; [constructor | constructor].
  - inversion Hs as [|? ? Hq Ha]; subst.
    destruct (after a t) eqn:E.
    + constructor; [exact Hs|]. constructor; [apply after_true; exact E|].
      eapply Forall_impl; [|exact Ha]. intros b Hb. unfold decreasing in *.
      eapply ext_le_trans; [exact Hb | apply after_true; exact E].
    + constructor; [apply IH; exact Hq|].
      eapply Permutation_Forall; [apply push_permutation|].
      constructor; [apply after_false; exact E | exact Ha].
Qed.

Lemma fold_push {A} (f : A -> threshold) l : forall q,
  StronglySorted decreasing q ->
  StronglySorted decreasing (fold_left (fun q a => push q (f a)) l q) /\
  Permutation (map f l ++ q) (fold_left (fun q a => push q (f a)) l q).
Proof.
  induction l as [|a l IH]; intros q Hq; cbn [fold_left map app].
  - split; [exact Hq | apply Permutation_refl].
  - destruct (IH (push q (f a)) (push_sorted q (f a) Hq)) as [H1 H2].
    split; [exact H1|]. eapply Permutation_trans; [|exact H2].
    eapply Permutation_trans; [apply Permutation_middle|].
    apply Permutation_app_head. apply push_permutation.
Qed.

Lemma harmonics_spec degree k m :
  In (k, m) (harmonics degree) <-> (2 <= k <= degree /\ m <= k)%nat.
Proof.
  unfold harmonics. rewrite in_flat_map. split.
  - intros (n & Hn & H). apply in_seq in Hn. apply in_map_iff in H.
    destruct H as (j & E & Hj). apply in_seq in Hj. injection E as -> ->. lia.
  - intros H. exists k. split; [apply in_seq; lia|].
    apply in_map_iff. exists m. split; [reflexivity | apply in_seq; lia].
Qed.

Lemma thresholds_sorted P tolerance body :
  StronglySorted decreasing (harmonic_thresholds P tolerance body).
Proof.
  unfold harmonic_thresholds. cbv zeta. do 2 apply push_sorted.
  apply (fold_push (fun nm => Threshold
    (harmonic_threshold P tolerance body (fst nm) (snd nm)) (fst nm) (snd nm))).
  constructor.
Qed.

Lemma thresholds_spec P tolerance body t :
  In t (harmonic_thresholds P tolerance body) <->
  t = Threshold Infinite 0 0 \/ t = Threshold Infinite 1 0 \/
  exists k m, (2 <= k <= geopotential_degree body /\ m <= k)%nat /\
    t = Threshold (harmonic_threshold P tolerance body k m) k m.
Proof.
  unfold harmonic_thresholds. cbv zeta.
  set (f := fun nm => Threshold
    (harmonic_threshold P tolerance body (fst nm) (snd nm)) (fst nm) (snd nm)).
  destruct (fold_push f (harmonics (geopotential_degree body)) []
              ltac:(constructor)) as [_ H].
  rewrite app_nil_r in H.
  set (q := fold_left _ _ _) in *.
  change (fold_left (fun q a => push q (f a))
            (harmonics (geopotential_degree body)) []) with q in H.
  assert (M : forall q t x, In x (push q t) <-> x = t \/ In x q).
  { intros q' t' x. pose proof (push_permutation q' t') as HP. split.
    - intros Hx. apply (Permutation_in _ (Permutation_sym HP)) in Hx.
      destruct Hx; auto.
    - intros Hx. apply (Permutation_in _ HP). destruct Hx; [left|right]; auto. }
  rewrite !M.
  assert (Q : In t q <-> exists k m,
    (2 <= k <= geopotential_degree body /\ m <= k)%nat /\
    t = Threshold (harmonic_threshold P tolerance body k m) k m).
  { split.
    - intros Hq. apply (Permutation_in _ (Permutation_sym H)) in Hq.
      apply in_map_iff in Hq. destruct Hq as ([k m] & <- & Hkm).
      apply harmonics_spec in Hkm. exists k, m. split; [exact Hkm | reflexivity].
    - intros (k & m & Hkm & ->). apply (Permutation_in _ H).
      apply in_map_iff. exists (k, m). split; [reflexivity|].
      apply harmonics_spec. exact Hkm. }
  rewrite Q. tauto.
Qed.

(* * The loop. *)

Lemma inner_HarmonicDamping l : inner_threshold (HarmonicDamping l) = l.
Proof. destruct l; reflexivity. Qed.

Definition is_sectoral (t : threshold) : Prop :=
  threshold_n t = 2%nat /\ threshold_m t = 2%nat.

(* What is known when the thresholds of the list q have been popped and those of
   the list rest remain. *)
Definition taken (q : list threshold)
    (dampings : list harmonic_damping * harmonic_damping) : Prop :=
  let (degree, sectoral) := dampings in
  (forall t, In t q -> (threshold_n t < List.length degree)%nat) /\
  (forall n, (n < List.length degree)%nat ->
     exists t, In t q /\ (n <= threshold_n t)%nat /\
       nth n degree default_damping = HarmonicDamping (threshold_r t) /\
       forall t', In t' q -> (n <= threshold_n t')%nat ->
         ext_le (threshold_r t') (threshold_r t)) /\
  ((forall t, In t q -> ~ is_sectoral t) -> sectoral = default_damping) /\
  ((exists t, In t q /\ is_sectoral t) ->
     exists t, In t q /\ (is_sectoral t \/ (3 <= threshold_n t)%nat) /\
       sectoral = HarmonicDamping (threshold_r t) /\
       forall t', In t' q -> is_sectoral t' \/ (3 <= threshold_n t')%nat ->
         ext_le (threshold_r t') (threshold_r t)).

Lemma nth_fill dampings t n :
  nth n (fill dampings t) default_damping =
  if Nat.ltb n (List.length dampings) then nth n dampings default_damping
  else if Nat.leb n (threshold_n t) then HarmonicDamping (threshold_r t)
  else default_damping.
Proof.
  unfold fill. destruct (Nat.ltb_spec n (List.length dampings)).
  - apply app_nth1. assumption.
  - rewrite app_nth2 by lia. destruct (Nat.leb_spec n (threshold_n t)).
    + rewrite nth_repeat_lt || idtac.
      apply (repeat_spec (S (threshold_n t) - List.length dampings)).
      apply nth_In. rewrite repeat_length. lia.
    + apply nth_overflow. rewrite repeat_length. lia.
Qed.

Lemma fill_length dampings t :
  List.length (fill dampings t) =
  Nat.max (List.length dampings) (S (threshold_n t)).
Proof. unfold fill. rewrite app_length, repeat_length. lia. Qed.

Lemma take_taken q t dampings :
  (forall t', In t' q -> decreasing t' t) ->
  (forall t', In t' q -> is_sectoral t' -> is_sectoral t -> False) ->
  taken q dampings -> taken (q ++ [t]) (take_threshold dampings t).
Proof.
  intros Hd Hs. destruct dampings as [degree sectoral].
  intros (T1 & T2 & T3 & T4). unfold take_threshold.
  assert (In1 : forall t', In t' (q ++ [t]) <-> In t' q \/ t' = t).
  { intros t'. rewrite in_app_iff. cbn. intuition. }
  split; [|split; [|split]].
  - intros t' Ht'. rewrite fill_length. apply In1 in Ht'.
    destruct Ht' as [Ht'| ->]; [|lia]. specialize (T1 _ Ht'). lia.
  - intros n Hn. rewrite fill_length in Hn. rewrite nth_fill.
    destruct (Nat.ltb_spec n (List.length degree)) as [L|L].
    + destruct (T2 n L) as (a & Ha & Hna & E & Hmax).
      exists a. split; [apply In1; auto|]. split; [exact Hna|].
      split; [exact E|]. intros t' Ht' Hnt'. apply In1 in Ht'.
      destruct Ht' as [Ht'| ->]; [apply Hmax; assumption|].
      apply Hd. exact Ha.
    + destruct (Nat.leb_spec n (threshold_n t)) as [L'|L']; [|lia].
      exists t. split; [apply In1; auto|]. split; [exact L'|].
      split; [reflexivity|]. intros t' Ht' Hnt'. apply In1 in Ht'.
      destruct Ht' as [Ht'| ->]; [|apply ext_le_refl].
      specialize (T1 _ Ht'). lia.
  - intros Hno. destruct (Nat.eqb (threshold_n t) 2 &&
                          Nat.eqb (threshold_m t) 2) eqn:E.
    + exfalso. apply andb_prop in E. destruct E as [E1 E2].
      apply Nat.eqb_eq in E1, E2. apply (Hno t); [apply In1; auto | split; assumption].
    + apply T3. intros t' Ht'. apply Hno. apply In1. auto.
  - intros (s & Hs1 & Hs2).
    destruct (Nat.eqb (threshold_n t) 2 && Nat.eqb (threshold_m t) 2) eqn:E.
    + apply andb_prop in E. destruct E as [E1 E2].
      apply Nat.eqb_eq in E1, E2.
      assert (St : is_sectoral t) by (split; assumption).
      destruct (Nat.ltb_spec 3 (List.length degree)) as [L|L].
      * destruct (T2 3%nat L) as (a & Ha & Hna & Ea & Hmax).
        exists a. split; [apply In1; auto|]. split; [right; exact Hna|].
        rewrite Ea, inner_HarmonicDamping. split; [reflexivity|].
        intros t' Ht' Hc. apply In1 in Ht'.
        destruct Ht' as [Ht'| ->]; [|apply Hd; exact Ha].
        destruct Hc as [Hc|Hc]; [|apply Hmax; assumption].
        exfalso. apply (Hs t' Ht' Hc St).
      * exists t. split; [apply In1; auto|]. split; [left; exact St|].
        split; [reflexivity|]. intros t' Ht' Hc. apply In1 in Ht'.
        destruct Ht' as [Ht'| ->]; [|apply ext_le_refl].
        destruct Hc as [Hc|Hc].
        -- exfalso. apply (Hs t' Ht' Hc St).
        -- specialize (T1 _ Ht'). lia.
    + assert (Ns : ~ is_sectoral t).
      { intros [E1 E2]. rewrite E1, E2 in E. discriminate. }
      assert (Hq : exists s, In s q /\ is_sectoral s).
      { apply In1 in Hs1. destruct Hs1 as [Hs1| ->]; [eauto | contradiction]. }
      destruct (T4 Hq) as (a & Ha & Hca & Ea & Hmax).
      exists a. split; [apply In1; auto|]. split; [exact Hca|].
      split; [exact Ea|]. intros t' Ht' Hc. apply In1 in Ht'.
      destruct Ht' as [Ht'| ->]; [apply Hmax; assumption | apply Hd; exact Ha].
Qed.

Lemma fold_taken rest : forall q dampings,
  StronglySorted decreasing (q ++ rest) ->
  (forall a b c, q ++ rest = a ++ b :: c -> forall t, In t a ->
     is_sectoral t -> is_sectoral b -> False) ->
  taken q dampings ->
  taken (q ++ rest) (fold_left take_threshold rest dampings).
Proof.
  induction rest as [|t rest IH]; intros q dampings Hs Hu HT; cbn [fold_left].
  - rewrite app_nil_r. exact HT.
  - replace (q ++ t :: rest) with ((q ++ [t]) ++ rest) in *
      by (rewrite <- app_assoc; reflexivity).
    apply IH; [exact Hs | exact Hu |].
    apply take_taken; [| | exact HT].
    + intros t' Ht'. rewrite <- app_assoc in Hs. cbn in Hs.
      clear - Hs Ht'. induction q as [|a q IHq]; [destruct Ht'|].
      cbn in Hs. inversion Hs as [|? ? H1 H2]; subst.
      destruct Ht' as [->|Ht'].
      * rewrite Forall_forall in H2. apply H2. apply in_app_iff. right.
        left. reflexivity.
      * apply IHq; assumption.
    + intros t' Ht' S1 S2. apply (Hu q t rest) with t'; try assumption.
      rewrite <- app_assoc. reflexivity.
Qed.

(* The thresholds have distinct degrees and orders. *)
Lemma harmonics_NoDup degree : NoDup (harmonics degree).
Proof.
  unfold harmonics. generalize (seq_NoDup (degree - 1) 2).
  generalize (seq 2 (degree - 1)). intros l. induction l as [|n l IH]; intros H.
  - constructor.
  - inversion H as [|? ? Hn Hl]; subst. cbn [flat_map].
    assert (App : forall (a b : list (nat * nat)), NoDup a -> NoDup b ->
              (forall x, In x a -> ~ In x b) -> NoDup (a ++ b)).
    { clear. induction a as [|x a IHa]; intros b Ha Hb Hd; cbn; [exact Hb|].
      inversion Ha; subst. constructor.
      - rewrite in_app_iff. intros [Hx|Hx]; [contradiction|].
        apply (Hd x); [left; reflexivity | exact Hx].
      - apply IHa; try assumption. intros y Hy. apply Hd. right. exact Hy. }
    apply App; [| apply IH; exact Hl |].
    + apply FinFun.Injective_map_NoDup; [|apply seq_NoDup].
      intros a b E. injection E. auto.
    + intros [k m] H1 H2. apply in_map_iff in H1. destruct H1 as (j & E & _).
      injection E as -> _. apply in_flat_map in H2. destruct H2 as (k' & Hk & H2).
      apply in_map_iff in H2. destruct H2 as (j' & E & _). injection E as -> _.
      contradiction.
Qed.

Lemma sectoral_unique P tolerance body a b c :
  harmonic_thresholds P tolerance body = a ++ b :: c ->
  forall t, In t a -> is_sectoral t -> is_sectoral b -> False.
Proof.
  intros E t Ht St Sb.
  set (key := fun t => (threshold_n t, threshold_m t)).
  assert (ND : NoDup (map key (harmonic_thresholds P tolerance body))).
  { unfold harmonic_thresholds. cbv zeta.
    set (f := fun nm => Threshold
      (harmonic_threshold P tolerance body (fst nm) (snd nm)) (fst nm) (snd nm)).
    destruct (fold_push f (harmonics (geopotential_degree body)) []
                ltac:(constructor)) as [_ H].
    rewrite app_nil_r in H.
    set (q := fold_left _ _ _) in *.
    change (fold_left (fun q a => push q (f a))
              (harmonics (geopotential_degree body)) []) with q in H.
    assert (NQ : NoDup (map key q)).
    { eapply Permutation_NoDup; [apply Permutation_map; exact H|].
      rewrite map_map. unfold key, f. cbn.
      rewrite (map_ext (fun x : nat * nat => (fst x, snd x)) (fun x => x))
        by (intros [x y]; reflexivity).
      rewrite map_id. apply harmonics_NoDup. }
    assert (KQ : forall k, In k (map key q) -> (2 <= fst k)%nat).
    { intros k Hk.
      apply (Permutation_in _ (Permutation_map key (Permutation_sym H))) in Hk.
      rewrite map_map in Hk. apply in_map_iff in Hk.
      destruct Hk as ([x y] & <- & Hk). apply harmonics_spec in Hk. cbn. lia. }
    eapply Permutation_NoDup.
    { apply Permutation_map. eapply Permutation_trans; [|apply push_permutation].
      apply perm_skip. apply push_permutation. }
    cbn [map]. constructor; [|constructor; [|exact NQ]].
    - intros [Hk|Hk]; [discriminate|]. apply KQ in Hk. cbn in Hk. lia.
    - intros Hk. apply KQ in Hk. cbn in Hk. lia. }
  rewrite E, map_app in ND. cbn [map] in ND.
  apply NoDup_remove_2 in ND. apply ND. apply in_app_iff. left.
  apply in_map_iff. exists t. split; [|exact Ht].
  unfold key. destruct St as [-> ->], Sb as [-> ->]. reflexivity.
Qed.

(* * The result of the construction. *)

Theorem construction P body tolerance g :
  0 < reference_radius body ->
  make_geopotential P body tolerance = Some g ->
  0 <= tolerance /\ body_ g = body /\
  List.length (degree_damping g) = Nat.max 2 (S (geopotential_degree body)) /\
  (forall n, (n < 2)%nat -> damping_of_degree g n = HarmonicDamping Infinite) /\
  (forall n, (2 <= n <= geopotential_degree body)%nat ->
     damping_of_degree g n =
     HarmonicDamping (degree_inner_of P tolerance body n)) /\
  ((2 <= geopotential_degree body)%nat ->
   sectoral_damping g = HarmonicDamping (sectoral_inner_of P tolerance body)) /\
  ((geopotential_degree body < 2)%nat ->
   sectoral_damping g = HarmonicDamping Infinite).
Proof.
  intros Hr. unfold make_geopotential.
  destruct (Rle_dec 0 tolerance) as [Ht|]; [|discriminate].
  set (q := harmonic_thresholds P tolerance body).
  assert (T : taken ([] ++ q) (fold_left take_threshold q
                                         ([], default_damping))).
  { apply fold_taken.
    - apply thresholds_sorted.
    - intros a b c E. apply (sectoral_unique P tolerance body a b c E).
    - split; [intros t []|]. split; [cbn; lia|]. split; [reflexivity|].
      intros (t & [] & _). }
  cbn [app] in T.
  destruct (fold_left take_threshold q ([], default_damping))
    as [degree sectoral].
  intros E. injection E as <-. cbn [body_ degree_damping sectoral_damping].
  unfold damping_of_degree. cbn [degree_damping].
  destruct T as (T1 & T2 & T3 & T4).
  assert (Q : forall t, In t q <-> _)
    by (intros t; apply (thresholds_spec P tolerance body t)).
  set (N := geopotential_degree body) in *.
  assert (L : List.length degree = Nat.max 2 (S N)).
  { apply Nat.le_antisymm.
    - apply Nat.nlt_ge. intros HL.
      destruct (T2 (Nat.max 2 (S N)) HL) as (t & Hq & Hn & _).
      apply Q in Hq. destruct Hq as [->|[->|(k & m & Hkm & ->)]];
        cbn [threshold_n] in Hn; lia.
    - apply Nat.max_lub.
      + apply (T1 (Threshold Infinite 1 0)). apply Q. auto.
      + destruct (le_lt_dec 2 N) as [H|H].
        * apply (T1 (Threshold (harmonic_threshold P tolerance body N 0) N 0)).
          apply Q. right. right. exists N, 0%nat. split; [lia | reflexivity].
        * pose proof (T1 (Threshold Infinite 1 0) ltac:(apply Q; auto)) as H1.
          cbn in H1. lia. }
  split; [exact Ht|]. split; [reflexivity|]. split; [exact L|].
  split; [|split; [|split]].
  - intros n Hn. destruct (T2 n ltac:(lia)) as (t & _ & _ & -> & Hmax).
    f_equal. apply ext_le_antisym; [destruct (threshold_r t); exact I|].
    apply (Hmax (Threshold Infinite 1 0)); [apply Q; auto | cbn; lia].
  - intros n Hn. destruct (T2 n ltac:(lia)) as (t & Hq & Hnt & -> & Hmax).
    f_equal. apply Q in Hq.
    assert (K : exists k m, (n <= k <= N /\ m <= k)%nat /\
              threshold_r t = harmonic_threshold P tolerance body k m).
    { destruct Hq as [->|[->|(k & m & Hkm & ->)]]; cbn [threshold_n] in Hnt;
        try lia. exists k, m. split; [lia | reflexivity]. }
    destruct K as (k & m & Hkm & Et). rewrite Et in Hmax |- *. clear Hnt.
    apply ext_le_antisym.
    + apply largest_upper. apply in_map_iff. exists (k, m).
      split; [reflexivity|]. apply harmonics_from_spec. fold N. lia.
    + apply largest_lub; [apply harmonic_threshold_nonnegative; exact Hr|].
      intros a Ha. apply in_map_iff in Ha. destruct Ha as ([k' m'] & <- & Ha).
      apply harmonics_from_spec in Ha. fold N in Ha. cbn [fst snd].
      apply (Hmax (Threshold (harmonic_threshold P tolerance body k' m') k' m')).
      * apply Q. right. right. exists k', m'. split; [lia | reflexivity].
      * cbn. lia.
  - intros HN.
    assert (In22 : In (Threshold (harmonic_threshold P tolerance body 2 2) 2 2) q).
    { apply Q. right. right. exists 2%nat, 2%nat. split; [lia | reflexivity]. }
    destruct T4 as (t & Hq & Hc & -> & Hmax).
    { eexists. split; [exact In22|]. split; reflexivity. }
    f_equal. unfold sectoral_inner_of. apply ext_le_antisym.
    + apply Q in Hq. destruct Hq as [->|[->|(k & m & Hkm & ->)]];
        cbn [threshold_n threshold_m threshold_r is_sectoral] in *.
      * destruct Hc as [[Hc _]|Hc]; cbn in Hc; lia.
      * destruct Hc as [[Hc _]|Hc]; cbn in Hc; lia.
      * destruct Hc as [[Hc1 Hc2]|Hc].
        -- cbn in Hc1, Hc2. subst k m. apply ext_max_l.
        -- eapply ext_le_trans; [|apply ext_max_r].
           apply largest_upper. apply in_map_iff. exists (k, m).
           split; [reflexivity|]. apply harmonics_from_spec. fold N. lia.
    + assert (H22 := Hmax _ In22 ltac:(left; split; reflexivity)).
      cbn [threshold_r] in H22.
      apply ext_max_lub; [exact H22|].
      apply largest_lub.
      * pose proof (harmonic_threshold_nonnegative P tolerance body 2 2 Hr) as H0.
        destruct (harmonic_threshold P tolerance body 2 2),
          (threshold_r t); cbn in *; try tauto; lra.
      * intros a Ha. apply in_map_iff in Ha. destruct Ha as ([k' m'] & <- & Ha).
        apply harmonics_from_spec in Ha. fold N in Ha. cbn [fst snd].
        apply (Hmax (Threshold (harmonic_threshold P tolerance body k' m') k' m')).
        -- apply Q. right. right. exists k', m'. split; [lia | reflexivity].
        -- right. cbn. lia.
  - intros HN. apply T3. intros t Ht' [S1 S2]. apply Q in Ht'.
    destruct Ht' as [->|[->|(k & m & Hkm & ->)]]; cbn in *; lia.
Qed.

(* The harmonics of degree n and above are negligible beyond the inner
   threshold. *)
Theorem negligible P body tolerance n m r :
  0 < reference_radius body -> 0 < tolerance -> 0 < r ->
  (forall k j, 0 < P k j) ->
  (2 <= n <= geopotential_degree body)%nat -> (m <= n)%nat ->
  at_most r (degree_inner_of P tolerance body n) = false ->
  P n m * INR (n + 1) *
  sqrt (cos_coefficients body n m ^ 2 + sin_coefficients body n m ^ 2) *
  (reference_radius body / r) ^ n < tolerance.
Proof.
  intros HR Ht Hr HP Hn Hm Ha.
  set (C := cos_coefficients body n m). set (S := sin_coefficients body n m).
  set (rr := reference_radius body) in *.
  assert (HL : ext_le (harmonic_threshold P tolerance body n m)
                      (degree_inner_of P tolerance body n)).
  { apply largest_upper. apply in_map_iff. exists (n, m).
    split; [reflexivity|]. apply harmonics_from_spec. lia. }
  destruct (degree_inner_of P tolerance body n) as [s|]; [|discriminate].
  cbn in Ha. destruct (Rle_dec r s); [discriminate|]. clear Ha.
  unfold harmonic_threshold in HL. cbv zeta in HL. fold C S rr in HL.
  unfold nonzero in HL.
  destruct (Req_EM_T tolerance 0) as [|_]; [lra|].
  assert (Cases : (C = 0 /\ S = 0) \/
                  (0 < C ^ 2 + S ^ 2 /\
                   rr * Rpower (P n m * INR (n + 1) * sqrt (C ^ 2 + S ^ 2)
                                / tolerance) (1 / INR n) <= s)).
  { destruct (Req_EM_T C 0) as [C0|C0].
    - destruct (Req_EM_T S 0) as [S0|S0]; [left; auto|].
      right. split; [|exact HL]. pose proof (pow2_ge_0 C).
      assert (0 < S ^ 2) by (rewrite <- Rsqr_pow2; apply Rsqr_pos_lt; exact S0). lra.
    - right. split; [|exact HL]. assert (0 < C ^ 2) by (rewrite <- Rsqr_pow2; apply Rsqr_pos_lt; exact C0).
      pose proof (pow2_ge_0 S). lra. }
  destruct Cases as [[-> ->]|[HCS HL']].
  { replace (0 ^ 2 + 0 ^ 2) with 0 by ring. rewrite sqrt_0.
    rewrite Rmult_0_r, Rmult_0_l. exact Ht. }
  set (a := P n m * INR (n + 1) * sqrt (C ^ 2 + S ^ 2)) in *.
  assert (Ha : 0 < a).
  { unfold a. apply Rmult_lt_0_compat; [apply Rmult_lt_0_compat|].
    - apply HP.
    - apply lt_0_INR. lia.
    - apply sqrt_lt_R0. exact HCS. }
  assert (Hx : 0 < a / tolerance).
  { apply Rmult_lt_0_compat; [exact Ha | apply Rinv_0_lt_compat; exact Ht]. }
  set (root := Rpower (a / tolerance) (1 / INR n)) in *.
  assert (Hroot : 0 < root) by (unfold root, Rpower; apply exp_pos).
  assert (Hpow : root ^ n = a / tolerance).
  { rewrite <- Rpower_pow by exact Hroot. unfold root.
    rewrite Rpower_mult. replace (1 / INR n * INR n) with 1.
    - apply Rpower_1. exact Hx.
    - field. apply not_0_INR. lia. }
  assert (Hlt : rr / r < / root).
  { apply (Rmult_lt_reg_r (r * root)); [apply Rmult_lt_0_compat; lra|].
    replace (rr / r * (r * root)) with (rr * root) by (field; lra).
    replace (/ root * (r * root)) with r by (field; lra). lra. }
  assert (Hq : 0 < rr / r).
  { apply Rmult_lt_0_compat; [exact HR | apply Rinv_0_lt_compat; exact Hr]. }
  assert (Hpl : (rr / r) ^ n < (/ root) ^ n).
  { assert (forall j, (0 < j)%nat -> (rr / r) ^ j < (/ root) ^ j) as G.
    { induction j as [|[|j] IH]; intros Hj; [lia | cbn [pow]; lra |].
      change ((rr / r) ^ Datatypes.S (Datatypes.S j)) with (rr / r * (rr / r) ^ Datatypes.S j).
      change ((/ root) ^ Datatypes.S (Datatypes.S j)) with (/ root * (/ root) ^ Datatypes.S j).
      apply Rmult_le_0_lt_compat; try lra; [|apply IH; lia].
      apply pow_le. lra. }
    apply G. lia. }
  rewrite pow_inv, Hpow in Hpl.
  apply (Rmult_lt_compat_l a) in Hpl; [|exact Ha].
  replace (a * / (a / tolerance)) with tolerance in Hpl by (field; lra).
  exact Hpl.
Qed.
