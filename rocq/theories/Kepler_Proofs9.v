(** The elements that are rejected, and the orientation parameters. *)
From Coq Require Import Reals Lra Lia List Bool Arith.
From Verif Require Import Kepler_Model Kepler_Proofs Kepler_Proofs3 Kepler_Proofs6.
Import ListNotations.
Open Scope R_scope.

Definition given (c : Fields) (f : Field) : Prop := c f <> None.
Definition list_of (k : nat) : list Field :=
  match k with
  | 1 => eccentricity_category | 2 => semimajor_axis_category | 3 => semiminor_axis_category | 4 => semilatus_rectum_category
  | 5 => [periapsis_distance] | 6 => [apoapsis_distance] | _ => []
  end%nat.
Lemma in_list_of : forall f, conic_field f -> In f (list_of (category f)).
Proof. intros f C. destruct f; cbn in C |- *; auto 10; contradiction. Qed.
Lemma count_le : forall c l n, (n <= fold_left (fun n f => (n + has_value c f)%nat) l n <= n + length l)%nat.
Proof.
  intros c. induction l as [|f l IH]; intros n; cbn; [lia|]. specialize (IH (n + has_value c f)%nat). unfold has_value in *. destruct (c f); lia.
Qed.
Lemma count_from : forall c l n, fold_left (fun n f => (n + has_value c f)%nat) l n = (n + specifications c l)%nat.
Proof.
  intros c l. unfold specifications. induction l as [|f l IH]; intros n; cbn [fold_left]; [lia|]. rewrite IH, (IH (0 + has_value c f)%nat). lia.
Qed.
Lemma count_cons : forall c f l, specifications c (f :: l) = (has_value c f + specifications c l)%nat.
Proof. intros c f l. unfold specifications at 1. cbn [fold_left]. rewrite count_from. lia. Qed.
Lemma count_bound : forall c l, (specifications c l <= length l)%nat.
Proof. intros c l. pose proof (count_le c l 0). unfold specifications. lia. Qed.
Lemma count_given : forall c l f, In f l -> given c f -> (1 <= specifications c l)%nat.
Proof.
  intros c l f. induction l as [|g l IH]; intros I G; [destruct I|]. rewrite count_cons. destruct I as [->|I]; [|specialize (IH I G); lia].
  unfold has_value. unfold given in G. destruct (c f); [lia|congruence].
Qed.
Lemma count_given_2 : forall c l f g, In f l -> In g l -> f <> g -> given c f -> given c g -> (2 <= specifications c l)%nat.
Proof.
  intros c l f g. induction l as [|x l IH]; intros I J N F G; [destruct I|]. rewrite count_cons. destruct I as [->|I], J as [->|J].
  - congruence.
  - pose proof (count_given c l g J G). unfold has_value. unfold given in F. destruct (c f); [lia|congruence].
  - pose proof (count_given c l f I F). unfold has_value. unfold given in G. destruct (c g); [lia|congruence].
  - specialize (IH I J N F G). lia.
Qed.
Lemma count_missing : forall c l f, In f l -> ~ given c f -> (specifications c l < length l)%nat.
Proof.
  intros c l f. induction l as [|g l IH]; intros I G; [destruct I|]. rewrite count_cons. cbn [length]. pose proof (count_bound c l). unfold has_value.
  destruct I as [->|I]; [unfold given in G; destruct (c f); [destruct G; discriminate|lia]|]. specialize (IH I G). destruct (c g); lia.
Qed.
Lemma count_none : forall c l, (forall f, In f l -> ~ given c f) -> specifications c l = 0%nat.
Proof.
  intros c l. induction l as [|g l IH]; intros H; [reflexivity|]. rewrite count_cons, IH by (intros f I; apply H; right; exact I).
  specialize (H g (or_introl eq_refl)). unfold given, has_value in *. destruct (c g); [destruct H; discriminate|reflexivity].
Qed.
(** A category partly given is rejected. *)
Lemma partly_given : forall mu c f g x, conic_field f -> category f = category g -> category f = category x -> f <> g -> given c f -> given c g -> ~ given c x ->
  CompleteConicParameters mu c = None.
Proof.
  intros mu c f g x K Eg Ex N F G X. assert (Kg : conic_field g) by (destruct f, g; cbn in *; try discriminate; exact I || contradiction).
  assert (Kx : conic_field x) by (destruct f, x; cbn in *; try discriminate; exact I || contradiction).
  pose proof (in_list_of f K) as If. pose proof (in_list_of g Kg) as Ig. pose proof (in_list_of x Kx) as Ix. rewrite <- Eg in Ig. rewrite <- Ex in Ix.
  pose proof (count_given_2 c _ f g If Ig N F G). pose proof (count_missing c _ x Ix X).
  assert (O : one_or_all c (list_of (category f)) = false).
  { unfold one_or_all. apply orb_false_iff. split; [apply Nat.leb_gt; lia|apply Nat.eqb_neq; lia]. }
  unfold CompleteConicParameters, CompleteConicParametersByCategory.
  destruct f; cbn [category list_of] in O; try contradiction K;
    try (rewrite O, ?andb_false_r; reflexivity); unfold one_or_all in O; cbn in O; unfold specifications, has_value in O; cbn in O;
    match type of O with context [c ?f] => destruct (c f); cbn in O; discriminate end.
Qed.

(** * The number of categories *)
Definition primary (k : nat) : Field :=
  match k with 1 => eccentricity | 2 => semimajor_axis | 3 => semiminor_axis | 4 => semilatus_rectum | 5 => periapsis_distance | _ => apoapsis_distance end%nat.
Ltac brute := unfold one_or_all, must_complete, specifications, has_value, with_value, given, sets, set; cbn [fold_left length eccentricity_category semimajor_axis_category semiminor_axis_category semilatus_rectum_category fst snd field_eqb];
  repeat match goal with |- context [match ?c ?f with Some _ => _ | None => _ end] => is_var c; let E := fresh in destruct (c f) eqn:E end;
  cbn; try discriminate; try (intros; congruence); try lia.
Definition completes (complete : Fields -> Fields) (k : nat) : Prop :=
  forall c, (one_or_all c (list_of k) = true -> (1 <= specifications c (list_of k))%nat -> given (complete c) (primary k)) /\
            (specifications c (list_of k) = 0%nat -> complete c = c) /\ (forall g, category g <> k -> complete c g = c g).
Lemma completes_1 : completes complete_eccentricity 1.
Proof.
  intros c. cbn [list_of primary]. unfold complete_eccentricity. split; [|split].
  - brute.
  - brute.
  - intros g G. destruct g; cbn in G; try congruence; brute.
Qed.
Lemma completes_2 : forall mu, completes (complete_semimajor_axis mu) 2.
Proof.
  intros mu c. cbn [list_of primary]. unfold complete_semimajor_axis. split; [|split].
  - brute.
  - brute.
  - intros g G. destruct g; cbn in G; try congruence; brute.
Qed.
Lemma completes_3 : completes complete_semiminor_axis 3.
Proof.
  intros c. cbn [list_of primary]. unfold complete_semiminor_axis. split; [|split].
  - brute.
  - brute.
  - intros g G. destruct g; cbn in G; try congruence; brute.
Qed.
Lemma completes_4 : forall mu, completes (complete_semilatus_rectum mu) 4.
Proof.
  intros mu c. cbn [list_of primary]. unfold complete_semilatus_rectum. split; [|split].
  - brute.
  - brute.
  - intros g G. destruct g; cbn in G; try congruence; brute.
Qed.
Lemma count_ext : forall c c' l, (forall f, In f l -> c f = c' f) -> specifications c l = specifications c' l.
Proof.
  intros c c' l. induction l as [|f l IH]; intros H; [reflexivity|]. rewrite !count_cons, IH by (intros g I; apply H; right; exact I).
  unfold has_value. rewrite (H f (or_introl eq_refl)). reflexivity.
Qed.
Lemma one_or_all_ext : forall c c' l, (forall f, In f l -> c f = c' f) -> one_or_all c l = one_or_all c' l.
Proof. intros c c' l H. unfold one_or_all. rewrite (count_ext c c' l H). reflexivity. Qed.
Lemma list_of_category : forall k f, In f (list_of k) -> category f = k.
Proof. intros k f I. destruct k as [|[|[|[|[|[|[|k]]]]]]]; cbn in I; repeat (destruct I as [<-|I]; [reflexivity|]); destruct I. Qed.
Lemma completes_keeps : forall F k c j, completes F k -> (j <> k)%nat -> forall f, In f (list_of j) -> F c f = c f.
Proof. intros F k c j H N f I. apply H. rewrite (list_of_category j f I). exact N. Qed.
(** The categories given are those whose first field is set. *)
Lemma by_category_primary : forall mu c c', CompleteConicParametersByCategory mu c = Some c' -> forall k, (1 <= k <= 6)%nat ->
  given c' (primary k) <-> exists f, In f (list_of k) /\ given c f.
Proof.
  intros mu c c' H k Hk. unfold CompleteConicParametersByCategory in H.
  destruct (one_or_all c eccentricity_category) eqn:O1; [|discriminate]. destruct (one_or_all c semimajor_axis_category) eqn:O2; [|discriminate].
  destruct (one_or_all c semiminor_axis_category) eqn:O3; [|discriminate]. destruct (one_or_all c semilatus_rectum_category) eqn:O4; [|discriminate].
  cbn [andb] in H. injection H as <-.
  set (c1 := complete_eccentricity c). set (c2 := complete_semimajor_axis (Fin mu) c1). set (c3 := complete_semiminor_axis c2).
  assert (K1 := completes_1). assert (K2 := completes_2 (Fin mu)). assert (K3 := completes_3). assert (K4 := completes_4 (Fin mu)).
  assert (G : forall F j (d d' : Fields), completes F j -> one_or_all d (list_of j) = true -> (forall f, In f (list_of j) -> d f = c f) -> d' (primary j) = F d (primary j) ->
            (In (primary j) (list_of j)) -> given d' (primary j) <-> exists f, In f (list_of j) /\ given c f).
  { intros F j d d' KF O D D' P. destruct (KF d) as (A & B & _). unfold given at 1. rewrite D'. fold (given (F d) (primary j)). split.
    - intros Gv. destruct (Nat.eq_dec (specifications d (list_of j)) 0) as [Z|NZ].
      + rewrite (B Z) in Gv. exists (primary j). split; [exact P|]. unfold given. rewrite <- D by exact P. exact Gv.
      + clear - NZ D. revert D NZ. generalize (list_of j). intros l D NZ. induction l as [|f l IH]; [exfalso; apply NZ; reflexivity|]. rewrite count_cons in NZ.
        destruct (d f) eqn:E.
        * exists f. split; [left; reflexivity|]. unfold given. rewrite <- D by (left; reflexivity). congruence.
        * destruct IH as (g & I & Gv); [intros g I; apply D; right; exact I|unfold has_value in NZ; rewrite E in NZ; exact NZ|].
          exists g. split; [right; exact I|exact Gv].
    - intros (f & I & Gv). apply A; [exact O|]. apply (count_given d _ f I). unfold given. rewrite D by exact I. exact Gv. }
  assert (X1 : forall j, (j <> 1)%nat -> forall f, In f (list_of j) -> c1 f = c f) by (intros j N f I; exact (completes_keeps _ 1 c j K1 N f I)).
  assert (X2 : forall j, (j <> 1)%nat -> (j <> 2)%nat -> forall f, In f (list_of j) -> c2 f = c f)
    by (intros j N1 N2 f I; unfold c2; rewrite (completes_keeps _ 2 c1 j K2 N2 f I); exact (X1 j N1 f I)).
  assert (X3 : forall j, (j <> 1)%nat -> (j <> 2)%nat -> (j <> 3)%nat -> forall f, In f (list_of j) -> c3 f = c f)
    by (intros j N1 N2 N3 f I; unfold c3; rewrite (completes_keeps _ 3 c2 j K3 N3 f I); exact (X2 j N1 N2 f I)).
  assert (Y : forall f, category f <> 4%nat -> complete_semilatus_rectum (Fin mu) c3 f = c3 f) by (intros f N; apply K4, N).
  assert (Y3 : forall f, category f <> 3%nat -> c3 f = c2 f) by (intros f N; apply K3, N).
  assert (Y2 : forall f, category f <> 2%nat -> c2 f = c1 f) by (intros f N; apply K2, N).
  destruct k as [|[|[|[|[|[|[|k]]]]]]]; try lia.
  - apply (G complete_eccentricity 1%nat c); [exact K1|exact O1|reflexivity| |left; reflexivity]. cbn [primary]. rewrite Y, Y3, Y2 by discriminate. reflexivity.
  - apply (G (complete_semimajor_axis (Fin mu)) 2%nat c1); [exact K2| |apply X1; lia| |left; reflexivity].
    + rewrite (one_or_all_ext c1 c) by (apply X1; lia). exact O2.
    + cbn [primary]. rewrite Y, Y3 by discriminate. reflexivity.
  - apply (G complete_semiminor_axis 3%nat c2); [exact K3| |apply X2; lia| |left; reflexivity].
    + rewrite (one_or_all_ext c2 c) by (apply X2; lia). exact O3.
    + cbn [primary]. rewrite Y by discriminate. reflexivity.
  - apply (G (complete_semilatus_rectum (Fin mu)) 4%nat c3); [exact K4| |apply X3; lia|reflexivity|left; reflexivity].
    rewrite (one_or_all_ext c3 c) by (apply X3; lia). exact O4.
  - cbn [primary list_of]. unfold given at 1. rewrite Y by discriminate. rewrite (X3 5%nat) by (lia || (left; reflexivity)).
    split; [intros E; exists periapsis_distance; split; [left; reflexivity|exact E]|intros (f & [<-|[]] & E); exact E].
  - cbn [primary list_of]. unfold given at 1. rewrite Y by discriminate. rewrite (X3 6%nat) by (lia || (left; reflexivity)).
    split; [intros E; exists apoapsis_distance; split; [left; reflexivity|exact E]|intros (f & [<-|[]] & E); exact E].
Qed.
Lemma primary_fields_eq : primary_fields = map primary (seq 1 6).
Proof. reflexivity. Qed.
Lemma category_range : forall f, conic_field f -> (1 <= category f <= 6)%nat.
Proof. intros f C. destruct f; cbn in *; try lia; contradiction. Qed.
Lemma primary_inj : forall j k, (1 <= j <= 6)%nat -> (1 <= k <= 6)%nat -> primary j = primary k -> j = k.
Proof.
  intros j k J K. destruct j as [|[|[|[|[|[|[|j]]]]]]]; try lia; destruct k as [|[|[|[|[|[|[|k]]]]]]]; try lia; cbn; discriminate || reflexivity.
Qed.
Lemma in_primary : forall k, (1 <= k <= 6)%nat -> In (primary k) primary_fields.
Proof. intros k K. rewrite primary_fields_eq. apply in_map, in_seq. lia. Qed.
Lemma count_given_3 : forall c l f g h, In f l -> In g l -> In h l -> f <> g -> f <> h -> g <> h -> given c f -> given c g -> given c h -> (3 <= specifications c l)%nat.
Proof.
  intros c l f g h. induction l as [|x l IH]; intros I J K N1 N2 N3 F G H; [destruct I|]. rewrite count_cons.
  assert (V : forall y, given c y -> has_value c y = 1%nat) by (intros y Gy; unfold has_value; unfold given in Gy; destruct (c y); congruence).
  destruct I as [->|I], J as [->|J], K as [->|K]; try congruence.
  - pose proof (count_given_2 c l g h J K N3 G H). rewrite (V _ F). lia.
  - pose proof (count_given_2 c l f h I K N2 F H). rewrite (V _ G). lia.
  - pose proof (count_given_2 c l f g I J N1 F G). rewrite (V _ H). lia.
  - specialize (IH I J K N1 N2 N3 F G H). lia.
Qed.
Lemma too_many : forall mu c f g h, conic_field f -> conic_field g -> conic_field h -> category f <> category g -> category f <> category h -> category g <> category h ->
  given c f -> given c g -> given c h -> CompleteConicParameters mu c = None.
Proof.
  intros mu c f g h Cf Cg Ch N1 N2 N3 F G H. unfold CompleteConicParameters. destruct (CompleteConicParametersByCategory mu c) as [c'|] eqn:E; [|reflexivity].
  pose proof (category_range f Cf) as Rf. pose proof (category_range g Cg) as Rg. pose proof (category_range h Ch) as Rh.
  assert (P : forall x, conic_field x -> given c x -> given c' (primary (category x))).
  { intros x Cx X. apply (by_category_primary mu c c' E); [apply category_range, Cx|]. exists x. split; [apply in_list_of, Cx|exact X]. }
  pose proof (count_given_3 c' primary_fields _ _ _ (in_primary _ Rf) (in_primary _ Rg) (in_primary _ Rh)) as T.
  specialize (T ltac:(intros Q; apply primary_inj in Q; congruence) ltac:(intros Q; apply primary_inj in Q; congruence) ltac:(intros Q; apply primary_inj in Q; congruence)
                (P f Cf F) (P g Cg G) (P h Ch H)).
  destruct (Nat.eqb_spec (specifications c' primary_fields) 2); [lia|reflexivity].
Qed.
Lemma count_one : forall c l x, NoDup l -> (forall f, In f l -> given c f -> f = x) -> (specifications c l <= 1)%nat.
Proof.
  intros c l x. induction l as [|f l IH]; intros N H; [cbn; lia|]. rewrite count_cons. inversion N as [|? ? NI ND]; subst.
  destruct (c f) eqn:E.
  - assert (f = x) by (apply H; [left; reflexivity|unfold given; congruence]). subst x.
    rewrite (count_none c l); [unfold has_value; rewrite E; lia|]. intros g I G. assert (g = f) by (apply H; [right; exact I|exact G]). subst g. exact (NI I).
  - unfold has_value. rewrite E. apply IH; [exact ND|]. intros g I. apply H. right. exact I.
Qed.
Lemma too_few : forall mu c k, (forall f, conic_field f -> given c f -> category f = k) -> CompleteConicParameters mu c = None.
Proof.
  intros mu c k H. unfold CompleteConicParameters. destruct (CompleteConicParametersByCategory mu c) as [c'|] eqn:E; [|reflexivity].
  assert (L : (specifications c' primary_fields <= 1)%nat).
  { apply (count_one c' primary_fields (primary k)).
    - unfold primary_fields. repeat constructor; cbn; intuition discriminate.
    - intros f I G. rewrite primary_fields_eq in I. apply in_map_iff in I. destruct I as (j & <- & J). apply in_seq in J.
      apply (by_category_primary mu c c' E j ltac:(lia)) in G. destruct G as (f & If & Gf). f_equal. rewrite <- (list_of_category j f If). apply H; [|exact Gf].
      pose proof (list_of_category j f If). destruct f; cbn in *; try exact I; lia. }
  destruct (Nat.eqb_spec (specifications c' primary_fields) 2); [lia|reflexivity].
Qed.
(** * The orientation *)
Lemma orientation_parameters : forall el f x w, orients (longitude_of_ascending_node el) w f x ->
  (forall g, g = argument_of_periapsis \/ g = longitude_of_periapsis -> fields el g = if field_eqb g f then Some (Fin x) else None) ->
  exists c', CompleteOrientationParameters el = Some (mkElements c' (inclination el) (longitude_of_ascending_node el)) /\
    c' argument_of_periapsis = Some (Fin w) /\ c' longitude_of_periapsis = Some (Fin (longitude_of_ascending_node el + w)) /\
    forall g, g <> argument_of_periapsis -> g <> longitude_of_periapsis -> c' g = fields el g.
Proof.
  intros el f x w O C. pose proof (C argument_of_periapsis (or_introl eq_refl)) as A. pose proof (C longitude_of_periapsis (or_intror eq_refl)) as B.
  unfold CompleteOrientationParameters. unfold specifications, has_value. cbn [fold_left].
  destruct f; try contradiction O; cbn [field_eqb] in A, B; rewrite A, B; cbn [Nat.add Nat.eqb]; unfold with_value; rewrite ?A, ?B;
    cbn in O; subst x; eexists; (split; [reflexivity|]); unfold set; cbn [field_eqb].
  - split; [exact A|]. split; [reflexivity|]. intros g G1 G2. destruct g; try reflexivity; contradiction.
  - cbn [nsub lift2]. split; [f_equal; f_equal; ring|]. split; [exact B|]. intros g G1 G2. destruct g; try reflexivity; contradiction.
Qed.
Lemma orientation_rejected : forall el, (fields el argument_of_periapsis = None <-> fields el longitude_of_periapsis = None) -> CompleteOrientationParameters el = None.
Proof.
  intros el H. unfold CompleteOrientationParameters, specifications, has_value. cbn [fold_left].
  destruct (fields el argument_of_periapsis), (fields el longitude_of_periapsis); cbn; try reflexivity; exfalso; destruct H as [H1 H2]; [specialize (H2 eq_refl)|specialize (H1 eq_refl)]; discriminate.
Qed.
