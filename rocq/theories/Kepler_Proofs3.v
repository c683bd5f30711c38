(** The completion of the conic parameters: composition of the steps, and the relation of the values to the
    specification. *)
From Coq Require Import Reals Lra Lia List Bool.
From Verif Require Import Geometry_Model RotatingBody_Model Kepler_Model Kepler_Proofs Kepler_Proofs2.
Import ListNotations.
Open Scope R_scope.

(** * Frame conditions *)
Lemma set_frame f x c g : g <> f -> set f x c g = c g.
Proof. intros H. unfold set. destruct (field_eqb g f) eqn:E; [exfalso; apply H, field_eqb_eq, E|reflexivity]. Qed.
Lemma sets_frame l : forall c g, ~ In g (map fst l) -> sets l c g = c g.
Proof.
  induction l as [|[f x] l IH]; intros c g H; [reflexivity|]. unfold sets in *. cbn [fold_left fst snd]. rewrite IH.
  - apply set_frame. intros ->. apply H. left. reflexivity.
  - intros G. apply H. right. exact G.
Qed.
Ltac outside H := let G := fresh in intro G; apply H; cbn [map fst In eccentricity_category semimajor_axis_category] in G |- *; tauto.
Lemma eccentricity_frame c g : ~ In g eccentricity_category -> complete_eccentricity c g = c g.
Proof.
  intros H. unfold complete_eccentricity, with_value. destruct (must_complete c eccentricity_category); [|reflexivity].
  repeat match goal with |- context [match c ?f with _ => _ end] => destruct (c f) end; try reflexivity;
    apply sets_frame; outside H.
Qed.
Lemma semimajor_frame mu c g : ~ In g semimajor_axis_category -> complete_semimajor_axis mu c g = c g.
Proof.
  intros H. unfold complete_semimajor_axis, with_value. destruct (must_complete c semimajor_axis_category); [|reflexivity].
  repeat match goal with |- context [match c ?f with _ => _ end] => destruct (c f) end; try reflexivity;
    apply sets_frame; outside H.
Qed.
Lemma semiminor_frame c g : ~ In g semiminor_axis_category -> complete_semiminor_axis c g = c g.
Proof.
  intros H. unfold complete_semiminor_axis, with_value. destruct (must_complete c semiminor_axis_category); [|reflexivity].
  repeat match goal with |- context [match c ?f with _ => _ end] => destruct (c f) end; try reflexivity;
    apply set_frame; intros ->; apply H; cbn; tauto.
Qed.
Lemma semilatus_frame mu c g : ~ In g semilatus_rectum_category -> complete_semilatus_rectum mu c g = c g.
Proof.
  intros H. unfold complete_semilatus_rectum, with_value. destruct (must_complete c semilatus_rectum_category); [|reflexivity].
  repeat match goal with |- context [match c ?f with _ => _ end] => destruct (c f) end; try reflexivity;
    apply set_frame; intros ->; apply H; cbn; tauto.
Qed.

Lemma with_values_frame c f h kk o g : (forall x y, kk x y g = c g) -> o g = c g -> with_values c f h kk o g = c g.
Proof. intros A B. unfold with_values. destruct (c f); [|exact B]. destruct (c h); [apply A|exact B]. Qed.

Section Completion.
Variable k : Field -> Num.
Variable mu : R.
Hypothesis H1 : forall c f, In f eccentricity_category -> k f <> NotFinite -> is_only k f c eccentricity_category ->
  is_full k (complete_eccentricity c) eccentricity_category.
Hypothesis H2 : forall c f, In f semimajor_axis_category -> k f <> NotFinite -> is_only k f c semimajor_axis_category ->
  is_full k (complete_semimajor_axis (Fin mu) c) semimajor_axis_category.
Hypothesis H3 : forall c f, In f semiminor_axis_category -> k f <> NotFinite -> is_only k f c semiminor_axis_category ->
  is_full k (complete_semiminor_axis c) semiminor_axis_category.
Hypothesis H4 : forall c f, In f semilatus_rectum_category -> k f <> NotFinite -> is_only k f c semilatus_rectum_category ->
  is_full k (complete_semilatus_rectum (Fin mu) c) semilatus_rectum_category.

(** The state of a category: nothing, one parameter, or all parameters. *)
Definition open (c : Fields) (l : list Field) : Prop :=
  is_full k c l \/ exists f, In f l /\ k f <> NotFinite /\ is_only k f c l.
(** [b]: something is given. *)
Definition before (b : bool) (c : Fields) (l : list Field) : Prop := if b then open c l else is_none c l.
Definition after (b : bool) (c : Fields) (l : list Field) : Prop := if b then is_full k c l else is_none c l.

Lemma state_transport b c c' l : (forall g, In g l -> c' g = c g) -> before b c l -> before b c' l.
Proof.
  intros E. destruct b; cbn [before].
  - intros [F|(f & I & N & O)]; [left|right; exists f; repeat split; auto]; intros g G; rewrite E by exact G; auto.
  - intros F g G. rewrite E by exact G. auto.
Qed.
Lemma after_transport b c c' l : (forall g, In g l -> c' g = c g) -> after b c l -> after b c' l.
Proof. intros E. destruct b; cbn [after]; intros F g G; rewrite E by exact G; auto. Qed.

Ltac counts H := unfold specifications, has_value; cbn [fold_left]; repeat match goal with |- context [?c ?g] =>
  match type of c with Fields => rewrite (H g) by inside end end; cbn [field_eqb].
Definition category_list (l : list Field) : Prop :=
  l = eccentricity_category \/ l = semimajor_axis_category \/ l = semiminor_axis_category \/ l = semilatus_rectum_category.
Lemma none_count c l : category_list l -> is_none c l -> specifications c l = 0%nat.
Proof. intros [-> | [-> | [-> | ->]]] N; unfold specifications, has_value; cbn [fold_left eccentricity_category semimajor_axis_category semiminor_axis_category semilatus_rectum_category]; counts N; reflexivity. Qed.
Lemma full_count c l : category_list l -> is_full k c l -> specifications c l = length l /\ (2 <= length l)%nat.
Proof. intros [-> | [-> | [-> | ->]]] N; unfold specifications, has_value; cbn [fold_left eccentricity_category semimajor_axis_category semiminor_axis_category semilatus_rectum_category]; counts N; cbn; split; try reflexivity; lia. Qed.
Lemma only_count c f l : category_list l -> In f l -> is_only k f c l -> specifications c l = 1%nat.
Proof.
  intros [-> | [-> | [-> | ->]]] F N; unfold specifications, has_value;
    cbn [fold_left eccentricity_category semimajor_axis_category semiminor_axis_category semilatus_rectum_category];
    each_in F; counts N; reflexivity.
Qed.
Lemma before_check b c l : category_list l -> before b c l -> one_or_all c l = true.
Proof.
  intros L. unfold one_or_all. destruct b; cbn [before].
  - intros [F|(f & I & _ & O)].
    + destruct (full_count c l L F) as [-> _]. rewrite Nat.eqb_refl. apply orb_true_r.
    + rewrite (only_count c f l L I O). reflexivity.
  - intros N. rewrite (none_count c l L N). reflexivity.
Qed.

(** One category. *)
Lemma step l (complete : Fields -> Fields) : category_list l ->
  (forall c, must_complete c l = false -> complete c = c) ->
  (forall c f, In f l -> k f <> NotFinite -> is_only k f c l -> is_full k (complete c) l) ->
  forall b c, before b c l -> after b (complete c) l.
Proof.
  intros L NC C b c. destruct b; cbn [before after].
  - intros [F|(f & I & N & O)]; [|eapply C; eassumption].
    rewrite NC; [exact F|]. unfold must_complete. destruct (full_count c l L F) as [-> P]. apply Nat.eqb_neq. lia.
  - intros N. rewrite NC; [exact N|]. unfold must_complete. rewrite (none_count c l L N). reflexivity.
Qed.
Lemma nc1 c : must_complete c eccentricity_category = false -> complete_eccentricity c = c.
Proof. intros H. unfold complete_eccentricity. rewrite H. reflexivity. Qed.
Lemma nc2 c : must_complete c semimajor_axis_category = false -> complete_semimajor_axis (Fin mu) c = c.
Proof. intros H. unfold complete_semimajor_axis. rewrite H. reflexivity. Qed.
Lemma nc3 c : must_complete c semiminor_axis_category = false -> complete_semiminor_axis c = c.
Proof. intros H. unfold complete_semiminor_axis. rewrite H. reflexivity. Qed.
Lemma nc4 c : must_complete c semilatus_rectum_category = false -> complete_semilatus_rectum (Fin mu) c = c.
Proof. intros H. unfold complete_semilatus_rectum. rewrite H. reflexivity. Qed.

Ltac disjoint := let G := fresh in let G' := fresh in intros ? G; each_in G; intro G'; cbn in G'; intuition congruence.

Lemma by_category b1 b2 b3 b4 c :
  before b1 c eccentricity_category -> before b2 c semimajor_axis_category ->
  before b3 c semiminor_axis_category -> before b4 c semilatus_rectum_category ->
  exists c', CompleteConicParametersByCategory mu c = Some c' /\
    after b1 c' eccentricity_category /\ after b2 c' semimajor_axis_category /\
    after b3 c' semiminor_axis_category /\ after b4 c' semilatus_rectum_category /\
    (forall g, (5 <= category g)%nat -> c' g = c g).
Proof.
  intros B1 B2 B3 B4. unfold CompleteConicParametersByCategory.
  rewrite (before_check b1), (before_check b2), (before_check b3), (before_check b4) by (unfold category_list; auto).
  cbn [andb]. eexists. split; [reflexivity|].
  set (c1 := complete_eccentricity c). set (c2 := complete_semimajor_axis (Fin mu) c1).
  set (c3 := complete_semiminor_axis c2). set (c4 := complete_semilatus_rectum (Fin mu) c3).
  assert (E1 : forall g, ~ In g eccentricity_category -> c1 g = c g) by (intros; apply eccentricity_frame; assumption).
  assert (E2 : forall g, ~ In g semimajor_axis_category -> c2 g = c1 g) by (intros; apply semimajor_frame; assumption).
  assert (E3 : forall g, ~ In g semiminor_axis_category -> c3 g = c2 g) by (intros; apply semiminor_frame; assumption).
  assert (E4 : forall g, ~ In g semilatus_rectum_category -> c4 g = c3 g) by (intros; apply semilatus_frame; assumption).
  assert (A1 : after b1 c1 eccentricity_category).
  { apply (step _ complete_eccentricity); [unfold category_list; auto|exact nc1|exact H1|exact B1]. }
  assert (A2 : after b2 c2 semimajor_axis_category).
  { apply (step _ (complete_semimajor_axis (Fin mu))); [unfold category_list; auto|exact nc2|exact H2|].
    apply (state_transport _ c); [|exact B2]. intros g G. apply E1. each_in G; cbn; intuition congruence. }
  assert (A3 : after b3 c3 semiminor_axis_category).
  { apply (step _ complete_semiminor_axis); [unfold category_list; auto|exact nc3|exact H3|].
    apply (state_transport _ c); [|exact B3]. intros g G.
    rewrite E2, E1; [reflexivity|..]; each_in G; cbn; intuition congruence. }
  assert (A4 : after b4 c4 semilatus_rectum_category).
  { apply (step _ (complete_semilatus_rectum (Fin mu))); [unfold category_list; auto|exact nc4|exact H4|].
    apply (state_transport _ c); [|exact B4]. intros g G.
    rewrite E3, E2, E1; [reflexivity|..]; each_in G; cbn; intuition congruence. }
  split; [|split; [|split; [|split]]].
  - apply (after_transport _ c1); [|exact A1]. intros g G. rewrite E4, E3, E2; [reflexivity|..]; each_in G; cbn; intuition congruence.
  - apply (after_transport _ c2); [|exact A2]. intros g G. rewrite E4, E3; [reflexivity|..]; each_in G; cbn; intuition congruence.
  - apply (after_transport _ c3); [|exact A3]. intros g G. rewrite E4; [reflexivity|..]; each_in G; cbn; intuition congruence.
  - exact A4.
  - intros g G. rewrite E4, E3, E2, E1; [reflexivity|..]; intros I; each_in I; cbn in G; lia.
Qed.

Hypothesis FT : forall i j c, (1 <= i)%nat -> (i < j <= 6)%nat -> two k i j c -> all_main k i j (complete_from_two c).
(** The main parameters of a category that are finite. *)
Hypothesis M1 : k eccentricity <> NotFinite.
Hypothesis M2 : k semimajor_axis <> NotFinite.
Hypothesis M4 : k semilatus_rectum <> NotFinite.
(** Nothing else than conic parameters is written. *)
Lemma from_two_frame c g : ~ conic_field g -> complete_from_two c g = c g.
Proof.
  intros G. unfold complete_from_two.
  repeat (apply with_values_frame; [intros; apply sets_frame; cbn [map fst In]; intros Q; apply G; intuition (subst; exact I)|]).
  reflexivity.
Qed.

(** The parameters [f1] and [f2] are given, of different categories. *)
Definition given (f1 f2 : Field) (c : Fields) : Prop :=
  forall g, conic_field g -> c g = if (field_eqb g f1 || field_eqb g f2)%bool then Some (k g) else None.
Definition full_category (i : nat) (c : Fields) : Prop := forall g, conic_field g -> category g = i -> c g = Some (k g).

Lemma listed g : conic_field g -> (category g < 5)%nat ->
  (category g = 1 /\ In g eccentricity_category \/ category g = 2 /\ In g semimajor_axis_category \/
   category g = 3 /\ In g semiminor_axis_category \/ category g = 4 /\ In g semilatus_rectum_category)%nat.
Proof. destruct g; cbn; intros [] H; try lia; tauto. Qed.
Lemma listed_conic g l i : (l = eccentricity_category /\ i = 1 \/ l = semimajor_axis_category /\ i = 2 \/
   l = semiminor_axis_category /\ i = 3 \/ l = semilatus_rectum_category /\ i = 4)%nat -> In g l -> conic_field g /\ category g = i.
Proof.
  intros [[-> ->]|[[-> ->]|[[-> ->]|[-> ->]]]] G; each_in G; split; try reflexivity; exact I.
Qed.

Lemma given_before f1 f2 c l i : given f1 f2 c -> category f1 <> category f2 -> k f1 <> NotFinite -> k f2 <> NotFinite ->
  (l = eccentricity_category /\ i = 1 \/ l = semimajor_axis_category /\ i = 2 \/
   l = semiminor_axis_category /\ i = 3 \/ l = semilatus_rectum_category /\ i = 4)%nat ->
  conic_field f1 -> conic_field f2 ->
  before (Nat.eqb i (category f1) || Nat.eqb i (category f2)) c l.
Proof.
  intros G D N1 N2 L C1 C2.
  assert (S : forall f, conic_field f -> category f = i -> In f l).
  { intros f C E. destruct L as [[-> ->]|[[-> ->]|[[-> ->]|[-> ->]]]]; destruct f; cbn in E, C |- *; try lia; tauto. }
  destruct (Nat.eqb_spec i (category f1)) as [E|E]; cbn [orb before].
  - right. exists f1. split; [apply S; auto|]. split; [exact N1|]. intros g I.
    destruct (listed_conic g l i L I) as [CG EG]. rewrite (G g CG).
    destruct (field_eqb g f2) eqn:F; [apply field_eqb_eq in F; subst g; congruence|]. rewrite orb_false_r. reflexivity.
  - destruct (Nat.eqb_spec i (category f2)) as [E'|E']; cbn [before].
    + right. exists f2. split; [apply S; auto|]. split; [exact N2|]. intros g I.
      destruct (listed_conic g l i L I) as [CG EG]. rewrite (G g CG).
      destruct (field_eqb g f1) eqn:F; [apply field_eqb_eq in F; subst g; congruence|]. reflexivity.
    + intros g I. destruct (listed_conic g l i L I) as [CG EG]. rewrite (G g CG).
      destruct (field_eqb g f1) eqn:F; [apply field_eqb_eq in F; subst g; congruence|].
      destruct (field_eqb g f2) eqn:F'; [apply field_eqb_eq in F'; subst g; congruence|]. reflexivity.
Qed.

Lemma single f g : conic_field f -> conic_field g -> (5 <= category g)%nat -> category f = category g -> f = g.
Proof. destruct f, g; cbn; intros [] [] H E; try lia; reflexivity. Qed.

Lemma first_step f1 f2 c : given f1 f2 c -> category f1 <> category f2 -> k f1 <> NotFinite -> k f2 <> NotFinite ->
  conic_field f1 -> conic_field f2 ->
  exists c', CompleteConicParametersByCategory mu c = Some c' /\ two k (category f1) (category f2) c' /\
    (forall g, ~ conic_field g -> c' g = c g).
Proof.
  intros G D N1 N2 C1 C2.
  set (b i := (Nat.eqb i (category f1) || Nat.eqb i (category f2))%bool).
  destruct (by_category (b 1%nat) (b 2%nat) (b 3%nat) (b 4%nat) c) as (c' & E & A1 & A2 & A3 & A4 & R);
    try (apply (given_before f1 f2); auto; fail).
  exists c'. split; [exact E|]. split.
  - intros g CG. fold (b (category g)).
    assert (P : forall l i, after (b i) c' l -> category g = i -> In g l -> c' g = if b i then Some (k g) else None).
    { intros l i A _ I. destruct (b i); cbn [after] in A; apply A; exact I. }
    destruct (le_lt_dec 5 (category g)) as [Z|Z].
    + rewrite (R g Z), (G g CG). unfold b.
      rewrite (Nat.eqb_sym (category g)).
      destruct (field_eqb g f1) eqn:F1.
      { apply field_eqb_eq in F1. subst g. rewrite Nat.eqb_refl. reflexivity. }
      destruct (field_eqb g f2) eqn:F2.
      { apply field_eqb_eq in F2. subst g. rewrite Nat.eqb_refl. cbn [orb]. rewrite orb_true_r. reflexivity. }
      destruct (Nat.eqb_spec (category f1) (category g)) as [Q|Q].
      { rewrite (single f1 g C1 CG Z Q), field_eqb_refl in F1. discriminate. }
      destruct (Nat.eqb_spec (category g) (category f2)) as [Q'|Q']; [|reflexivity].
      rewrite (single f2 g C2 CG Z (eq_sym Q')), field_eqb_refl in F2. discriminate.
    + destruct (listed g CG Z) as [[Q I]|[[Q I]|[[Q I]|[Q I]]]]; rewrite Q; eapply P; eauto.
  - intros g NG. apply R. destruct g; cbn in NG |- *; try lia; exfalso; apply NG; exact Logic.I.
Qed.

Lemma two_sym i j c : two k i j c -> two k j i c.
Proof. intros T g G. rewrite (T g G), orb_comm. reflexivity. Qed.
Lemma all_main_sym i j c : all_main k i j c -> all_main k j i c.
Proof. intros T g G. rewrite (T g G), (orb_comm (Nat.eqb (category g) i)). reflexivity. Qed.

Lemma count_two i j c : (1 <= i)%nat -> (i < j <= 6)%nat -> two k i j c -> specifications c primary_fields = 2%nat.
Proof.
  intros I1 IJ T. unfold specifications, has_value. cbn [fold_left primary_fields].
  rewrite !T by exact I. cbn [category].
  assert (i = 1 \/ i = 2 \/ i = 3 \/ i = 4 \/ i = 5)%nat as Hi by lia.
  assert (j = 2 \/ j = 3 \/ j = 4 \/ j = 5 \/ j = 6)%nat as Hj by lia.
  destruct Hi as [-> | [-> | [-> | [-> | ->]]]]; destruct Hj as [-> | [-> | [-> | [-> | ->]]]]; try (exfalso; lia); reflexivity.
Qed.

Lemma main_before i j c l n : all_main k i j c ->
  (l = eccentricity_category /\ n = 1 \/ l = semimajor_axis_category /\ n = 2 \/
   l = semiminor_axis_category /\ n = 3 \/ l = semilatus_rectum_category /\ n = 4)%nat -> before true c l.
Proof.
  intros A L. cbn [before].
  destruct (Nat.eqb n i || Nat.eqb n j)%bool eqn:E.
  - left. intros g G. destruct (listed_conic g l n L G) as [CG EG]. rewrite (A g CG), EG, E. reflexivity.
  - destruct L as [[-> ->]|[[-> ->]|[[-> ->]|[-> ->]]]].
    + right. exists eccentricity. split; [inside|]. split; [exact M1|]. intros g G.
      each_in G; match goal with |- c ?g = _ => rewrite (A g I) end; cbn [category]; rewrite E; reflexivity.
    + right. exists semimajor_axis. split; [inside|]. split; [exact M2|]. intros g G.
      each_in G; match goal with |- c ?g = _ => rewrite (A g I) end; cbn [category]; rewrite E; reflexivity.
    + left. intros g G. each_in G; match goal with |- c ?g = _ => rewrite (A g I) end; cbn [category]; rewrite E; reflexivity.
    + right. exists semilatus_rectum. split; [inside|]. split; [exact M4|]. intros g G.
      each_in G; match goal with |- c ?g = _ => rewrite (A g I) end; cbn [category]; rewrite E; reflexivity.
Qed.

Lemma category_range f : conic_field f -> (1 <= category f <= 6)%nat.
Proof. destruct f; cbn; intros []; lia. Qed.

Lemma completion f1 f2 c : given f1 f2 c -> category f1 <> category f2 -> k f1 <> NotFinite -> k f2 <> NotFinite ->
  conic_field f1 -> conic_field f2 ->
  exists c', CompleteConicParameters mu c = Some c' /\ (forall g, conic_field g -> c' g = Some (k g)) /\
    (forall g, ~ conic_field g -> c' g = c g).
Proof.
  intros G D N1 N2 C1 C2.
  destruct (first_step f1 f2 c G D N1 N2 C1 C2) as (c1 & E1 & T & F1).
  assert (Q : specifications c1 primary_fields = 2%nat /\
              all_main k (category f1) (category f2) (complete_from_two c1)).
  { pose proof (category_range f1 C1). pose proof (category_range f2 C2).
    destruct (le_lt_dec (category f1) (category f2)).
    - split; [eapply count_two; [| |exact T]; lia|apply FT; [lia|lia|exact T]].
    - apply two_sym in T. split; [eapply count_two; [| |exact T]; lia|apply all_main_sym, FT; [lia|lia|exact T]]. }
  destruct Q as [Q1 Q2].
  unfold CompleteConicParameters. rewrite E1, Q1. cbn [Nat.eqb].
  destruct (by_category true true true true (complete_from_two c1)) as (c2 & E2 & A1 & A2 & A3 & A4 & R);
    try (eapply main_before; [exact Q2|]; auto 10; fail).
  exists c2. split; [exact E2|]. split.
  - intros g CG. destruct (le_lt_dec 5 (category g)) as [Z|Z].
    + rewrite (R g Z), (Q2 g CG).
      assert (M : main_field g = true) by (destruct g; cbn in CG, Z; try contradiction; try lia; reflexivity).
      rewrite M, orb_true_r. reflexivity.
    + cbn [after] in *. destruct (listed g CG Z) as [[_ I]|[[_ I]|[[_ I]|[_ I]]]]; auto.
  - intros g NG. rewrite R, from_two_frame by (try exact NG; destruct g; cbn in NG |- *; try lia; exfalso; apply NG; exact Logic.I).
    apply F1. exact NG.
Qed.
End Completion.

(** * The values meet the specification *)
Lemma square_inj K x y : K <> 0 -> 0 < x -> 0 < y -> x ^ 2 * K = y ^ 2 * K -> x = y.
Proof.
  intros NK X Y E. assert (F : (x - y) * ((x + y) * K) = 0) by (transitivity (x ^ 2 * K - y ^ 2 * K); [ring|lra]).
  destruct (Rmult_integral _ _ F) as [G|G]; [lra|]. exfalso.
  destruct (Rmult_integral _ _ G); [lra|contradiction].
Qed.
Lemma linear_inj K x y : K <> 0 -> x * K = y * K -> x = y.
Proof. intros NK E. apply (Rmult_eq_reg_r K); assumption. Qed.

Lemma measures_unique mu e l f x y : 0 < mu -> 0 <= e -> e <> 1 -> 0 < l ->
  measures mu e l f x -> measures mu e l f y -> x = y.
Proof.
  intros M E1 E2 L. assert (D : 1 - e * e <> 0) by nra.
  assert (D3 : (1 - e * e) ^ 3 <> 0) by (apply pow_nonzero; exact D).
  assert (L3 : l ^ 3 <> 0) by (apply pow_nonzero; lra).
  destruct f; cbn [measures]; try contradiction.
  - lra.
  - intros (X1 & X2 & X3) (_ & Y2 & Y3). rewrite <- (acos_cos x X2), <- (acos_cos y Y2). f_equal.
    apply (Rmult_eq_reg_l e); lra.
  - intros (X1 & X2 & X3) (_ & Y2 & Y3).
    assert (Q : x / 2 = y / 2); [|lra].
    rewrite <- (asin_sin (x / 2)), <- (asin_sin (y / 2)) by (pose proof PI_RGT_0; lra). f_equal.
    apply (Rmult_eq_reg_l e); lra.
  - intros X Y. apply (linear_inj (1 - e * e)); lra.
  - intros X Y. apply (linear_inj (2 * l)); lra.
  - intros X Y. apply (linear_inj l); lra.
  - intros (_ & X1 & X2) (_ & Y1 & Y2). apply (square_inj (l ^ 3)); lra.
  - intros (_ & X1 & X2) (_ & Y1 & Y2). apply (square_inj (mu * (1 - e * e) ^ 3)); try lra.
    apply Rmult_integral_contrapositive_currified; lra.
  - intros (_ & X1 & X2) (_ & Y1 & Y2). apply (square_inj (l ^ 3)); lra.
  - intros (_ & X1 & X2) (_ & Y1 & Y2). apply (square_inj l); lra.
  - intros (_ & X1 & X2) (_ & Y1 & Y2). apply (square_inj (1 - e * e)); lra.
  - intros (_ & X1 & X2) (_ & Y1 & Y2). apply (square_inj (e * e - 1)); lra.
  - lra.
  - intros (X1 & X2) (Y1 & Y2). apply (square_inj 1); lra.
  - intros X Y. apply (linear_inj (1 + e)); lra.
  - intros X Y. apply (linear_inj (1 - e)); lra.
Qed.

Lemma ell_correct mu e l : 0 < mu -> 0 <= e < 1 -> 0 < l ->
  exists k, is_ell k /\ c_e k = e /\ mu = c_n k * c_n k * (c_a k * c_a k * c_a k) /\
    forall f, conic_field f -> correct mu e l f (ell k f).
Proof.
  intros M E L. assert (D : 0 < 1 - e * e) by nra.
  set (s := sqrt (1 - e * e)). assert (S : 0 < s) by (apply sqrt_lt_R0; exact D).
  assert (S2 : s * s = 1 - e * e) by (apply sqrt_sqrt; lra).
  set (a := l / (s * s)). assert (A : 0 < a) by (apply Rdiv_lt_0_compat; nra).
  assert (LA : l = a * (s * s)) by (unfold a; field; lra). clearbody a.
  assert (A3 : 0 < a * a * a) by (repeat apply Rmult_lt_0_compat; exact A).
  set (n := sqrt (mu / (a * a * a))). assert (N : 0 < n) by (apply sqrt_lt_R0, Rdiv_lt_0_compat; assumption).
  assert (N2 : mu = n * n * (a * a * a)).
  { unfold n. rewrite sqrt_sqrt by (apply Rlt_le, Rdiv_lt_0_compat; assumption). field. lra. }
  exists (mkConic n a e s). split; [unfold is_ell; cbn; tauto|]. split; [reflexivity|]. split; [exact N2|].
  clearbody s n. subst mu l. clear M L.
  assert (HE : e * e = 1 - s * s) by lra. clear D.
  pose proof PI_RGT_0 as P.
  intros f F. destruct f; cbn in F; try contradiction; cbn [correct ell c_n c_a c_e c_s measures];
    try (intros x (X & _); lra); try (split; [lra|]); try (split; [pos|]); try ring [HE].
  - field [HE].
  - field [HE]. lra.
Qed.

Lemma hyp_correct mu e l : 0 < mu -> 1 < e -> 0 < l ->
  exists k, is_hyp k /\ c_e k = e /\ mu = c_n k * c_n k * (c_a k * c_a k * c_a k) /\
    forall f, conic_field f -> correct mu e l f (hyp k f).
Proof.
  intros M E L. assert (D : 0 < e * e - 1) by nra.
  set (s := sqrt (e * e - 1)). assert (S : 0 < s) by (apply sqrt_lt_R0; exact D).
  assert (S2 : s * s = e * e - 1) by (apply sqrt_sqrt; lra).
  set (a := l / (s * s)). assert (A : 0 < a) by (apply Rdiv_lt_0_compat; nra).
  assert (LA : l = a * (s * s)) by (unfold a; field; lra). clearbody a.
  assert (A3 : 0 < a * a * a) by (repeat apply Rmult_lt_0_compat; exact A).
  set (n := sqrt (mu / (a * a * a))). assert (N : 0 < n) by (apply sqrt_lt_R0, Rdiv_lt_0_compat; assumption).
  assert (N2 : mu = n * n * (a * a * a)).
  { unfold n. rewrite sqrt_sqrt by (apply Rlt_le, Rdiv_lt_0_compat; assumption). field. lra. }
  exists (mkConic n a e s). split; [unfold is_hyp; cbn; tauto|]. split; [reflexivity|]. split; [exact N2|].
  clearbody s n. subst mu l. clear M L.
  assert (HE : e * e = 1 + s * s) by lra. clear D.
  pose proof PI_RGT_0 as P. pose proof (inverse_in e E) as IE.
  intros f F. destruct f; cbn in F; try contradiction; cbn [correct hyp c_n c_a c_e c_s measures];
    try (intros x (X & _); lra); try (split; [lra|]); try (split; [pos; fail|]); try ring [HE].
  - split; [apply acos_bound|]. replace (-1 / e) with (- (1 / e)) by (field; lra).
    rewrite cos_acos by lra. field. lra.
  - replace (2 * asin (1 / e) / 2) with (asin (1 / e)) by field. rewrite sin_asin by lra.
    split; [|field; lra].
    assert (0 <= asin (1 / e)).
    { destruct (Rle_or_lt 0 (asin (1 / e))) as [Q|Q]; [exact Q|]. exfalso. pose proof (asin_bound (1 / e)).
      assert (R : sin (asin (1 / e)) < sin 0) by (apply sin_increasing_1; lra).
      rewrite sin_asin, sin_0 in R by lra. lra. }
    pose proof (asin_bound (1 / e)). lra.
  - field [HE].
Qed.

(** Every pair of parameters of different categories determines all the parameters of the conic. *)
Lemma conic_parameters mu e l f1 f2 x1 x2 c : 0 < mu -> 0 <= e -> e <> 1 -> 0 < l ->
  conic_field f1 -> conic_field f2 -> category f1 <> category f2 ->
  measures mu e l f1 x1 -> measures mu e l f2 x2 ->
  (forall g, conic_field g ->
     c g = if field_eqb g f1 then Some (Fin x1) else if field_eqb g f2 then Some (Fin x2) else None) ->
  exists c', CompleteConicParameters mu c = Some c' /\
    (forall g, conic_field g -> exists n, c' g = Some n /\ correct mu e l g n) /\
    (forall g, ~ conic_field g -> c' g = c g).
Proof.
  intros M E1 E2 L C1 C2 D X1 X2 C.
  assert (K : exists k, (forall f, conic_field f -> correct mu e l f (k f)) /\
    forall f1 f2 c, given k f1 f2 c -> category f1 <> category f2 -> k f1 <> NotFinite -> k f2 <> NotFinite ->
      conic_field f1 -> conic_field f2 ->
      exists c', CompleteConicParameters mu c = Some c' /\ (forall g, conic_field g -> c' g = Some (k g)) /\
        (forall g, ~ conic_field g -> c' g = c g)).
  { destruct (Rlt_dec e 1) as [Z|Z].
    - destruct (ell_correct mu e l M ltac:(lra) L) as (k & KE & KK & KM & KC). exists (ell k). split; [exact KC|].
      apply (completion (ell k) mu).
      + intros. eapply ell_eccentricity; eassumption.
      + destruct k as [n a e' s]. intros. destruct KE as (N & A & _). eapply ell_semimajor; eassumption.
      + intros. eapply ell_semiminor; eassumption.
      + intros. eapply ell_semilatus; eassumption.
      + intros. apply ell_from_two; assumption.
      + cbn. discriminate.
      + cbn. discriminate.
      + cbn. discriminate.
    - destruct (hyp_correct mu e l M ltac:(lra) L) as (k & KE & KK & KM & KC). exists (hyp k). split; [exact KC|].
      apply (completion (hyp k) mu).
      + intros. eapply hyp_eccentricity; eassumption.
      + destruct k as [n a e' s]. intros. destruct KE as (N & A & _). eapply hyp_semimajor; eassumption.
      + intros. eapply hyp_semiminor; eassumption.
      + intros. eapply hyp_semilatus; eassumption.
      + intros. apply hyp_from_two; assumption.
      + cbn. discriminate.
      + cbn. discriminate.
      + cbn. discriminate. }
  destruct K as (k & KC & KF).
  assert (V : forall f x, conic_field f -> measures mu e l f x -> k f = Fin x).
  { intros f x CF Q. pose proof (KC f CF) as R. destruct (k f) as [y|]; cbn [correct] in R.
    - f_equal. exact (measures_unique mu e l f y x M E1 E2 L R Q).
    - exfalso. eapply R. exact Q. }
  destruct (KF f1 f2 c) as (c' & E & F & O).
  - intros g G. rewrite (C g G).
    destruct (field_eqb g f1) eqn:Q1; [apply field_eqb_eq in Q1; subst g; cbn [orb]; rewrite (V f1 x1 C1 X1); reflexivity|].
    destruct (field_eqb g f2) eqn:Q2; [apply field_eqb_eq in Q2; subst g; cbn [orb]; rewrite (V f2 x2 C2 X2); reflexivity|].
    reflexivity.
  - exact D.
  - rewrite (V f1 x1 C1 X1). discriminate.
  - rewrite (V f2 x2 C2 X2). discriminate.
  - exact C1.
  - exact C2.
  - exists c'. split; [exact E|]. split; [|exact O]. intros g G. exists (k g). auto.
Qed.
