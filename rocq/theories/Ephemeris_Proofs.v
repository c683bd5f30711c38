(** The gravitational computations of the ephemeris: specification and proofs. *)
From Coq Require Import Reals List ZArith Bool Lra Lia Permutation.
From Verif Require Import Geometry_Model Geometry_Proofs VectorCalculus_Proofs RotatingBody_Proofs SimilarMotion_Proofs Ephemeris_Model.
Import ListNotations.
Open Scope R_scope.

Lemma ext3 a b : cx a = cx b -> cy a = cy b -> cz a = cz b -> a = b.
Proof. destruct a, b. cbn. intros -> -> ->. reflexivity. Qed.
Ltac ve := apply ext3; unfold add3, sub3, opp3, scal3, div3, Cross, zero3; cbn [cx cy cz]; ring.

(** * Specification *)
Definition vsum {A} (f : A -> R3) (l : list A) : R3 := fold_right (fun a s => add3 (f a) s) zero3 l.
(** The acceleration, divided by the gravitational parameter, at the displacement [r] from a body. *)
Definition harmonics (b : MassiveBody) (t : R) (r : R3) : R3 :=
  match geo b with None => zero3 | Some g => harmonics_acceleration g t r (Norm r) (Norm2 r) (1 / Norm r ^ 3) end.
Definition newton (r : R3) : R3 := scal3 (- (1 / Norm r ^ 3)) r.
(** The field of [b] at the displacement [r], for a unit gravitational parameter. *)
Definition field_of (b : MassiveBody) (t : R) (r : R3) : R3 := add3 (newton r) (harmonics b t r).
(** The acceleration of [bi] at [qi] due to [bj] at [qj]: the attraction of the mass of [bi] by [bj], and the reaction to the
    harmonics of [bi]. *)
Definition attraction (t : R) (bi bj : MassiveBody) (qi qj : R3) : R3 :=
  scal3 (gravitational_parameter bj) (sub3 (field_of bj t (sub3 qi qj)) (harmonics bi t (sub3 qj qi))).
Definition attraction_at (t : R) (bodies : list MassiveBody) (q : nat -> R3) (i j : nat) : R3 :=
  match nth_error bodies i, nth_error bodies j with Some bi, Some bj => attraction t bi bj (q i) (q j) | _, _ => zero3 end.
(** The sum of the attractions of the other bodies. *)
Definition total_attraction (t : R) (bodies : list MassiveBody) (q : nat -> R3) (i : nat) : R3 :=
  vsum (attraction_at t bodies q i) (filter (fun j => negb (Nat.eqb i j)) (seq 0 (length bodies))).
(** No two of the bodies are at the same place. *)
Definition distinct (bodies : list MassiveBody) (q : nat -> R3) : Prop :=
  forall i j, (i < length bodies)%nat -> (j < length bodies)%nat -> i <> j -> q i <> q j.

(** * The constructor *)
Definition consistent (e : Ephemeris) : Prop :=
  exists O S gs, bodies_ e = O ++ S /\ geopotentials_ e = gs /\ map Some gs = map geo O /\ (forall b, In b S -> geo b = None) /\
    number_of_oblate_bodies_ e = length O /\ number_of_spherical_bodies_ e = length S /\
    length (trajectories_ e) = length (bodies_ e) /\ length (state_positions e) = length (bodies_ e) /\
    length (state_velocities e) = length (bodies_ e) /\
    NoDup (map address (bodies_ e)) /\ (forall a, In a (unowned_bodies_ e) <-> In a (map address (bodies_ e))).

Definition entries (e : Ephemeris) : list (MassiveBody * DoF * Trajectory) :=
  combine (combine (bodies_ e) (combine (state_positions e) (state_velocities e))) (trajectories_ e).

Lemma combine_app {A B} (l1 l2 : list A) (m1 m2 : list B) : length l1 = length m1 -> combine (l1 ++ l2) (m1 ++ m2) = combine l1 m1 ++ combine l2 m2.
Proof. revert m1. induction l1 as [|a l IH]; intros [|b m] H; try discriminate; cbn; [reflexivity|]. f_equal. apply IH. now injection H. Qed.

Lemma add_body_consistent e x e' : consistent e -> add_body (Some e) x = Some e' ->
  consistent e' /\ Permutation (entries e') (x :: entries e) /\ unowned_bodies_ e' = unowned_bodies_ e ++ [address (fst (fst x))].
Proof.
  intros (O & S & gs & EB & EG & MG & NS & EO & ES & LT & LP & LV & ND & UN) H. destruct x as [[b [q v]] tr]. cbn [fst].
  unfold add_body in H. destruct (existsb (Nat.eqb (address b)) (unowned_bodies_ e)) eqn:X; [discriminate|].
  assert (NI : ~ In (address b) (map address (bodies_ e))).
  { intros I. apply UN in I. assert (existsb (Nat.eqb (address b)) (unowned_bodies_ e) = true); [|congruence].
    apply existsb_exists. exists (address b). split; [exact I|apply Nat.eqb_refl]. }
  injection H as H. destruct (geo b) as [g|] eqn:G; subst e'; split.
  - exists (b :: O), S, (g :: gs). cbn. rewrite EB, EG, G, MG, EO, ES, LT, LP, LV, EB. cbn. do 9 (split; [auto|]). split.
    + rewrite <- EB. now constructor.
    + intros a. rewrite in_app_iff, <- EB, UN. cbn. intuition.
  - split; [|reflexivity]. unfold entries. cbn. apply Permutation_refl.
  - exists O, (S ++ [b]), gs. cbn. rewrite EB, EG, EO, ES, !app_length, LT, LP, LV, EB, !app_length. cbn [length].
    split; [now rewrite app_assoc|]. do 2 (split; [auto|]). split; [intros c I; apply in_app_or in I; destruct I as [I|[<-|[]]]; auto|].
    split; [auto|]. split; [lia|]. do 3 (split; [lia|]). rewrite <- EB, map_app. cbn [map]. split.
    + apply (Permutation_NoDup (l := address b :: map address (bodies_ e))); [apply Permutation_cons_append|now constructor].
    + intros a. rewrite !in_app_iff, UN. reflexivity.
  - split; [|reflexivity]. unfold entries. cbn [bodies_ state_positions state_velocities trajectories_ fst snd].
    rewrite combine_app by lia. rewrite combine_app by (rewrite combine_length; lia).
    rewrite combine_app by (rewrite !combine_length; lia). cbn [combine].
    symmetry. apply Permutation_cons_append.
Qed.

(** Either two addresses are equal, or the ephemeris has the given bodies, states and trajectories, associated, with the oblate
    ones first and their geopotentials at their indices. *)
Lemma fold_consistent inputs : forall e, consistent e ->
  (fold_left add_body inputs (Some e) = None -> ~ NoDup (unowned_bodies_ e ++ map (fun x => address (fst (fst x))) inputs)) /\
  (forall e', fold_left add_body inputs (Some e) = Some e' ->
     consistent e' /\ Permutation (entries e') (inputs ++ entries e) /\
     unowned_bodies_ e' = unowned_bodies_ e ++ map (fun x => address (fst (fst x))) inputs).
Proof.
  induction inputs as [|x l IH]; intros e C; cbn [fold_left map].
  - split; [discriminate|]. intros e' H. injection H as <-. rewrite app_nil_r. auto.
  - destruct (add_body (Some e) x) as [e1|] eqn:X.
    + destruct (add_body_consistent e x e1 C X) as (C1 & P1 & U1). destruct (IH e1 C1) as [A B]. rewrite U1 in A, B. rewrite <- app_assoc in A. split; [exact A|].
      intros e' H. destruct (B e' H) as (C' & P' & U'). split; [exact C'|]. rewrite <- app_assoc in U'. split; [|exact U'].
      rewrite P', P1. cbn. symmetry. apply Permutation_middle.
    + assert (NO : fold_left add_body l None = None) by (clear; induction l as [|[[b d] t] l IH]; [reflexivity|exact IH]).
      rewrite NO. split; [|discriminate]. intros _ N. destruct x as [[b d] t]. cbn [fst] in *. cbn [add_body] in X.
      destruct (existsb (Nat.eqb (address b)) (unowned_bodies_ e)) eqn:K; [|discriminate].
      apply existsb_exists in K. destruct K as (a & I & EA). apply Nat.eqb_eq in EA. subst a.
      apply NoDup_remove_2 in N. apply N. apply in_or_app. auto.
Qed.

Lemma make_consistent inputs : inputs <> [] ->
  (make_ephemeris inputs = None -> ~ NoDup (map (fun x => address (fst (fst x))) inputs)) /\
  (forall e, make_ephemeris inputs = Some e -> consistent e /\ Permutation (entries e) inputs /\
     unowned_bodies_ e = map (fun x => address (fst (fst x))) inputs).
Proof.
  intros NE. assert (C : consistent empty_ephemeris).
  { exists [], [], []. cbn. repeat split; auto using NoDup_nil; intros ? []. }
  destruct (fold_consistent inputs _ C) as [A B]. destruct inputs as [|x l]; [congruence|]. unfold make_ephemeris.
  split; [exact A|]. intros e H. destruct (B e H) as (C' & P & U). rewrite app_nil_r in P. auto.
Qed.

(** * Between massive bodies *)
Lemma step_scalar v : v <> zero3 -> sqrt (Norm2 v) / (Norm2 v * Norm2 v) = 1 / Norm v ^ 3.
Proof. intros H. fold (Norm v). rewrite <- (norm_sq v). pose proof (norm_pos v H). field. lra. Qed.

Lemma vsum_app {A} (f : A -> R3) l m : vsum f (l ++ m) = add3 (vsum f l) (vsum f m).
Proof.
  induction l as [|a l IH]; cbn [app].
  - change (vsum f []) with zero3. generalize (vsum f m). intros. ve.
  - change (add3 (f a) (vsum f (l ++ m)) = add3 (add3 (f a) (vsum f l)) (vsum f m)). rewrite IH. generalize (vsum f m) (vsum f l). intros. ve.
Qed.
Lemma vsum_ext {A} (f g : A -> R3) l : (forall a, In a l -> f a = g a) -> vsum f l = vsum g l.
Proof. intros H. induction l as [|a l IH]; [reflexivity|]. cbn. fold (vsum f l) (vsum g l). rewrite H, IH; [reflexivity|..]; firstorder. Qed.
Lemma vsum_zero {A} (f : A -> R3) l : (forall a, In a l -> f a = zero3) -> vsum f l = zero3.
Proof. intros H. induction l as [|a l IH]; [reflexivity|]. cbn. fold (vsum f l). rewrite H, IH; [ve|..]; firstorder. Qed.

Lemma range_app a b c : (a <= b <= c)%nat -> range a b ++ range b c = range a c.
Proof. intros H. unfold range. replace b with (a + (b - a))%nat at 2 by lia. rewrite <- seq_app. f_equal. lia. Qed.
Lemma in_range a b c : In c (range a b) <-> (a <= c < b)%nat.
Proof. unfold range. rewrite in_seq. lia. Qed.

Section BODIES.
Variable t : R.
Variable bodies : list MassiveBody.
Variable gs : list Geopotential.
Variable no : nat.
Hypothesis GEO : forall i b, nth_error bodies i = Some b -> if Nat.ltb i no then nth_error gs i = geo b /\ geo b <> None else geo b = None.
Variable q : nat -> R3.
Hypothesis DIST : distinct bodies q.
Let F := attraction_at t bodies q.
Let n := length bodies.

Definition in_step (i b1 b2 : nat) : R3 := add3 (if Nat.eqb i b1 then F b1 b2 else zero3) (if Nat.eqb i b2 then F b2 b1 else zero3).

Lemma get b : (b < n)%nat -> exists body, nth_error bodies b = Some body.
Proof. intros H. destruct (nth_error bodies b) eqn:E; [eauto|]. apply nth_error_None in E. unfold n in H. lia. Qed.

Lemma one_pair b1 b2 acc : (b1 < n)%nat -> (b2 < n)%nat -> b1 <> b2 ->
  exists acc', pair_step (Nat.ltb b1 no) (Nat.ltb b2 no) t (mu_at bodies b1) b1 bodies q gs (Some acc) b2 = Some acc' /\
    forall i, acc' i = add3 (acc i) (in_step i b1 b2).
Proof.
  intros L1 L2 NE. destruct (get b1 L1) as [B1 E1]. destruct (get b2 L2) as [B2 E2].
  pose proof (DIST b1 b2 L1 L2 NE) as DQ. pose proof (GEO _ _ E1) as G1. pose proof (GEO _ _ E2) as G2.
  assert (NZ : sub3 (q b1) (q b2) <> zero3).
  { intros H. apply DQ. destruct (q b1), (q b2). unfold sub3, zero3 in H. cbn in H. injection H as ? ? ?. f_equal; lra. }
  unfold pair_step. rewrite (step_scalar _ NZ). cbn [bind]. unfold mu_at. rewrite E1, E2. fold (Norm (sub3 (q b1) (q b2))).
  set (dq := sub3 (q b1) (q b2)) in *. set (k := 1 / Norm dq ^ 3) in *.
  assert (E12 : Nat.eqb b1 b2 = false) by now apply Nat.eqb_neq. assert (E21 : Nat.eqb b2 b1 = false) by (apply Nat.eqb_neq; auto).
  assert (O21 : sub3 (q b2) (q b1) = opp3 dq) by (unfold dq; ve).
  assert (NO : Norm (opp3 dq) = Norm dq) by (unfold Norm, Norm2; f_equal; unfold opp3; cbn; ring).
  assert (N2O : Norm2 (opp3 dq) = Norm2 dq) by (unfold Norm2; unfold opp3; cbn; ring).
  assert (F12 : F b1 b2 = scal3 (gravitational_parameter B2) (sub3 (add3 (scal3 (- k) dq) (harmonics B2 t dq)) (harmonics B1 t (opp3 dq)))).
  { unfold F, attraction_at, attraction, field_of, newton. rewrite E1, E2, O21. reflexivity. }
  assert (F21 : F b2 b1 = scal3 (gravitational_parameter B1) (sub3 (add3 (scal3 (- k) (opp3 dq)) (harmonics B1 t (opp3 dq))) (harmonics B2 t dq))).
  { unfold F, attraction_at, attraction, field_of, newton. rewrite E1, E2, O21, NO. reflexivity. }
  clearbody F. unfold in_step. rewrite F12, F21. unfold harmonics.
  destruct (Nat.ltb b1 no); [destruct G1 as [G1 K1]; rewrite G1; destruct (geo B1) as [g1|]; [|congruence]|rewrite G1];
  (destruct (Nat.ltb b2 no); [destruct G2 as [G2 K2]; try rewrite G2; destruct (geo B2) as [g2|]; [|congruence]|rewrite G2]);
  cbn [bind]; rewrite ?G2; cbn [bind]; (eexists; split; [reflexivity|]); intros i; unfold update; rewrite ?NO, ?N2O; fold k;
  rewrite ?Nat.eqb_refl, ?E12, ?E21;
  (destruct (Nat.eqb i b1) eqn:I1; [apply Nat.eqb_eq in I1; subst i; rewrite ?E12|destruct (Nat.eqb i b2) eqn:I2; [apply Nat.eqb_eq in I2; subst i|]]); rewrite ?E12, ?E21, ?Nat.eqb_refl;
  try (set (h1 := harmonics_acceleration g1 t (opp3 dq) (Norm dq) (Norm2 dq) k)); try (set (h2 := harmonics_acceleration g2 t dq (Norm dq) (Norm2 dq) k)); ve.
Qed.

Lemma inner o2 b1 l : (b1 < n)%nat -> (forall b, In b l -> (b < n)%nat /\ b <> b1 /\ Nat.ltb b no = o2) -> forall acc,
  exists acc', fold_left (pair_step (Nat.ltb b1 no) o2 t (mu_at bodies b1) b1 bodies q gs) l (Some acc) = Some acc' /\
    forall i, acc' i = add3 (acc i) (vsum (in_step i b1) l).
Proof.
  intros L1. induction l as [|b l IH]; intros H acc; cbn [fold_left].
  - exists acc. split; [reflexivity|]. intros i. cbn. ve.
  - destruct (H b (or_introl eq_refl)) as (L2 & NE & O).
    destruct (one_pair b1 b acc L1 L2 (not_eq_sym NE)) as (acc1 & E1 & S1). rewrite O in E1. rewrite E1.
    destruct (IH (fun c I => H c (or_intror I)) acc1) as (acc2 & E2 & S2). exists acc2. split; [exact E2|].
    intros i. rewrite S2, S1. cbn [vsum fold_right]. fold (vsum (in_step i b1) l). ve.
Qed.
Lemma others i : (i < n)%nat -> filter (fun j => negb (Nat.eqb i j)) (seq 0 n) = range 0 i ++ range (i + 1) n.
Proof.
  intros H. replace (seq 0 n) with (range 0 i ++ [i] ++ range (i + 1) n).
  - rewrite !filter_app. cbn. rewrite Nat.eqb_refl. cbn.
    assert (K : forall l, (forall j, In j l -> i <> j) -> filter (fun j => negb (Nat.eqb i j)) l = l).
    { induction l as [|a l IH]; intros X; [reflexivity|]. cbn. destruct (Nat.eqb_spec i a) as [->|]; [exfalso; apply (X a); [now left|reflexivity]|].
      cbn. f_equal. apply IH. intros j I. apply X. now right. }
    rewrite !K; [reflexivity|..]; intros j I; apply in_range in I; lia.
  - replace [i] with (range i (i + 1)) by (unfold range; now replace (i + 1 - i)%nat with 1%nat by lia). rewrite app_assoc, !range_app by lia. unfold range. f_equal. lia.
Qed.
(** The sums of the effects of the pairs of the two loops. *)
Lemma row i b1 l : ~ In b1 l -> NoDup l -> vsum (in_step i b1) l = add3 (if Nat.eqb i b1 then vsum (F b1) l else zero3) (if existsb (Nat.eqb i) l then F i b1 else zero3).
Proof.
  intros NI ND. induction l as [|b l IH].
  - cbn. destruct (Nat.eqb i b1); ve.
  - inversion ND as [|? ? NB ND']; subst. cbn [vsum fold_right existsb]. fold (vsum (in_step i b1) l) (vsum (F b1) l).
    rewrite IH; [|intros X; apply NI; now right|exact ND']. unfold in_step.
    destruct (Nat.eqb_spec i b) as [->|NE]; cbn [orb].
    + assert (X : existsb (Nat.eqb b) l = false).
      { apply not_true_is_false. intros X. apply existsb_exists in X. destruct X as (c & I & E). apply Nat.eqb_eq in E. subst c. contradiction. }
      rewrite X. destruct (Nat.eqb_spec b b1) as [->|]; [exfalso; apply NI; now left|]. ve.
    + destruct (Nat.eqb i b1), (existsb (Nat.eqb i) l); ve.
Qed.
Lemma all_pairs i : (i < n)%nat ->
  vsum (fun b1 => vsum (in_step i b1) (range (b1 + 1) n)) (range 0 n) = total_attraction t bodies q i.
Proof.
  intros L. unfold total_attraction. fold F n. rewrite others by exact L.
  rewrite <- (range_app 0 i n), vsum_app by lia. rewrite <- (range_app i (i + 1) n), vsum_app by lia.
  replace (range i (i + 1)) with [i] by (unfold range; now replace (i + 1 - i)%nat with 1%nat by lia).
  assert (R : forall b1, vsum (in_step i b1) (range (b1 + 1) n) = add3 (if Nat.eqb i b1 then vsum (F b1) (range (b1 + 1) n) else zero3) (if Nat.ltb b1 i then F i b1 else zero3)).
  { intros b1. rewrite row by (try apply seq_NoDup; intros X; apply in_range in X; lia). f_equal.
    destruct (Nat.ltb_spec b1 i) as [X|X].
    - replace (existsb (Nat.eqb i) (range (b1 + 1) n)) with true; [reflexivity|]. symmetry. apply existsb_exists. exists i. rewrite in_range, Nat.eqb_eq. lia.
    - replace (existsb (Nat.eqb i) (range (b1 + 1) n)) with false; [reflexivity|]. symmetry. apply not_true_is_false. intros K. apply existsb_exists in K.
      destruct K as (c & I & E). apply Nat.eqb_eq in E. subst c. apply in_range in I. lia. }
  rewrite (vsum_ext _ (F i) (range 0 i)).
  2:{ intros b I. apply in_range in I. rewrite R. destruct (Nat.eqb_spec i b); [lia|]. destruct (Nat.ltb_spec b i); [|lia]. ve. }
  rewrite (vsum_zero _ (range (i + 1) n)).
  2:{ intros b I. apply in_range in I. rewrite R. destruct (Nat.eqb_spec i b); [lia|]. destruct (Nat.ltb_spec b i); [lia|]. ve. }
  cbn [vsum fold_right]. rewrite R, Nat.eqb_refl. destruct (Nat.ltb_spec i i); [lia|]. rewrite vsum_app. unfold vsum. ve.
Qed.
Lemma outer (o1 : bool) (body : nat -> option (nat -> R3) -> option (nat -> R3)) l :
  (forall b1 acc, In b1 l -> exists acc', body b1 (Some acc) = Some acc' /\ forall i, acc' i = add3 (acc i) (vsum (in_step i b1) (range (b1 + 1) n))) ->
  forall acc, exists acc', fold_left (fun a b1 => body b1 a) l (Some acc) = Some acc' /\
    forall i, acc' i = add3 (acc i) (vsum (fun b1 => vsum (in_step i b1) (range (b1 + 1) n)) l).
Proof.
  intros H. induction l as [|b l IH]; intros acc; cbn [fold_left].
  - exists acc. split; [reflexivity|]. intros i. cbn. ve.
  - destruct (H b acc (or_introl eq_refl)) as (a1 & E1 & S1). rewrite E1. destruct (IH (fun c x I => H c x (or_intror I)) a1) as (a2 & E2 & S2).
    exists a2. split; [exact E2|]. intros i. rewrite S2, S1. cbn [vsum fold_right].
    set (x := fold_right _ _ l). set (y := vsum (fun b1 => _) l). assert (E : y = x) by reflexivity. rewrite E. clearbody x. fold (vsum (in_step i b) (range (b + 1) n)). ve.
Qed.
End BODIES.

(** What a consistent ephemeris provides. *)
Lemma consistent_geo e : consistent e ->
  (forall i b, nth_error (bodies_ e) i = Some b ->
     if Nat.ltb i (number_of_oblate_bodies_ e) then nth_error (geopotentials_ e) i = geo b /\ geo b <> None else geo b = None) /\
  (number_of_oblate_bodies_ e + number_of_spherical_bodies_ e = length (bodies_ e))%nat.
Proof.
  intros (O & S & gs & EB & EG & MG & NS & EO & ES & _). split; [|rewrite EB, app_length; lia].
  intros i b. rewrite EB, EG, EO. destruct (Nat.ltb_spec i (length O)) as [L|L].
  - rewrite nth_error_app1 by exact L. intros E. assert (X : nth_error (map geo O) i = Some (geo b)) by now apply map_nth_error.
    rewrite <- MG in X. destruct (nth_error gs i) as [g|] eqn:G.
    + rewrite (map_nth_error _ _ _ G) in X. injection X as X. rewrite <- X. split; [reflexivity|discriminate].
    + apply nth_error_None in G. assert (Y : nth_error (map Some gs) i <> None) by congruence. apply nth_error_Some in Y. rewrite map_length in Y. lia.
  - rewrite nth_error_app2 by exact L. intros E. apply NS. eapply nth_error_In, E.
Qed.

Lemma between_all e t q : consistent e -> distinct (bodies_ e) q ->
  exists acc, BetweenAllMassiveBodies e t q = Some acc /\
    forall i, (i < length (bodies_ e))%nat -> acc i = total_attraction t (bodies_ e) q i.
Proof.
  intros C D. destruct (consistent_geo e C) as [G N]. unfold BetweenAllMassiveBodies, ByMassiveBodyOnMassiveBodies.
  set (no := number_of_oblate_bodies_ e) in *. set (n := (no + number_of_spherical_bodies_ e)%nat) in *. cbv zeta.
  destruct (outer t (bodies_ e) q true
    (fun b1 acc => fold_left (pair_step true false t (mu_at (bodies_ e) b1) b1 (bodies_ e) q (geopotentials_ e)) (range no n)
       (fold_left (pair_step true true t (mu_at (bodies_ e) b1) b1 (bodies_ e) q (geopotentials_ e)) (range (b1 + 1) no) acc)) (range 0 no)) with (acc := fun _ : nat => zero3)
    as (a1 & E1 & S1).
  { intros b1 acc I. apply in_range in I. assert (L : Nat.ltb b1 no = true) by (apply Nat.ltb_lt; lia).
    destruct (inner t (bodies_ e) (geopotentials_ e) no G q D true b1 (range (b1 + 1) no)) with (acc := acc) as (x & EX & SX);
      [lia|intros b K; apply in_range in K; rewrite Nat.ltb_lt; lia|]. rewrite L in EX. rewrite EX.
    destruct (inner t (bodies_ e) (geopotentials_ e) no G q D false b1 (range no n)) with (acc := x) as (y & EY & SY);
      [lia|intros b K; apply in_range in K; rewrite Nat.ltb_ge; lia|]. rewrite L in EY. rewrite EY.
    exists y. split; [reflexivity|]. intros i. rewrite SY, SX. rewrite <- N, <- (range_app (b1 + 1) no n), vsum_app by lia. ve. }
  rewrite E1.
  destruct (outer t (bodies_ e) q true
    (fun b1 acc => fold_left (pair_step false false t (mu_at (bodies_ e) b1) b1 (bodies_ e) q (geopotentials_ e)) (range (b1 + 1) n) acc) (range no n)) with (acc := a1)
    as (a2 & E2 & S2).
  { intros b1 acc I. apply in_range in I. assert (L : Nat.ltb b1 no = false) by (apply Nat.ltb_ge; lia).
    destruct (inner t (bodies_ e) (geopotentials_ e) no G q D false b1 (range (b1 + 1) n)) with (acc := acc) as (x & EX & SX);
      [lia|intros b K; apply in_range in K; rewrite Nat.ltb_ge; lia|]. rewrite L in EX. rewrite EX.
    exists x. split; [reflexivity|]. intros i. rewrite SX, N. reflexivity. }
  rewrite E2. exists a2. split; [reflexivity|]. intros i L. rewrite S2, S1, <- all_pairs by exact L.
  rewrite <- N, <- (range_app 0 no n), vsum_app by lia. ve.
Qed.

Lemma index_from_spec l a : NoDup (map address l) -> forall k i, index_from k l a = Some i <-> (k <= i)%nat /\ exists b, nth_error l (i - k) = Some b /\ address b = a.
Proof.
  induction l as [|c l IH]; intros ND k i; cbn [index_from].
  - split; [discriminate|]. intros (_ & b & E & _). now destruct (i - k)%nat.
  - cbn [map] in ND. inversion ND as [|? ? NI ND']; subst. destruct (Nat.eqb_spec (address c) a) as [E|NE].
    + split.
      * intros H. injection H as <-. split; [lia|]. exists c. now replace (k - k)%nat with 0%nat by lia.
      * intros (L & b & EN & EA). destruct (i - k)%nat as [|m] eqn:M; [f_equal; lia|]. exfalso. apply NI. rewrite E, <- EA. apply in_map. eapply nth_error_In, EN.
    + rewrite IH by exact ND'. split.
      * intros (L & b & EN & EA). split; [lia|]. exists b. replace (i - k)%nat with (S (i - S k)) by lia. auto.
      * intros (L & b & EN & EA). destruct (i - k)%nat as [|m] eqn:M; [cbn in EN; injection EN as <-; congruence|].
        split; [lia|]. exists b. replace (i - S k)%nat with m by lia. auto.
Qed.
Lemma body_index_spec e i b : consistent e -> nth_error (bodies_ e) i = Some b -> body_index e (address b) = Some i.
Proof.
  intros (O & S & gs & _ & _ & _ & _ & _ & _ & _ & _ & _ & ND & _) E. unfold body_index. apply index_from_spec; [exact ND|]. split; [lia|]. exists b. now rewrite Nat.sub_0_r.
Qed.

Lemma on_massive e b i t q : consistent e -> distinct (bodies_ e) q -> nth_error (bodies_ e) i = Some b ->
  AccelerationOnMassiveBody e b q t = Some (total_attraction t (bodies_ e) q i).
Proof.
  intros C D E. destruct (consistent_geo e C) as [G N]. unfold AccelerationOnMassiveBody, ByMassiveBodyOnMassiveBodies. rewrite (body_index_spec e i b C E).
  set (no := number_of_oblate_bodies_ e) in *. set (n := (no + number_of_spherical_bodies_ e)%nat) in *. cbn [bind]. cbv zeta.
  assert (L : (i < length (bodies_ e))%nat) by (apply nth_error_Some; congruence).
  assert (MU : gravitational_parameter b = mu_at (bodies_ e) i) by (unfold mu_at; now rewrite E). rewrite MU.
  assert (ROW : forall l, ~ In i l -> NoDup l -> vsum (in_step t (bodies_ e) q i i) l = vsum (attraction_at t (bodies_ e) q i) l).
  { intros l NI ND. rewrite row by assumption. rewrite Nat.eqb_refl.
    replace (existsb (Nat.eqb i) l) with false; [ve|]. symmetry. apply not_true_is_false. intros K. apply existsb_exists in K.
    destruct K as (c & I & EC). apply Nat.eqb_eq in EC. now subst c. }
  pose proof (G i b E) as GB. unfold is_oblate. unfold total_attraction. rewrite others by exact L. rewrite <- N.
  destruct (Nat.ltb_spec i no) as [LO|LO].
  - destruct GB as [_ GN]. destruct (geo b) as [g|] eqn:EG; [clear GN|congruence].
    assert (LT : Nat.ltb i no = true) by now apply Nat.ltb_lt.
    destruct (inner t (bodies_ e) (geopotentials_ e) no G q D true i (range 0 i)) with (acc := fun _ : nat => zero3) as (a1 & E1 & S1);
      [exact L|intros c K; apply in_range in K; rewrite Nat.ltb_lt; lia|]. rewrite LT in E1. rewrite E1.
    destruct (inner t (bodies_ e) (geopotentials_ e) no G q D true i (range (i + 1) no)) with (acc := a1) as (a2 & E2 & S2);
      [exact L|intros c K; apply in_range in K; rewrite Nat.ltb_lt; lia|]. rewrite LT in E2. rewrite E2.
    destruct (inner t (bodies_ e) (geopotentials_ e) no G q D false i (range no n)) with (acc := a2) as (a3 & E3 & S3);
      [exact L|intros c K; apply in_range in K; rewrite Nat.ltb_ge; lia|]. rewrite LT in E3. rewrite E3.
    cbn [bind]. f_equal. rewrite S3, S2, S1, !ROW by (try apply seq_NoDup; intros X; apply in_range in X; lia).
    rewrite <- (range_app (i + 1) no n), !vsum_app by lia. ve.
  - rewrite GB. assert (LT : Nat.ltb i no = false) by now apply Nat.ltb_ge.
    destruct (inner t (bodies_ e) (geopotentials_ e) no G q D true i (range 0 no)) with (acc := fun _ : nat => zero3) as (a1 & E1 & S1);
      [exact L|intros c K; apply in_range in K; rewrite Nat.ltb_lt; lia|]. rewrite LT in E1. rewrite E1.
    destruct (inner t (bodies_ e) (geopotentials_ e) no G q D false i (range no i)) with (acc := a1) as (a2 & E2 & S2);
      [exact L|intros c K; apply in_range in K; rewrite Nat.ltb_ge; lia|]. rewrite LT in E2. rewrite E2.
    destruct (inner t (bodies_ e) (geopotentials_ e) no G q D false i (range (i + 1) n)) with (acc := a2) as (a3 & E3 & S3);
      [exact L|intros c K; apply in_range in K; rewrite Nat.ltb_ge; lia|]. rewrite LT in E3. rewrite E3.
    cbn [bind]. f_equal. rewrite S3, S2, S1, !ROW by (try apply seq_NoDup; intros X; apply in_range in X; lia).
    rewrite <- (range_app 0 no i), !vsum_app by lia. ve.
Qed.
