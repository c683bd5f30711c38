From Coq Require Import ZArith Bool List QArith Qabs Lia Lqa Qfield.
From Verif Require Import Date_Model DateText_Model TimeScales_Model EarthOrientation_Tables EarthOrientation_Model.
Import ListNotations.
Open Scope Q_scope.

(** ** Specification *)
(** [i] is the index of the last of the [times] which is at most [t]. *)
Definition last_not_after (times : list Q) (t : Q) (i : nat) : Prop :=
  (exists ti, nth_error times i = Some ti /\ ti <= t) /\ forall j tj, (i < j)%nat -> nth_error times j = Some tj -> t < tj.
Definition sorted (times : list Q) : Prop :=
  forall i j ti tj, (i < j)%nat -> nth_error times i = Some ti -> nth_error times j = Some tj -> ti <= tj.
(** The line through two points. *)
Definition line (u v u' v' t : Q) : Q := v + (t - u) * (v' - v) / (u' - u).
(** The broken line through points sorted by abscissa. *)
Fixpoint broken_line (k : list (Q * Q)) (t : Q) : Q :=
  match k with
  | (u, v) :: (((u', v') :: _) as r) => if Qle_bool u' t then broken_line r t else line u v u' v' t
  | (u, v) :: [] => v
  | [] => 0
  end.

(** ** Binary search *)
Fixpoint search (le : nat -> result bool) (fuel : nat) (begin size : nat) : result nat :=
  match fuel with
  | O => Failed
  | S fuel =>
    if Nat.leb size 0 then Failed
    else if Nat.eqb size 1 then get b := le begin in if (b : bool) then Value begin else Failed
    else
      get b := le (begin + Nat.div2 size)%nat in
      if (b : bool) then search le fuel (begin + Nat.div2 size) (size - Nat.div2 size) else search le fuel begin (Nat.div2 size)
  end.
Lemma div2_bounds n : (2 <= n)%nat -> (1 <= Nat.div2 n < n)%nat.
Proof. intros H. destruct n as [|[|n]]; [lia|lia|]. split; [cbn; lia|apply Nat.lt_div2; lia]. Qed.
Definition total (le : nat -> result bool) (n : nat) : Prop := forall i, (i < n)%nat -> exists b, le i = Value b.
Definition monotone (le : nat -> result bool) (n : nat) : Prop := forall i j, (i < j < n)%nat -> le j = Value true -> le i = Value true.
Lemma search_ok le n : total le n -> monotone le n -> forall fuel begin size, (size <= fuel)%nat -> (0 < size)%nat -> (begin + size <= n)%nat ->
  le begin = Value true ->
  exists i, search le fuel begin size = Value i /\ (begin <= i < begin + size)%nat /\ le i = Value true /\
    forall j, (i < j < begin + size)%nat -> le j = Value false.
Proof.
  intros T M. induction fuel as [|fuel IH]; intros begin size F P B H; [lia|]. cbn [search].
  replace (Nat.leb size 0) with false by (symmetry; apply Nat.leb_gt; lia). destruct (Nat.eqb_spec size 1) as [->|N].
  - rewrite H. cbn [andThen]. exists begin. split; [reflexivity|]. split; [lia|]. split; [exact H|intros j J; lia].
  - pose proof (div2_bounds size ltac:(lia)) as D. destruct (T (begin + Nat.div2 size)%nat ltac:(lia)) as [b Eb]. rewrite Eb. cbn [andThen]. destruct b.
    + destruct (IH (begin + Nat.div2 size)%nat (size - Nat.div2 size)%nat ltac:(lia) ltac:(lia) ltac:(lia) Eb) as (i & E & Bi & L & U).
      exists i. split; [exact E|]. split; [lia|]. split; [exact L|]. intros j J. apply U. lia.
    + destruct (IH begin (Nat.div2 size) ltac:(lia) ltac:(lia) ltac:(lia) H) as (i & E & Bi & L & U).
      exists i. split; [exact E|]. split; [lia|]. split; [exact L|]. intros j J.
      destruct (Nat.lt_ge_cases j (begin + Nat.div2 size)) as [C|C]; [apply U; lia|].
      destruct (Nat.eq_dec j (begin + Nat.div2 size)) as [->|C']; [exact Eb|].
      destruct (T j ltac:(lia)) as [[|] E']; [|exact E']. rewrite (M (begin + Nat.div2 size)%nat j ltac:(lia) E') in Eb. discriminate.
Qed.
Lemma search_fails le n : total le n -> monotone le n -> forall fuel begin size, (size <= fuel)%nat -> (begin + size <= n)%nat ->
  (0 < size -> le begin = Value false)%nat -> search le fuel begin size = Failed.
Proof.
  intros T M. induction fuel as [|fuel IH]; intros begin size F B H; [reflexivity|]. cbn [search]. destruct (Nat.leb_spec size 0) as [_|P]; [reflexivity|].
  destruct (Nat.eqb_spec size 1) as [->|N]; [rewrite (H ltac:(lia)); reflexivity|].
  pose proof (div2_bounds size ltac:(lia)) as D. destruct (T (begin + Nat.div2 size)%nat ltac:(lia)) as [[|] Eb]; rewrite Eb; cbn [andThen].
  - exfalso. rewrite (M begin (begin + Nat.div2 size)%nat ltac:(lia) Eb) in H. specialize (H ltac:(lia)). discriminate.
  - apply IH; [lia|lia|intros _; apply H; lia].
Qed.
(** No read is out of bounds, whatever the table. *)
Lemma search_in_bounds le n : (forall i, (i < n)%nat -> le i <> OutOfBounds) -> forall fuel begin size, (begin + size <= n)%nat ->
  search le fuel begin size <> OutOfBounds.
Proof.
  intros T. induction fuel as [|fuel IH]; intros begin size B; [discriminate|]. cbn [search]. destruct (Nat.leb_spec size 0) as [_|P]; [discriminate|].
  destruct (Nat.eqb_spec size 1) as [->|N].
  - specialize (T begin ltac:(lia)). destruct (le begin) as [[|]| |]; [discriminate|discriminate|discriminate|congruence].
  - pose proof (div2_bounds size ltac:(lia)) as D. specialize (T (begin + Nat.div2 size)%nat ltac:(lia)).
    destruct (le (begin + Nat.div2 size)%nat) as [[|]| |]; [|  |discriminate|congruence]; cbn [andThen]; apply IH; lia.
Qed.
Lemma c02_search fuel table t : forall begin size,
  LookupUT1_c02 fuel table t begin size = search (fun i => get e := read table i in Value (Qle_bool (c02_ut1_mjd e) (mjd_of_time t))) fuel begin size.
Proof.
  induction fuel as [|fuel IH]; intros begin size; [reflexivity|]. cbn [LookupUT1_c02 search]. destruct (Nat.leb size 0); [reflexivity|].
  destruct (Nat.eqb size 1); [destruct (read table begin) as [e| |]; reflexivity|].
  destruct (read table (begin + Nat.div2 size)) as [e| |]; cbn [andThen]; [|reflexivity|reflexivity]. rewrite !IH. reflexivity.
Qed.
Lemma c04_search fuel table t : forall begin size,
  LookupUT1_c04 fuel table t begin size = search (fun i => get e := read table i in get u := c04_ut1 e in Value (Qle_bool u t)) fuel begin size.
Proof.
  induction fuel as [|fuel IH]; intros begin size; [reflexivity|]. cbn [LookupUT1_c04 search]. destruct (Nat.leb size 0); [reflexivity|].
  destruct (Nat.eqb size 1); [destruct (read table begin) as [e| |]; [cbn [andThen]; destruct (c04_ut1 e) as [u| |]; reflexivity|reflexivity|reflexivity]|].
  destruct (read table (begin + Nat.div2 size)) as [e| |]; cbn [andThen]; [|reflexivity|reflexivity].
  destruct (c04_ut1 e) as [u| |]; cbn [andThen]; [|reflexivity|reflexivity]. rewrite !IH. reflexivity.
Qed.
Lemma tt_search fuel table t : forall begin size,
  LookupTT fuel table t begin size = search (fun i => get e := read table i in get u := c04_tt e in Value (Qle_bool u t)) fuel begin size.
Proof.
  induction fuel as [|fuel IH]; intros begin size; [reflexivity|]. cbn [LookupTT search]. destruct (Nat.leb size 0); [reflexivity|].
  destruct (Nat.eqb size 1); [destruct (read table begin) as [e| |]; [cbn [andThen]; destruct (c04_tt e) as [u| |]; reflexivity|reflexivity|reflexivity]|].
  destruct (read table (begin + Nat.div2 size)) as [e| |]; cbn [andThen]; [|reflexivity|reflexivity].
  destruct (c04_tt e) as [u| |]; cbn [andThen]; [|reflexivity|reflexivity]. rewrite !IH. reflexivity.
Qed.
(** The comparison at an index, for a table with the given times. *)
Definition compares (le : nat -> result bool) (times : list Q) (t : Q) : Prop :=
  forall i, match nth_error times i with Some ti => exists b, le i = Value b /\ (b = true <-> ti <= t) | None => le i = OutOfBounds end.
Lemma compares_total le times t : compares le times t -> total le (length times).
Proof.
  intros C i L. specialize (C i). destruct (nth_error times i) eqn:E; [destruct C as (b & Eb & _); exists b; exact Eb|].
  apply nth_error_None in E. lia.
Qed.
Lemma compares_monotone le times t : compares le times t -> sorted times -> monotone le (length times).
Proof.
  intros C S i j [L J] E. pose proof (C i) as Ci. pose proof (C j) as Cj.
  destruct (nth_error times i) as [ti|] eqn:Ei; [|apply nth_error_None in Ei; lia]. destruct (nth_error times j) as [tj|] eqn:Ej; [|apply nth_error_None in Ej; lia].
  destruct Ci as (b & Eb & I), Cj as (b' & Eb' & I'). assert (b' = true) by congruence. rewrite Eb. f_equal. apply I. specialize (S i j ti tj L Ei Ej). apply I' in H. lra.
Qed.
Lemma search_last le times t : compares le times t -> sorted times ->
  (forall t0, nth_error times 0 = Some t0 -> t0 <= t -> exists i, search le (length times) 0 (length times) = Value i /\ last_not_after times t i) /\
  ((forall t0, nth_error times 0 = Some t0 -> t < t0) -> search le (length times) 0 (length times) = Failed).
Proof.
  intros C S. pose proof (compares_total _ _ _ C) as T. pose proof (compares_monotone _ _ _ C S) as M. split.
  - intros t0 E0 L0. assert (P : (0 < length times)%nat) by (apply nth_error_Some; rewrite E0; discriminate).
    pose proof (C O) as C0. rewrite E0 in C0. destruct C0 as (b & Eb & I). assert (b = true) by (apply I; exact L0). subst b.
    destruct (search_ok le _ T M (length times) 0 (length times) ltac:(lia) P ltac:(lia) Eb) as (i & E & B & L & U). exists i. split; [exact E|].
    split.
    + pose proof (C i) as Ci. destruct (nth_error times i) as [ti|] eqn:Ei; [|apply nth_error_None in Ei; lia].
      exists ti. split; [reflexivity|]. destruct Ci as (b & Eb' & I'). apply I'. congruence.
    + intros j tj J Ej. assert (Lj : (j < length times)%nat) by (apply nth_error_Some; rewrite Ej; discriminate).
      specialize (U j ltac:(lia)). pose proof (C j) as Cj. rewrite Ej in Cj. destruct Cj as (b & Eb' & I').
      destruct (Qlt_le_dec t tj) as [Q|Q]; [exact Q|]. apply I' in Q. congruence.
  - intros H. apply (search_fails le _ T M); [lia|lia|]. intros P. pose proof (C O) as C0.
    destruct (nth_error times 0) as [t0|] eqn:E0; [|apply nth_error_None in E0; lia]. destruct C0 as (b & Eb & I). rewrite Eb. f_equal.
    destruct b; [|reflexivity]. specialize (H t0 eq_refl). assert (t0 <= t) by (apply I; reflexivity). lra.
Qed.
Lemma nth_map {A B} (f : A -> B) l i : nth_error (map f l) i = match nth_error l i with Some a => Some (f a) | None => None end.
Proof. rewrite nth_error_map. destruct (nth_error l i); reflexivity. Qed.
Lemma lookup_c02_ok table t : sorted (map c02_ut1_mjd table) ->
  (forall u, nth_error (map c02_ut1_mjd table) 0 = Some u -> u <= mjd_of_time t ->
     exists i, LookupInExperimentalEOPC02 table t = Value i /\ last_not_after (map c02_ut1_mjd table) (mjd_of_time t) i) /\
  ((forall u, nth_error (map c02_ut1_mjd table) 0 = Some u -> mjd_of_time t < u) -> LookupInExperimentalEOPC02 table t = Failed).
Proof.
  intros S. unfold LookupInExperimentalEOPC02. rewrite c02_search. rewrite <- (map_length c02_ut1_mjd table). apply search_last; [|exact S].
  intros i. rewrite nth_map. unfold read. destruct (nth_error table i) as [e|]; [|reflexivity]. cbn [andThen]. eexists. split; [reflexivity|]. apply Qle_bool_iff.
Qed.
Definition have_times (f : c04_entry -> result Q) (table : list c04_entry) (times : list Q) : Prop := map f table = map Value times.
Lemma have_nth f table times i : have_times f table times ->
  match nth_error table i with Some e => exists u, nth_error times i = Some u /\ f e = Value u | None => nth_error times i = None end.
Proof.
  intros H. assert (E : nth_error (map f table) i = nth_error (map Value times) i) by (rewrite H; reflexivity). rewrite !nth_map in E.
  destruct (nth_error table i) as [e|], (nth_error times i) as [u|]; try discriminate; [|reflexivity]. exists u. split; [reflexivity|congruence].
Qed.
Lemma have_length f table times : have_times f table times -> length table = length times.
Proof. intros H. rewrite <- (map_length f table), H, map_length. reflexivity. Qed.
Lemma lookup_ut1_ok table times t : have_times c04_ut1 table times -> sorted times ->
  (forall u, nth_error times 0 = Some u -> u <= t -> exists i, LookupUT1InEOPC04 table t = Value i /\ last_not_after times t i) /\
  ((forall u, nth_error times 0 = Some u -> t < u) -> LookupUT1InEOPC04 table t = Failed).
Proof.
  intros H S. unfold LookupUT1InEOPC04. rewrite c04_search. rewrite (have_length _ _ _ H). apply search_last; [|exact S].
  intros i. pose proof (have_nth _ _ _ i H) as N. unfold read. destruct (nth_error table i) as [e|]; [|rewrite N; reflexivity].
  destruct N as (u & -> & E). cbn [andThen]. rewrite E. cbn [andThen]. eexists. split; [reflexivity|]. apply Qle_bool_iff.
Qed.
Lemma lookup_tt_ok table times t : have_times c04_tt table times -> sorted times ->
  (forall u, nth_error times 0 = Some u -> u <= t -> exists i, LookupTTInEOPC04 table t = Value i /\ last_not_after times t i) /\
  ((forall u, nth_error times 0 = Some u -> t < u) -> LookupTTInEOPC04 table t = Failed).
Proof.
  intros H S. unfold LookupTTInEOPC04. rewrite tt_search. rewrite (have_length _ _ _ H). apply search_last; [|exact S].
  intros i. pose proof (have_nth _ _ _ i H) as N. unfold read. destruct (nth_error table i) as [e|]; [|rewrite N; reflexivity].
  destruct N as (u & -> & E). cbn [andThen]. rewrite E. cbn [andThen]. eexists. split; [reflexivity|]. apply Qle_bool_iff.
Qed.
(** On any table, sorted or not. *)
Lemma c04_parts e : c04_utc e <> OutOfBounds /\ c04_ut1 e <> OutOfBounds /\ c04_tt e <> OutOfBounds /\ c04_ut1_minus_tai e <> OutOfBounds.
Proof.
  unfold c04_ut1, c04_tt, c04_ut1_minus_tai, c04_utc. destruct (value_of_outcome _) as [utc| |] eqn:E.
  - cbn [andThen]. split; [discriminate|]. split; [discriminate|]. destruct (1972 <=? _)%Z; [|split; discriminate].
    destruct (ModernUTCMinusTAI _); split; discriminate.
  - repeat split; discriminate.
  - unfold value_of_outcome in E. destruct (let! d := _ in _); discriminate.
Qed.
Lemma lookups_in_bounds c02 c04 t :
  LookupInExperimentalEOPC02 c02 t <> OutOfBounds /\ LookupUT1InEOPC04 c04 t <> OutOfBounds /\ LookupTTInEOPC04 c04 t <> OutOfBounds.
Proof.
  unfold LookupInExperimentalEOPC02, LookupUT1InEOPC04, LookupTTInEOPC04. rewrite c02_search, c04_search, tt_search. split; [|split].
  - apply (search_in_bounds _ (length c02)); [|lia]. intros i L. unfold read. apply nth_error_Some in L. destruct (nth_error c02 i); [discriminate|congruence].
  - apply (search_in_bounds _ (length c04)); [|lia]. intros i L. unfold read. apply nth_error_Some in L. destruct (nth_error c04 i) as [e|]; [|congruence].
    cbn [andThen]. destruct (c04_parts e) as (_ & N & _). destruct (c04_ut1 e); [discriminate|discriminate|congruence].
  - apply (search_in_bounds _ (length c04)); [|lia]. intros i L. unfold read. apply nth_error_Some in L. destruct (nth_error c04 i) as [e|]; [|congruence].
    cbn [andThen]. destruct (c04_parts e) as (_ & _ & N & _). destruct (c04_tt e); [discriminate|discriminate|congruence].
Qed.

(** ** Broken lines *)
Fixpoint steep (eps : Q) (k : list (Q * Q)) : Prop :=
  match k with
  | (u, v) :: (((u', v') :: _) as r) => u < u' /\ Qabs (v' - v) <= eps * (u' - u) /\ steep eps r
  | _ => True
  end.
Lemma steep_tail eps k0 r : steep eps (k0 :: r) -> steep eps r.
Proof. destruct k0 as [u v], r as [|[u' v'] r]; [trivial|]. intros (_ & _ & H). exact H. Qed.
Lemma steep_order eps k : steep eps k -> forall i j u v u' v', (i < j)%nat -> nth_error k i = Some (u, v) -> nth_error k j = Some (u', v') -> u < u'.
Proof.
  induction k as [|[u0 v0] r IH]; intros S i j u v u' v' L Ei Ej; [destruct i; discriminate|]. destruct j as [|j]; [lia|]. cbn [nth_error] in Ej.
  pose proof (steep_tail _ _ _ S) as S'. destruct i as [|i].
  - cbn in Ei. injection Ei as <- <-. destruct r as [|[u1 v1] r]; [destruct j; discriminate|]. destruct S as (O & _ & _).
    destruct j as [|j]; [cbn in Ej; injection Ej as <- <-; exact O|]. pose proof (IH S' 0%nat (S j) u1 v1 u' v' ltac:(lia) eq_refl Ej). lra.
  - apply (IH S' i j u v u' v' ltac:(lia) Ei Ej).
Qed.
Lemma steep_step eps k : steep eps k -> forall i u v u' v', nth_error k i = Some (u, v) -> nth_error k (S i) = Some (u', v') -> Qabs (v' - v) <= eps * (u' - u).
Proof.
  induction k as [|[u0 v0] r IH]; intros S i u v u' v' Ei Ej; [destruct i; discriminate|]. destruct i as [|i].
  - cbn in Ei, Ej. injection Ei as <- <-. destruct r as [|[u1 v1] r]; [discriminate|]. injection Ej as <- <-. apply S.
  - apply (IH (steep_tail _ _ _ S) i u v u' v' Ei Ej).
Qed.
Lemma line_left u v u' v' : line u v u' v' u == v.
Proof. unfold line. setoid_replace (u - u) with 0 by ring. unfold Qdiv. ring. Qed.
Lemma line_right u v u' v' : u < u' -> line u v u' v' u' == v'.
Proof. intros H. unfold line. field. lra. Qed.
Lemma line_slope eps u v u' v' a b : u < u' -> Qabs (v' - v) <= eps * (u' - u) -> a <= b -> Qabs (line u v u' v' b - line u v u' v' a) <= eps * (b - a).
Proof.
  intros O S L. assert (E : line u v u' v' b - line u v u' v' a == (v' - v) * ((b - a) / (u' - u))) by (unfold line; field; lra). rewrite E, Qabs_Qmult.
  assert (P : 0 <= (b - a) / (u' - u)) by (apply Qle_shift_div_l; lra). rewrite (Qabs_pos ((b - a) / (u' - u))) by exact P.
  setoid_replace (eps * (b - a)) with ((eps * (u' - u)) * ((b - a) / (u' - u))) by (field; lra). apply Qmult_le_compat_r; [exact S|exact P].
Qed.
Lemma broken_at eps k : steep eps k -> forall i u v u' v' t, nth_error k i = Some (u, v) -> nth_error k (S i) = Some (u', v') -> u <= t < u' ->
  broken_line k t = line u v u' v' t.
Proof.
  induction k as [|[u0 v0] r IH]; intros S i u v u' v' t Ei Ej B; [destruct i; discriminate|]. cbn [nth_error] in Ej. destruct r as [|[u1 v1] r]; [destruct i; discriminate|].
  cbn [broken_line]. destruct i as [|i].
  - cbn in Ei, Ej. injection Ei as <- <-. injection Ej as <- <-. destruct (Qle_bool u1 t) eqn:E; [|reflexivity]. apply Qle_bool_iff in E. lra.
  - replace (Qle_bool u1 t) with true; [apply (IH (steep_tail _ _ _ S) i u v u' v' t Ei Ej B)|]. symmetry. apply Qle_bool_iff.
    destruct i as [|i]; [cbn in Ei; injection Ei as -> ->; lra|].
    pose proof (steep_order _ _ S 1%nat (Datatypes.S (Datatypes.S i)) u1 v1 u v ltac:(lia) eq_refl Ei). lra.
Qed.
Lemma broken_first eps k u v : steep eps ((u, v) :: k) -> k <> [] -> broken_line ((u, v) :: k) u == v.
Proof.
  intros S N. destruct k as [|[u' v'] k]; [congruence|]. rewrite (broken_at _ _ S 0%nat u v u' v' u eq_refl eq_refl); [apply line_left|]. destruct S as [O _]. lra.
Qed.
Lemma broken_slope eps k : 0 <= eps -> steep eps k -> forall a b u v, nth_error k 0 = Some (u, v) -> u <= a -> a <= b ->
  (forall w x, last k (0, 0) = (w, x) -> b < w) -> Qabs (broken_line k b - broken_line k a) <= eps * (b - a).
Proof.
  intros EP. induction k as [|[u0 v0] r IH]; intros S a b u v E U L Z; [discriminate|]. cbn in E. injection E as <- <-. destruct r as [|[u1 v1] r].
  - specialize (Z u0 v0 eq_refl). lra.
  - pose proof (steep_tail _ _ _ S) as S'. pose proof S as (O & SL & _).
    assert (Zr : forall w x, last ((u1, v1) :: r) (0, 0) = (w, x) -> b < w) by (intros w x; apply (Z w x)).
    cbn [broken_line]. destruct (Qle_bool u1 a) eqn:Ea.
    + apply Qle_bool_iff in Ea. replace (Qle_bool u1 b) with true by (symmetry; apply Qle_bool_iff; lra). apply (IH S' a b u1 v1 eq_refl Ea L Zr).
    + assert (A : a < u1) by (apply Qnot_le_lt; intros X; apply Qle_bool_iff in X; congruence). destruct (Qle_bool u1 b) eqn:Eb.
      * apply Qle_bool_iff in Eb. pose proof (IH S' u1 b u1 v1 eq_refl ltac:(lra) Eb Zr) as H1.
        pose proof (line_slope eps u0 v0 u1 v1 a u1 O SL ltac:(lra)) as H2. rewrite (line_right u0 v0 u1 v1 O) in H2.
        assert (N : r <> []) by (intros ->; specialize (Zr u1 v1 eq_refl); lra). rewrite (broken_first eps r u1 v1 S' N) in H1.
        setoid_replace (broken_line ((u1, v1) :: r) b - line u0 v0 u1 v1 a) with ((broken_line ((u1, v1) :: r) b - v1) + (v1 - line u0 v0 u1 v1 a)) by ring.
        eapply Qle_trans; [apply Qabs_triangle|]. setoid_replace (eps * (b - a)) with (eps * (b - u1) + eps * (u1 - a)) by ring. apply Qplus_le_compat; assumption.
      * apply line_slope; [exact O|exact SL|exact L].
Qed.

(** ** The conversions *)
Definition c02_point (e : c02_entry) : Q * Q := ((c02_ut1_mjd e - (103089 # 2)) * inject_Z 86400, c02_ut1_minus_tai e).
Definition c04_point (e : c04_entry) : Q * Q := match c04_ut1 e, c04_ut1_minus_tai e with Value u, Value v => (u, v) | _, _ => (0, 0) end.
Definition c04_day (e : c04_entry) : Z := match c04_utc e with Value utc => mjd (date_of utc) | _ => 0%Z end.
Definition c04_good (e : c04_entry) : bool :=
  match c04_utc e, c04_ut1 e, c04_ut1_minus_tai e, c04_tt e with
  | Value utc, Value u, Value v, Value t =>
      Qeq_bool t (u - v + (32184 # 1000)) &&
      Qeq_bool u (inject_Z (mjd (date_of utc) - 51544) * inject_Z 86400 - inject_Z 43200 + c04_ut1_minus_utc e) &&
      Qle_bool (Qabs (c04_ut1_minus_utc e)) 1
  | _, _, _, _ => false
  end.
Fixpoint consecutive (c04 : list c04_entry) : bool :=
  match c04 with e :: ((e' :: _) as r) => (c04_day e' =? c04_day e + 1)%Z && consecutive r | _ => true end.
Lemma mjd_point (u : Q) t : u <= mjd_of_time t <-> (u - (103089 # 2)) * inject_Z 86400 <= t.
Proof.
  assert (E : mjd_of_time t == t * (1 # 86400) + (103089 # 2)) by (unfold mjd_of_time; field). rewrite E. change (inject_Z 86400) with (86400 # 1). split; intros; lra.
Qed.
Lemma mjd_point_lt (u : Q) t : mjd_of_time t < u <-> t < (u - (103089 # 2)) * inject_Z 86400.
Proof.
  assert (E : mjd_of_time t == t * (1 # 86400) + (103089 # 2)) by (unfold mjd_of_time; field). rewrite E. change (inject_Z 86400) with (86400 # 1). split; intros; lra.
Qed.
Section Tables.
Variables (eps : Q) (early late : list c02_entry) (c04 : list c04_entry).
Definition c02 := early ++ late.
Definition points := map c02_point early ++ map c04_point c04.
Hypothesis eps_ok : 0 <= eps < 1.
Hypothesis early_steep : steep eps (map c02_point c02).
Hypothesis all_steep : steep eps points.
Hypothesis c04_ok : forallb c04_good c04 = true.
Hypothesis c04_days : consecutive c04 = true.
Hypothesis late_ok : exists e r front r', late = e :: r /\ c04 = front :: r' /\ fst (c04_point front) < fst (c02_point e).
Hypothesis early_ok : early <> [].
Hypothesis c04_long : (2 <= length c04)%nat.

Lemma good_entry e : In e c04 -> exists utc u v t, c04_utc e = Value utc /\ c04_ut1 e = Value u /\ c04_ut1_minus_tai e = Value v /\ c04_tt e = Value t /\
  c04_point e = (u, v) /\ t == u - v + (32184 # 1000) /\ u == inject_Z (mjd (date_of utc) - 51544) * inject_Z 86400 - inject_Z 43200 + c04_ut1_minus_utc e /\
  Qabs (c04_ut1_minus_utc e) <= 1.
Proof.
  intros I. pose proof (proj1 (forallb_forall _ _) c04_ok e I) as G. unfold c04_good in G. unfold c04_point.
  destruct (c04_utc e) as [utc| |], (c04_ut1 e) as [u| |], (c04_ut1_minus_tai e) as [v| |], (c04_tt e) as [t| |]; try discriminate.
  apply andb_prop in G as [G G3]. apply andb_prop in G as [G1 G2].
  exists utc, u, v, t. split; [reflexivity|]. split; [reflexivity|]. split; [reflexivity|]. split; [reflexivity|]. split; [reflexivity|].
  split; [apply Qeq_bool_iff, G1|]. split; [apply Qeq_bool_iff, G2|apply Qle_bool_iff, G3].
Qed.
Lemma ut1_times : have_times c04_ut1 c04 (map (fun e => fst (c04_point e)) c04).
Proof.
  unfold have_times. rewrite map_map. apply map_ext_in. intros e I. destruct (good_entry e I) as (utc & u & v & t & _ & U & _ & _ & P & _). rewrite U, P. reflexivity.
Qed.
Definition tt_of (e : c04_entry) : Q := match c04_tt e with Value t => t | _ => 0 end.
Lemma tt_times : have_times c04_tt c04 (map tt_of c04).
Proof.
  unfold have_times, tt_of. rewrite map_map. apply map_ext_in. intros e I. destruct (good_entry e I) as (utc & u & v & t & _ & _ & _ & T & _). rewrite T. reflexivity.
Qed.
Lemma point_c04 i e : nth_error c04 i = Some e -> nth_error points (length early + i) = Some (c04_point e).
Proof.
  intros E. unfold points. rewrite nth_error_app2 by (rewrite map_length; lia). rewrite map_length. replace (length early + i - length early)%nat with i by lia.
  rewrite nth_map, E. reflexivity.
Qed.
Lemma point_c02 i e : nth_error early i = Some e -> nth_error points i = Some (c02_point e).
Proof.
  intros E. assert (L : (i < length early)%nat) by (apply nth_error_Some; rewrite E; discriminate).
  unfold points. rewrite nth_error_app1 by (rewrite map_length; exact L). rewrite nth_map, E. reflexivity.
Qed.
Lemma c04_order i j e e' : (i < j)%nat -> nth_error c04 i = Some e -> nth_error c04 j = Some e' -> fst (c04_point e) < fst (c04_point e').
Proof.
  intros L E E'. apply point_c04 in E, E'. destruct (c04_point e) as [u v], (c04_point e') as [u' v'].
  exact (steep_order _ _ all_steep (length early + i) (length early + j) u v u' v' ltac:(lia) E E').
Qed.
Lemma ut1_sorted : sorted (map (fun e => fst (c04_point e)) c04).
Proof.
  intros i j ti tj L Ei Ej. rewrite nth_map in Ei, Ej. destruct (nth_error c04 i) as [e|] eqn:E; [|discriminate]. destruct (nth_error c04 j) as [e'|] eqn:E'; [|discriminate].
  injection Ei as <-. injection Ej as <-. apply Qlt_le_weak, (c04_order i j e e' L E E').
Qed.
Lemma c02_sorted : sorted (map c02_ut1_mjd c02).
Proof.
  intros i j ti tj L Ei Ej. rewrite nth_map in Ei, Ej. destruct (nth_error c02 i) as [e|] eqn:E; [|discriminate]. destruct (nth_error c02 j) as [e'|] eqn:E'; [|discriminate].
  injection Ei as <-. injection Ej as <-.
  assert (H : fst (c02_point e) < fst (c02_point e')).
  { destruct (c02_point e) as [u v] eqn:P, (c02_point e') as [u' v'] eqn:P'. refine (steep_order _ _ early_steep i j u v u' v' L _ _); rewrite nth_map; [rewrite E, P|rewrite E', P']; reflexivity. }
  unfold c02_point in H. cbn [fst] in H. change (inject_Z 86400) with (86400 # 1) in H. lra.
Qed.
(** UT1 is in [first, back[. *)
Definition covered (ut1 : Q) : Prop :=
  (exists e, nth_error early 0 = Some e /\ fst (c02_point e) <= ut1) /\ exists e, nth_error c04 (length c04 - 1) = Some e /\ ut1 < fst (c04_point e).
Lemma mjd_difference t u : mjd_of_time t - u == (t - (u - (103089 # 2)) * inject_Z 86400) / inject_Z 86400.
Proof. unfold mjd_of_time. field. Qed.
Lemma c02_line e t u' v' m : u' == (m - (103089 # 2)) * inject_Z 86400 -> fst (c02_point e) < u' ->
  c02_ut1_minus_tai e + (mjd_of_time t - c02_ut1_mjd e) * (v' - c02_ut1_minus_tai e) / (m - c02_ut1_mjd e) ==
  line (fst (c02_point e)) (snd (c02_point e)) u' v' t.
Proof.
  intros E L. unfold line. assert (N : ~ m - c02_ut1_mjd e == 0).
  { intros Z. unfold c02_point in L. cbn [fst] in L. rewrite E in L. change (inject_Z 86400) with (86400 # 1) in L. lra. }
  rewrite mjd_difference, E. cbn [c02_point fst snd]. change (inject_Z 86400) with (86400 # 1). field. split; [intros Z; apply N; lra|exact N].
Qed.
Lemma from_ut1 ut1 : covered ut1 -> exists q, FromUT1 c02 c04 ut1 = Value q /\ q == ut1 - broken_line points ut1 + (32184 # 1000).
Proof.
  intros [(first & EF & LF) (back & EB & LB)]. destruct late_ok as (e0 & r0 & front & r' & EL & EC & FR).
  assert (E0 : nth_error c04 0 = Some front) by (rewrite EC; reflexivity).
  assert (IF : In front c04) by (apply (nth_error_In c04 0), E0).
  destruct (good_entry front IF) as (fd & fu & fv & ft & GU & GW & GV & GT & GP & GE & GX & _).
  unfold FromUT1. unfold read at 1. rewrite E0. cbn [andThen]. rewrite GW. cbn [andThen].
  destruct (Qle_bool fu ut1) eqn:C; cbn [negb].
  - apply Qle_bool_iff in C. destruct (lookup_ut1_ok c04 _ ut1 ut1_times ut1_sorted) as [LK _].
    destruct (LK fu) as (i & EI & (ti & Ei & Li) & U); [rewrite nth_map, E0, GP; reflexivity|exact C|]. rewrite EI. cbn [andThen].
    rewrite nth_map in Ei. destruct (nth_error c04 i) as [e|] eqn:E; [|discriminate]. injection Ei as <-.
    assert (Bi : (i < length c04 - 1)%nat).
    { assert (i < length c04)%nat by (apply nth_error_Some; rewrite E; discriminate). destruct (Nat.eq_dec i (length c04 - 1)) as [X|X]; [|lia].
      rewrite X, EB in E. injection E as ->. lra. }
    destruct (nth_error c04 (i + 1)) as [e'|] eqn:E'; [|apply nth_error_None in E'; lia].
    assert (U' : ut1 < fst (c04_point e')) by (apply (U (i + 1)%nat); [lia|rewrite nth_map, E'; reflexivity]).
    destruct (good_entry e (nth_error_In _ _ E)) as (d1 & u1 & v1 & t1 & _ & W1 & V1 & _ & P1 & _).
    destruct (good_entry e' (nth_error_In _ _ E')) as (d2 & u2 & v2 & t2 & _ & W2 & V2 & _ & P2 & _).
    unfold InterpolatedEOPC04, read. rewrite E, E'. cbn [andThen]. rewrite V1, W1, V2, W2. cbn [andThen]. eexists. split; [reflexivity|].
    rewrite P1 in Li. rewrite P2 in U'. cbn [fst] in Li, U'.
    pose proof (point_c04 _ _ E) as K1. pose proof (point_c04 _ _ E') as K2. rewrite P1 in K1. rewrite P2 in K2.
    replace (length early + (i + 1))%nat with (S (length early + i)) in K2 by lia.
    rewrite (broken_at _ _ all_steep _ u1 v1 u2 v2 ut1 K1 K2 (conj Li U')). unfold FromTAI, FromTT, line. reflexivity.
  - assert (C' : ut1 < fu) by (apply Qnot_le_lt; intros X; apply Qle_bool_iff in X; congruence). clear C.
    rewrite GP in FR. cbn [fst] in FR.
    destruct (lookup_c02_ok c02 ut1 c02_sorted) as [LK _].
    assert (EF' : nth_error c02 0 = Some first) by (unfold c02; rewrite nth_error_app1 by (apply nth_error_Some; rewrite EF; discriminate); exact EF).
    destruct (LK (c02_ut1_mjd first)) as (i & EI & (ti & Ei & Li) & U); [rewrite nth_map, EF'; reflexivity|apply mjd_point; exact LF|]. rewrite EI. cbn [andThen].
    rewrite nth_map in Ei. destruct (nth_error c02 i) as [e|] eqn:E; [|discriminate]. injection Ei as <-. apply mjd_point in Li. change (_ * _) with (fst (c02_point e)) in Li.
    assert (EL' : nth_error c02 (length early) = Some e0) by (unfold c02; rewrite nth_error_app2 by lia; rewrite Nat.sub_diag, EL; reflexivity).
    assert (Bi : (i < length early)%nat).
    { destruct (Nat.lt_ge_cases i (length early)) as [X|X]; [exact X|exfalso]. destruct (Nat.eq_dec i (length early)) as [Y|Y].
      - rewrite Y, EL' in E. injection E as <-. lra.
      - pose proof (steep_order _ _ early_steep (length early) i (fst (c02_point e0)) (snd (c02_point e0)) (fst (c02_point e)) (snd (c02_point e)) ltac:(lia)) as O.
        rewrite !nth_map, EL', E in O. specialize (O eq_refl eq_refl). lra. }
    assert (Ee : nth_error early i = Some e) by (unfold c02 in E; rewrite nth_error_app1 in E by exact Bi; exact E).
    pose proof (point_c02 _ _ Ee) as K1. 
    destruct (nth_error c02 (i + 1)) as [e'|] eqn:E'.
    2: { apply nth_error_None in E'. assert (length early < length c02)%nat by (apply nth_error_Some; rewrite EL'; discriminate). lia. }
    unfold read at 1. rewrite E'. cbn [andThen].
    assert (U' : ut1 < fst (c02_point e')). { apply mjd_point_lt. apply (U (i + 1)%nat); [lia|]. rewrite nth_map, E'. reflexivity. }
    destruct (Nat.eq_dec (i + 1) (length early)) as [J|J].
    + assert (e' = e0) by (rewrite J in E'; congruence). subst e'.
      replace (Qle_bool (c02_ut1_mjd e0) (mjd_of_time fu)) with false.
      2: { symmetry. apply not_true_iff_false. intros X. apply Qle_bool_iff in X. apply mjd_point in X. change (_ * _) with (fst (c02_point e0)) in X. lra. }
      cbn [negb]. unfold read. rewrite E. cbn [andThen]. unfold ExperimentalEOPC02ToEOPC04. rewrite GV, GW. cbn [andThen]. eexists. split; [reflexivity|].
      pose proof (point_c04 _ _ E0) as K2. rewrite GP in K2. replace (length early + 0)%nat with (S i) in K2 by lia.
      rewrite (broken_at _ _ all_steep i (fst (c02_point e)) (snd (c02_point e)) fu fv ut1); [|exact K1|exact K2|split; assumption].
      unfold FromTAI, FromTT. rewrite (c02_line e ut1 fu fv (mjd_of_time fu)).
      * reflexivity.
      * unfold mjd_of_time. field.
      * lra.
    + assert (Ee' : nth_error early (i + 1) = Some e') by (unfold c02 in E'; rewrite nth_error_app1 in E' by lia; exact E').
      pose proof (point_c02 _ _ Ee') as K2. replace (i + 1)%nat with (S i) in K2 by lia.
      assert (O : fst (c02_point e') < fu).
      { pose proof (point_c04 _ _ E0) as K3. rewrite GP in K3. apply (steep_order _ _ all_steep (S i) (length early + 0) _ (snd (c02_point e')) fu fv ltac:(lia) K2 K3). }
      replace (Qle_bool (c02_ut1_mjd e') (mjd_of_time fu)) with true.
      2: { symmetry. apply Qle_bool_iff. apply mjd_point. change (_ * _) with (fst (c02_point e')). lra. }
      cbn [negb]. unfold InterpolatedExperimentalEOPC02, read. rewrite E, E'. cbn [andThen]. eexists. split; [reflexivity|].
      rewrite (broken_at _ _ all_steep i (fst (c02_point e)) (snd (c02_point e)) (fst (c02_point e')) (snd (c02_point e')) ut1); [|exact K1|exact K2|split; assumption].
      unfold FromTAI, FromTT. rewrite (c02_line e ut1 (fst (c02_point e')) (snd (c02_point e')) (c02_ut1_mjd e')).
      * reflexivity.
      * reflexivity.
      * lra.
Qed.
Lemma points_first e : nth_error early 0 = Some e -> nth_error points 0 = Some (c02_point e).
Proof. apply point_c02. Qed.
Lemma points_last e : nth_error c04 (length c04 - 1) = Some e -> last points (0, 0) = c04_point e.
Proof.
  intros E. pose proof (point_c04 _ _ E) as K. assert (L : length points = (length early + length c04)%nat) by (unfold points; rewrite app_length, !map_length; reflexivity).
  rewrite (app_removelast_last (0, 0)) in K at 1 by (intros X; rewrite X in L; cbn in L; lia).
  rewrite nth_error_app2 in K.
  2: { pose proof (app_removelast_last (0, 0) (l := points)) as R. assert (points <> []) as NE by (intros X; rewrite X in L; cbn in L; lia). specialize (R NE).
       apply (f_equal (@length _)) in R. rewrite app_length in R. cbn [length] in R. lia. }
  destruct (length early + (length c04 - 1) - length (removelast points))%nat as [|n]; [cbn in K; congruence|destruct n; discriminate].
Qed.
Lemma rate a b qa qb : covered a -> covered b -> a <= b -> FromUT1 c02 c04 a = Value qa -> FromUT1 c02 c04 b = Value qb ->
  Qabs ((qb - qa) - (b - a)) <= eps * (b - a).
Proof.
  intros A B L Ea Eb. destruct (from_ut1 a A) as (q & E & V). rewrite Ea in E. injection E as <-. destruct (from_ut1 b B) as (q & E & W). rewrite Eb in E. injection E as <-.
  rewrite V, W. setoid_replace (b - broken_line points b + (32184 # 1000) - (a - broken_line points a + (32184 # 1000)) - (b - a)) with (- (broken_line points b - broken_line points a)) by ring.
  rewrite Qabs_opp. destruct A as [(f & EF & LF) _], B as [_ (l & EL & LL)].
  apply (broken_slope eps points (proj1 eps_ok) all_steep a b (fst (c02_point f)) (snd (c02_point f))); [apply points_first, EF|exact LF|exact L|].
  intros w x X. rewrite (points_last l EL) in X. rewrite X in LL. exact LL.
Qed.
Lemma consecutive_nth l : consecutive l = true -> forall i e e', nth_error l i = Some e -> nth_error l (i + 1) = Some e' -> c04_day e' = (c04_day e + 1)%Z.
Proof.
  induction l as [|a r IH]; intros C i e e' E E'; [destruct i; discriminate|]. destruct r as [|b r]; [destruct i; [|destruct i]; discriminate|].
  apply andb_prop in C as [C1 C2]. destruct i as [|i]; [cbn in E, E'; injection E as <-; injection E' as <-; apply Z.eqb_eq, C1|]. exact (IH C2 i e e' E E').
Qed.
(** What is known of two successive entries. *)
Lemma successive i e e' : nth_error c04 i = Some e -> nth_error c04 (i + 1) = Some e' ->
  exists utc u v t u' v' t', c04_utc e = Value utc /\ c04_ut1 e = Value u /\ c04_ut1_minus_tai e = Value v /\ c04_tt e = Value t /\
    c04_ut1 e' = Value u' /\ c04_ut1_minus_tai e' = Value v' /\ c04_tt e' = Value t' /\
    c04_point e = (u, v) /\ c04_point e' = (u', v') /\
    t == u - v + (32184 # 1000) /\ t' == u' - v' + (32184 # 1000) /\ u < u' /\ Qabs (v' - v) <= eps * (u' - u) /\
    u == inject_Z (mjd (date_of utc) - 51544) * inject_Z 86400 - inject_Z 43200 + c04_ut1_minus_utc e /\
    u' == u + inject_Z 86400 + (c04_ut1_minus_utc e' - c04_ut1_minus_utc e) /\
    -1 <= c04_ut1_minus_utc e <= 1 /\ -1 <= c04_ut1_minus_utc e' <= 1 /\ t < t'.
Proof.
  intros E E'. destruct (good_entry e (nth_error_In _ _ E)) as (d & u & v & t & D & U & V & T & P & ET & EU & B).
  destruct (good_entry e' (nth_error_In _ _ E')) as (d' & u' & v' & t' & D' & U' & V' & T' & P' & ET' & EU' & B').
  pose proof (consecutive_nth _ c04_days i e e' E E') as N. unfold c04_day in N. rewrite D, D' in N.
  pose proof (point_c04 _ _ E) as K1. pose proof (point_c04 _ _ E') as K2. rewrite P in K1. rewrite P' in K2. replace (length early + (i + 1))%nat with (S (length early + i)) in K2 by lia.
  pose proof (steep_order _ _ all_steep (length early + i) (S (length early + i)) u v u' v' ltac:(lia) K1 K2) as O.
  pose proof (steep_step _ _ all_steep _ u v u' v' K1 K2) as S.
  exists d, u, v, t, u', v', t'. split; [exact D|]. split; [exact U|]. split; [exact V|]. split; [exact T|]. split; [exact U'|]. split; [exact V'|]. split; [exact T'|].
  split; [exact P|]. split; [exact P'|]. split; [exact ET|]. split; [exact ET'|]. split; [exact O|]. split; [exact S|]. split; [exact EU|]. split.
  { rewrite EU', EU, N. replace (mjd (date_of d) + 1 - 51544)%Z with (mjd (date_of d) - 51544 + 1)%Z by lia. rewrite (inject_Z_plus _ 1). ring. }
  apply Qabs_Qle_condition in B, B'. split; [exact B|]. split; [exact B'|]. rewrite ET, ET'. apply Qabs_Qle_condition in S. destruct eps_ok as [e1 e2]. nra.
Qed.
Lemma tt_order i j e e' : (i < j)%nat -> nth_error c04 i = Some e -> nth_error c04 j = Some e' -> tt_of e < tt_of e'.
Proof.
  intros L E. revert e'. induction j as [|j IH]; intros e' E'; [lia|]. replace (S j) with (j + 1)%nat in E' by lia.
  destruct (nth_error c04 j) as [m|] eqn:Em.
  2: { apply nth_error_None in Em. assert (j + 1 < length c04)%nat by (apply nth_error_Some; rewrite E'; discriminate). lia. }
  destruct (successive j m e' Em E') as (d & u & v & t & u' & v' & t' & _ & _ & _ & T & _ & _ & T' & _ & _ & _ & _ & _ & _ & _ & _ & _ & _ & O).
  assert (H : tt_of m < tt_of e') by (unfold tt_of; rewrite T, T'; exact O). destruct (Nat.eq_dec i j) as [->|N].
  - rewrite Em in E. injection E as <-. exact H.
  - pose proof (IH ltac:(lia) m eq_refl). lra.
Qed.
Lemma tt_sorted : sorted (map tt_of c04).
Proof.
  intros i j ti tj L Ei Ej. rewrite nth_map in Ei, Ej. destruct (nth_error c04 i) as [e|] eqn:E; [|discriminate]. destruct (nth_error c04 j) as [e'|] eqn:E'; [|discriminate].
  injection Ei as <-. injection Ej as <-. apply Qlt_le_weak, (tt_order i j e e' L E E').
Qed.
Lemma fraction_bound l a b : 0 <= l <= 1 -> -1 <= a <= 1 -> -1 <= b <= 1 -> Qabs (l - (1 # 2) + (a + l * (b - a)) / inject_Z 86400) <= (1 # 2) + (1 # 86400).
Proof.
  intros L A B. assert (X : -1 <= a + l * (b - a) <= 1) by (split; nra). set (x := a + l * (b - a)) in *. clearbody x.
  setoid_replace (x / inject_Z 86400) with (x * (1 # 86400)) by (field; discriminate). apply Qabs_Qle_condition. split; lra.
Qed.
(** The Julian day computed from TT is the one which yields that TT. *)
Lemma inverse ut1 q e0 : covered ut1 -> nth_error c04 0 = Some e0 -> fst (c04_point e0) <= ut1 -> FromUT1 c02 c04 ut1 = Value q ->
  exists j f, UT1JulianDay c04 q = Value (j, f) /\ (inject_Z j + f) * inject_Z 86400 == ut1 /\ Qabs f <= (1 # 2) + (1 # 86400).
Proof.
  intros C E0 L0 H. destruct (from_ut1 ut1 C) as (q' & E & V). rewrite H in E. injection E as <-. destruct C as [_ (back & EB & LB)].
  destruct (lookup_ut1_ok c04 _ ut1 ut1_times ut1_sorted) as [LK _].
  destruct (LK (fst (c04_point e0))) as (i & EI & (ti & Ei & Li) & U); [rewrite nth_map, E0; reflexivity|exact L0|].
  rewrite nth_map in Ei. destruct (nth_error c04 i) as [e|] eqn:E; [|discriminate]. injection Ei as <-.
  assert (Bi : (i < length c04 - 1)%nat).
  { assert (i < length c04)%nat by (apply nth_error_Some; rewrite E; discriminate). destruct (Nat.eq_dec i (length c04 - 1)) as [X|X]; [|lia].
    rewrite X, EB in E. injection E as ->. lra. }
  destruct (nth_error c04 (i + 1)) as [e'|] eqn:E'; [|apply nth_error_None in E'; lia].
  assert (U' : ut1 < fst (c04_point e')) by (apply (U (i + 1)%nat); [lia|rewrite nth_map, E'; reflexivity]).
  destruct (successive i e e' E E') as (d & u & v & t & u' & v' & t' & D & W & VV & T & W' & V' & T' & P & P' & ET & ET' & O & S & EU & EU' & B & B' & OT).
  rewrite P in Li. rewrite P' in U'. cbn [fst] in Li, U'.
  pose proof (point_c04 _ _ E) as K1. pose proof (point_c04 _ _ E') as K2. rewrite P in K1. rewrite P' in K2. replace (length early + (i + 1))%nat with (Datatypes.S (length early + i)) in K2 by lia.
  rewrite (broken_at _ _ all_steep _ u v u' v' ut1 K1 K2 (conj Li U')) in V.
  set (l := (ut1 - u) / (u' - u)). assert (Ll : 0 <= l < 1).
  { unfold l. split; [apply Qle_shift_div_l; lra|apply Qlt_shift_div_r; lra]. }
  assert (V1 : q == t + l * (t' - t)) by (rewrite V, ET, ET'; unfold line, l; field; lra).
  assert (F0 : exists t0, c04_tt e0 = Value t0 /\ tt_of e0 = t0).
  { destruct (good_entry e0 (nth_error_In _ _ E0)) as (? & ? & ? & t0 & _ & _ & _ & T0 & _). exists t0. unfold tt_of. rewrite T0. split; reflexivity. }
  destruct F0 as (t0 & T0 & TT0). assert (Lt : t0 <= t).
  { rewrite <- TT0. assert (Te : tt_of e = t) by (unfold tt_of; rewrite T; reflexivity). rewrite <- Te. destruct i as [|i]; [rewrite E0 in E; injection E as <-; apply Qle_refl|].
    apply Qlt_le_weak, (tt_order 0 (Datatypes.S i) e0 e ltac:(lia) E0 E). }
  assert (Lq : t <= q < t') by (rewrite V1; split; nra).
  unfold UT1JulianDay. unfold read at 1. rewrite E0. cbn [andThen]. rewrite T0. cbn [andThen].
  replace (Qle_bool t0 q) with true by (symmetry; apply Qle_bool_iff; lra).
  destruct (lookup_tt_ok c04 _ q tt_times tt_sorted) as [LT _].
  destruct (LT t0) as (k & EK & (tk & Ek & Lk) & Uk); [rewrite nth_map, E0, TT0; reflexivity|lra|]. rewrite EK. cbn [andThen].
  assert (k = i).
  { rewrite nth_map in Ek. destruct (nth_error c04 k) as [ek|] eqn:EEk; [|discriminate]. injection Ek as <-.
    destruct (Nat.lt_total k i) as [X|[X|X]]; [|exact X|].
    - exfalso. assert (Z : q < t) by (apply (Uk i t X); rewrite nth_map, E; unfold tt_of; rewrite T; reflexivity). lra.
    - exfalso. assert (Z : t' <= tt_of ek).
      { assert (Te' : tt_of e' = t') by (unfold tt_of; rewrite T'; reflexivity). rewrite <- Te'. destruct (Nat.eq_dec k (i + 1)) as [->|N]; [rewrite E' in EEk; injection EEk as <-; apply Qle_refl|].
        apply Qlt_le_weak, (tt_order (i + 1) k e' ek ltac:(lia) E' EEk). }
      lra. }
  subst k. unfold InterpolatedEOPC04JulianDayFraction, read. rewrite E, E'. cbn [andThen]. rewrite T, T', D. cbn [andThen].
  assert (EL : (q - t) / (t' - t) == l) by (rewrite V1; field; lra).
  eexists. eexists. split; [reflexivity|]. cbv zeta. split.
  - rewrite EL. assert (X : ut1 == u + l * (u' - u)) by (unfold l; field; lra). rewrite X, EU', EU.
    replace (mjd (date_of d) - 51545 + 1)%Z with (mjd (date_of d) - 51544)%Z by lia. change (inject_Z 86400) with (86400 # 1). change (inject_Z 43200) with (43200 # 1). field.
  - rewrite EL. apply fraction_bound; [lra|exact B|exact B'].
Qed.
(** Past the end of the table. *)
Lemma rotation_past_end back tt : nth_error c04 (length c04 - 1) = Some back -> tt_of back <= tt -> UT1JulianDay c04 tt = OutOfBounds.
Proof.
  intros EB LB. destruct (nth_error c04 0) as [e0|] eqn:E0; [|apply nth_error_None in E0; lia].
  assert (F0 : exists t0, c04_tt e0 = Value t0 /\ tt_of e0 = t0).
  { destruct (good_entry e0 (nth_error_In _ _ E0)) as (? & ? & ? & t0 & _ & _ & _ & T0 & _). exists t0. unfold tt_of. rewrite T0. split; reflexivity. }
  destruct F0 as (t0 & T0 & TT0). pose proof (tt_order 0 (length c04 - 1) e0 back ltac:(lia) E0 EB) as O. rewrite TT0 in O.
  unfold UT1JulianDay. unfold read at 1. rewrite E0. cbn [andThen]. rewrite T0. cbn [andThen]. replace (Qle_bool t0 tt) with true by (symmetry; apply Qle_bool_iff; lra).
  destruct (lookup_tt_ok c04 _ tt tt_times tt_sorted) as [LT _].
  destruct (LT t0) as (k & EK & (tk & Ek & Lk) & Uk); [rewrite nth_map, E0, TT0; reflexivity|lra|]. rewrite EK. cbn [andThen].
  assert (k = length c04 - 1)%nat.
  { assert (k < length c04)%nat by (rewrite nth_map in Ek; apply nth_error_Some; destruct (nth_error c04 k); discriminate).
    destruct (Nat.eq_dec k (length c04 - 1)) as [X|X]; [exact X|]. assert (Z : tt < tt_of back) by (apply (Uk (length c04 - 1)%nat); [lia|rewrite nth_map, EB; reflexivity]). lra. }
  subst k. unfold InterpolatedEOPC04JulianDayFraction, read. rewrite EB. cbn [andThen].
  destruct (nth_error c04 (length c04 - 1 + 1)) eqn:X; [|reflexivity]. assert (length c04 - 1 + 1 < length c04)%nat by (apply nth_error_Some; rewrite X; discriminate). lia.
Qed.
Lemma ut1_past_end back ut1 : nth_error c04 (length c04 - 1) = Some back -> fst (c04_point back) <= ut1 -> FromUT1 c02 c04 ut1 = OutOfBounds.
Proof.
  intros EB LB. destruct (nth_error c04 0) as [e0|] eqn:E0; [|apply nth_error_None in E0; lia].
  destruct (good_entry e0 (nth_error_In _ _ E0)) as (d & u & v & t & _ & U & _ & _ & P & _).
  pose proof (c04_order 0 (length c04 - 1) e0 back ltac:(lia) E0 EB) as O. rewrite P in O. cbn [fst] in O.
  unfold FromUT1. unfold read at 1. rewrite E0. cbn [andThen]. rewrite U. cbn [andThen]. replace (Qle_bool u ut1) with true by (symmetry; apply Qle_bool_iff; lra). cbn [negb].
  destruct (lookup_ut1_ok c04 _ ut1 ut1_times ut1_sorted) as [LT _].
  destruct (LT u) as (k & EK & (tk & Ek & Lk) & Uk); [rewrite nth_map, E0, P; reflexivity|lra|]. rewrite EK. cbn [andThen].
  assert (k = length c04 - 1)%nat.
  { assert (k < length c04)%nat by (rewrite nth_map in Ek; apply nth_error_Some; destruct (nth_error c04 k); discriminate).
    destruct (Nat.eq_dec k (length c04 - 1)) as [X|X]; [exact X|]. assert (Z : ut1 < fst (c04_point back)) by (apply (Uk (length c04 - 1)%nat); [lia|rewrite nth_map, EB; reflexivity]). lra. }
  subst k. unfold InterpolatedEOPC04, read. rewrite EB. cbn [andThen].
  destruct (nth_error c04 (length c04 - 1 + 1)) eqn:X; [|reflexivity]. assert (length c04 - 1 + 1 < length c04)%nat by (apply nth_error_Some; rewrite X; discriminate). lia.
Qed.
(** With the checks of the range. *)
Lemma as_ut1 x : is_leap_second (time_of x) = false ->
  (covered (TimeSince20000101T120000Z x) /\ exists q, DateTimeAsUT1 c02 c04 x = Value q /\
     q == TimeSince20000101T120000Z x - broken_line points (TimeSince20000101T120000Z x) + (32184 # 1000)) \/
  (~ covered (TimeSince20000101T120000Z x) /\ DateTimeAsUT1 c02 c04 x = Failed).
Proof.
  intros L. set (t := TimeSince20000101T120000Z x). unfold DateTimeAsUT1. rewrite L. fold t.
  assert (X : exists f, nth_error early 0 = Some f) by (destruct early as [|f r]; [congruence|exists f; reflexivity]). destruct X as (f & EF).
  assert (EF' : nth_error c02 0 = Some f) by (unfold c02; rewrite nth_error_app1 by (apply nth_error_Some; rewrite EF; discriminate); exact EF). assert (R : read c02 0 = Value f) by (unfold read; rewrite EF'; reflexivity). rewrite R. cbn [andThen].
  destruct (nth_error c04 (length c04 - 1)) as [back|] eqn:EB; [|apply nth_error_None in EB; lia].
  destruct (good_entry back (nth_error_In _ _ EB)) as (d & u & v & tt & _ & U & _ & _ & P & _).
  destruct (Qle_bool (c02_ut1_mjd f) (mjd_of_time t)) eqn:C1.
  - apply Qle_bool_iff in C1. apply mjd_point in C1. unfold read. rewrite EB. cbn [andThen]. rewrite U. cbn [andThen]. destruct (Qle_bool u t) eqn:C2; cbn [negb].
    + right. apply Qle_bool_iff in C2. split; [|reflexivity]. intros [_ (b & Eb & Lb)]. rewrite EB in Eb. injection Eb as <-. rewrite P in Lb. cbn [fst] in Lb. lra.
    + left. assert (K : covered t).
      { split; [exists f; split; [exact EF|exact C1]|]. exists back. split; [exact EB|]. rewrite P. cbn [fst]. apply Qnot_le_lt. intros X. apply Qle_bool_iff in X. congruence. }
      split; [exact K|]. destruct (from_ut1 t K) as (q & E & V). exists q. split; [exact E|exact V].
  - right. split; [|reflexivity]. intros [(g & Eg & Lg) _]. rewrite EF in Eg. injection Eg as <-. apply mjd_point in Lg. apply Qle_bool_iff in Lg. congruence.
Qed.
End Tables.
