From Coq Require Import ZArith Bool List QArith Qabs Lia Lqa.
From Verif Require Import Date_Model Date_Proofs DateText_Model DateText_Proofs TimeScales_Model TimeScales_Proofs EarthOrientation_Tables EarthOrientation_Model EarthOrientation_Proofs.
Import ListNotations.
Open Scope Q_scope.

(** ** The tables of the code satisfy the hypotheses of the lemmas *)
Definition eps : Q := 1 # 10000000.
Definition early_entries : list c02_entry := firstn 482 experimental_eop_c02.
Definition late_entries : list c02_entry := skipn 482 experimental_eop_c02.
Fixpoint steepb (k : list (Q * Q)) : bool :=
  match k with
  | (u, v) :: (((u', v') :: _) as r) => negb (Qle_bool u' u) && Qle_bool (Qabs (v' - v)) (eps * (u' - u)) && steepb r
  | _ => true
  end.
Lemma steepb_ok k : steepb k = true -> steep eps k.
Proof.
  induction k as [|k0 r IH]; intros H; [exact I|]. destruct k0 as [u v]. destruct r as [|[u' v'] r']; [exact I|]. cbn [steepb] in H. apply andb_prop in H as [H H3]. apply andb_prop in H as [H1 H2].
  split; [|split; [apply Qle_bool_iff, H2|apply IH, H3]]. apply Qnot_le_lt. intros X. apply Qle_bool_iff in X. rewrite X in H1. discriminate.
Qed.
Lemma all_c02 : c02 early_entries late_entries = experimental_eop_c02.
Proof. apply firstn_skipn. Qed.
Lemma check_c02 : steepb (map c02_point experimental_eop_c02) = true.
Proof. vm_compute. reflexivity. Qed.
Definition utc_good (e : c04_entry) : bool := match c04_utc e with Value utc => (1961 <=? year (date_of utc))%Z | _ => false end.
Lemma midnight_utc e utc t : c04_utc e = Value utc -> (1961 <= year (date_of utc))%Z -> c04_tt e = Value t -> DateTimeAsUTC utc = Some t.
Proof.
  intros U Y T. unfold c04_tt in T. rewrite U in T. cbn [andThen] in T.
  assert (M : time_of utc = Time 0 0 0 0).
  { unfold c04_utc in U. destruct (YYYYMMDD (c04_utc_date e) None) as [d| |]; try discriminate. cbn [bind] in U. unfold BeginningOfDay in U.
    change (hhmmss_ms 0 0) with (Ok (Time 0 0 0 0)) in U. cbn [bind] in U. unfold DateTime in U. change (is_leap_second (Time 0 0 0 0)) with false in U. cbn [negb orb value_of_outcome] in U.
    injection U as <-. reflexivity. }
  unfold DateTimeAsUTC. replace (is_end_of_day (time_of utc)) with false by (rewrite M; reflexivity). unfold DateTimeAsUTC_normal.
  destruct (Z.leb_spec 1972 (year (date_of utc))) as [L|L].
  - replace (year (date_of utc) <? 1972)%Z with false by (symmetry; apply Z.ltb_ge; exact L). replace (IsValidModernUTC utc) with (Some true) by (unfold IsValidModernUTC; rewrite M; reflexivity).
    destruct (ModernUTCMinusTAI (date_of utc)) as [l|]; [|discriminate]. cbn [value_of andThen] in T.
    assert (VI : forall a b : Q, Value a = Value b -> a = b) by congruence. apply VI in T. rewrite T. reflexivity.
  - replace (year (date_of utc) <? 1972)%Z with true by (symmetry; apply Z.ltb_lt; exact L). replace (IsValidStretchyUTC utc) with true.
    + assert (VI : forall a b : Q, Value a = Value b -> a = b) by congruence. apply VI in T. rewrite T. reflexivity.
    + symmetry. unfold IsValidStretchyUTC, IsValidStretchyUTCIfOnDayOfNegativeLeap. rewrite M. change (is_leap_second (Time 0 0 0 0)) with false. cbn [hour]. change (0 <? 23)%Z with true.
      replace (1961 <=? year (date_of utc))%Z with true by (symmetry; apply Z.leb_le; exact Y). replace (year (date_of utc) <? 1972)%Z with true by (symmetry; apply Z.ltb_lt; exact L).
      rewrite !orb_true_r. reflexivity.
Qed.
(** A pass over the table which carries the month, the date, the days left in the month, TAI - UTC and its rate, and UT1 - TAI, in 10⁻⁷ s. *)
Open Scope Z_scope.
Definition rate7 (k : Z) : Z :=
  if k <? 12 * 1962 + 1 then 12960 else if k <? 12 * 1964 + 1 then 11232 else if k <? 12 * 1966 + 1 then 12960 else if k <? 12 * 1972 + 1 then 25920 else 0.
Definition lag7 (k N : Z) : Z :=
  if k <? 12 * 1972 + 1 then Qnum (offset_of k) + (N - 2400001 - epoch_of k) * rate7 k else (10 + count_before k) * 10000000.
Fixpoint walk (k z left lag rate w : Z) (rest : list (Z * Z)) : bool :=
  match rest with
  | [] => true
  | (z', a') :: r =>
      (Z.abs a' <=? 10000000) &&
      if 0 <? left then
        let lag' := lag + rate in let w' := a' - lag' in
        (z' =? z + 1) && (Z.abs (w' - w) <=? 86000) && walk k z' (left - 1) lag' rate w' r
      else
        let k' := k + 1 in let y := year_of k' in let m := month_of k' in
        let lag' := lag7 k' (number (Date y m 1 Gregorian)) in let w' := a' - lag' in
        (k' <=? 12 * 2022 + 12) && (z' =? y * 10000 + m * 100 + 1) && (Z.abs (w' - w) <=? 86000) &&
        walk k' z' (month_length y m Gregorian - 1) lag' (rate7 k') w' r
  end.
Lemma delta7 k N : (delta k N 0 == lag7 k N # 10000000)%Q.
Proof.
  unfold delta, lag7. destruct (Z.ltb_spec k (12 * 1972 + 1)) as [L|L].
  - assert (O : (offset_of k == Qnum (offset_of k) # 10000000)%Q).
    { unfold offset_of. repeat match goal with |- context [if ?b then _ else _] => destruct b end; reflexivity. }
    assert (R : (rate_of k == rate7 k # 10000000)%Q).
    { unfold rate_of, rate7. destruct (k <? 12 * 1962 + 1); [reflexivity|]. destruct (k <? 12 * 1964 + 1); [reflexivity|]. destruct (k <? 12 * 1966 + 1); [reflexivity|].
      replace (k <? 12 * 1972 + 1) with true by (symmetry; apply Z.ltb_lt; exact L). reflexivity. }
    rewrite O at 1. rewrite R. generalize (Qnum (offset_of k)), (rate7 k), (N - 2400001 - epoch_of k). intros a b c. unfold Qeq, Qplus, Qmult, inject_Z. cbn [Qnum Qden]. lia.
  - unfold Qeq, inject_Z. cbn [Qnum Qden]. lia.
Qed.
Definition good_table (l : list c04_entry) : Prop :=
  forallb c04_good l = true /\ consecutive l = true /\ forallb utc_good l = true /\ steep eps (map c04_point l).
Definition entry_of (e : Z * Z) : c04_entry := C04Entry (fst e) (snd e # 10000000).
Lemma entry_facts y m d a : 1961 <= y <= 2022 -> 1 <= m <= 12 -> 1 <= d <= month_length y m Gregorian -> Z.abs a <= 10000000 ->
  let e := entry_of (y * 10000 + m * 100 + d, a) in let N := number (Date y m d Gregorian) in
  c04_good e = true /\ utc_good e = true /\ c04_day e = N - 2400001 /\
  (fst (c04_point e) == inject_Z ((N - 2451545) * 86400 - 43200) + (a # 10000000))%Q /\
  (snd (c04_point e) == (a - lag7 (12 * y + m) N # 10000000))%Q.
Proof.
  intros Y M D A e N.
  assert (V : valid (Date y m d Gregorian)) by (exists (month_length y m Gregorian); split; [apply has_days_exists, M|exact D]).
  assert (U : c04_utc e = Value (DateAndTime (Date y m d Gregorian) (Time 0 0 0 0))).
  { unfold c04_utc, e, entry_of. cbn [fst c04_utc_date].
    assert (YY : YYYYMMDD (y * 10000 + m * 100 + d) None = Ok (Date y m d Gregorian)).
    { pose proof (has_days_28 _ _ _ _ (has_days_exists Gregorian y m M)) as B. 
      refine (eq_trans (YYYYMMDD_ok NoSign y m d None _ _ _) _); try (unfold fits; change (10 ^ Z.of_nat 4) with 10000; change (10 ^ Z.of_nat 2) with 100; lia). change (signed NoSign y) with y.
      rewrite Calendar_default. replace (1583 <=? y) with true by (symmetry; apply Z.leb_le; lia).
      rewrite (proj2 (Calendar_ok y m d Gregorian (Date y m d Gregorian))); [reflexivity|]. split; [reflexivity|]. split; [exact V|lia]. }
    rewrite YY. reflexivity. }
  set (x := DateAndTime (Date y m d Gregorian) (Time 0 0 0 0)) in U.
  assert (UD : utc_day (date_of x)) by (split; [exact V|]; split; [reflexivity|exact Y]).
  assert (MJ : mjd (Date y m d Gregorian) = N - 2400001).
  { unfold mjd. rewrite (exact _ V) by (apply utc_range; [reflexivity|cbn [year]; lia]). reflexivity. }
  assert (SS : (TimeSince20000101T120000Z x == inject_Z ((N - 2451545) * 86400 - 43200))%Q).
  { unfold TimeSince20000101T120000Z. rewrite since_ok by exact UD. change (of_day (time_of x)) with 0. change (number (date_of x)) with N. clearbody N. unfold Qdiv. change (/ inject_Z 1000)%Q with (1 # 1000)%Q. unfold Qeq, Qmult, inject_Z. cbn [Qnum Qden]. lia. }
  assert (W : c04_ut1 e = Value (TimeSince20000101T120000Z x + (a # 10000000))%Q) by (unfold c04_ut1; rewrite U; reflexivity).
  assert (T : exists v t, c04_ut1_minus_tai e = Value v /\ c04_tt e = Value t /\ (t == TimeSince20000101T120000Z x + (a # 10000000) - v + (32184 # 1000))%Q).
  { unfold c04_ut1_minus_tai, c04_tt. rewrite U. cbn [andThen]. change (year (date_of x)) with y. destruct (Z.leb_spec 1972 y) as [L|L].
    - rewrite utc_minus_tai_ok by (change (year (date_of x)) with y; change (month (date_of x)) with m; lia). cbn [value_of andThen]. do 2 eexists. split; [reflexivity|]. split; [reflexivity|]. unfold FromTAI, FromTT. change (c04_ut1_minus_utc e) with (a # 10000000)%Q. ring.
    - do 2 eexists. split; [reflexivity|]. split; [reflexivity|]. unfold FromTAI, FromTT. change (c04_ut1_minus_utc e) with (a # 10000000)%Q. ring. }
  destruct T as (v & t & ET & TT & I).
  pose proof (midnight_utc e x t U (proj1 Y) TT) as DT. change (DateTimeAsUTC x) with (DateTimeAsUTC_normal x) in DT. pose proof (value_ok x t UD DT) as VT.
  change (month_number (date_of x)) with (12 * y + m) in VT. change (number (date_of x)) with N in VT. change (of_day (time_of x)) with 0 in VT. unfold instant in VT. rewrite delta7 in VT.
  assert (B : (base N 0 == TimeSince20000101T120000Z x)%Q) by (rewrite SS; unfold base, Qeq, Qmult, inject_Z; cbn [Qnum Qden]; lia).
  assert (EV : (v == (a - lag7 (12 * y + m) N # 10000000))%Q).
  { rewrite B in VT. assert (X : ((a - lag7 (12 * y + m) N # 10000000) == (a # 10000000) - (lag7 (12 * y + m) N # 10000000))%Q) by (unfold Qeq, Qminus, Qplus, Qopp; cbn [Qnum Qden]; lia). rewrite X. clear -VT I. lra. }
  split; [|split; [|split; [|split]]].
  - unfold c04_good. rewrite U, W, ET, TT. rewrite !andb_true_iff. split; [split|].
    + apply Qeq_bool_iff. exact I.
    + apply Qeq_bool_iff. rewrite SS. change (date_of x) with (Date y m d Gregorian). rewrite MJ. change (c04_ut1_minus_utc e) with (a # 10000000)%Q. unfold Qeq, Qplus, Qminus, Qmult, Qopp, inject_Z. cbn [Qnum Qden Qplus]. lia.
    + apply Qle_bool_iff. change (c04_ut1_minus_utc e) with (a # 10000000)%Q. unfold Qabs, Qle. cbn [Qnum Qden]. lia.
  - unfold utc_good. rewrite U. change (year (date_of x)) with y. apply Z.leb_le. lia.
  - unfold c04_day. rewrite U. exact MJ.
  - unfold c04_point. rewrite W, ET. cbn [fst]. rewrite SS. reflexivity.
  - unfold c04_point. rewrite W, ET. exact EV.
Qed.
Lemma pair_steep e e' n a n' a' w w' : Z.abs a <= 10000000 -> Z.abs a' <= 10000000 -> n' = n + 1 -> Z.abs (w' - w) <= 86000 ->
  (fst (c04_point e) == inject_Z ((n - 2451545) * 86400 - 43200) + (a # 10000000))%Q -> (snd (c04_point e) == (w # 10000000))%Q ->
  (fst (c04_point e') == inject_Z ((n' - 2451545) * 86400 - 43200) + (a' # 10000000))%Q -> (snd (c04_point e') == (w' # 10000000))%Q ->
  forall r, steep eps (map c04_point (e' :: r)) -> steep eps (map c04_point (e :: e' :: r)).
Proof.
  intros A A' -> S U V U' V' r H. cbn [map] in *. destruct (c04_point e) as [u v], (c04_point e') as [u' v']. cbn [fst snd] in *.
  assert (D : (u' - u == (86400 # 1) + (a' - a # 10000000))%Q).
  { rewrite U, U'. unfold Qeq, Qplus, Qminus, Qopp, inject_Z. cbn [Qnum Qden Qplus Qopp Qminus]. lia. }
  assert (E : (v' - v == (w' - w # 10000000))%Q) by (rewrite V, V'; unfold Qeq, Qplus, Qminus, Qopp; cbn [Qnum Qden Qplus Qopp Qminus]; lia).
  assert (G : ((86398 # 1) <= u' - u)%Q) by (rewrite D; unfold Qle, Qplus; cbn [Qnum Qden Qplus Qopp Qminus]; lia).
  split; [lra|]. split; [|exact H]. rewrite E. apply Qle_trans with (eps * (86398 # 1))%Q.
  - unfold eps, Qle, Qabs, Qmult. cbn [Qnum Qden Qplus Qopp Qminus]. lia.
  - unfold eps. lra.
Qed.
Lemma walk_ok rest : forall k d left a, let y := year_of k in let m := month_of k in let N := number (Date y m d Gregorian) in
  1961 <= y <= 2022 -> 1 <= d -> 0 <= left -> d + left = month_length y m Gregorian -> Z.abs a <= 10000000 ->
  walk k (y * 10000 + m * 100 + d) left (lag7 k N) (rate7 k) (a - lag7 k N) rest = true ->
  good_table (map entry_of ((y * 10000 + m * 100 + d, a) :: rest)).
Proof.
  induction rest as [|[z' a'] r IH]; intros k d left a y m N Y D L E A H.
  all: assert (M : 1 <= m <= 12) by (unfold m, month_of; pose proof (Z.mod_pos_bound (k - 1) 12 eq_refl); lia).
  all: assert (K : 12 * y + m = k) by (unfold y, m, year_of, month_of; pose proof (Z.div_mod (k - 1) 12 ltac:(discriminate)); lia).
  all: destruct (entry_facts y m d a Y M ltac:(lia) A) as (G & UG & DY & PU & PV); rewrite K in PV; fold N in DY, PU, PV.
  - cbn [map]. unfold good_table. cbn [forallb map consecutive steep]. rewrite G, UG. repeat split. destruct (c04_point _); exact I.
  - cbn [walk] in H. apply andb_prop in H as [A' H]. apply Z.leb_le in A'.
    set (e := entry_of (y * 10000 + m * 100 + d, a)) in *.
    assert (X : exists n' w', good_table (map entry_of ((z', a') :: r)) /\ n' = N + 1 /\ Z.abs (w' - (a - lag7 k N)) <= 86000 /\ c04_day (entry_of (z', a')) = n' - 2400001 /\
      (fst (c04_point (entry_of (z', a'))) == inject_Z ((n' - 2451545) * 86400 - 43200) + (a' # 10000000))%Q /\ (snd (c04_point (entry_of (z', a'))) == (w' # 10000000))%Q).
    { destruct (Z.ltb_spec 0 left) as [P|P].
      - cbv zeta in H. rewrite !andb_true_iff in H. destruct H as [[Z' S] H]. apply Z.eqb_eq in Z'. apply Z.leb_le in S.
        assert (N' : number (Date y m (d + 1) Gregorian) = N + 1) by (unfold N; rewrite (number_day y m d (d + 1)); lia).
        assert (LG : lag7 k N + rate7 k = lag7 k (number (Date y m (d + 1) Gregorian))).
        { rewrite N'. unfold lag7. destruct (Z.ltb_spec k (12 * 1972 + 1)) as [Q1|Q1]; [lia|]. unfold rate7.
          replace (k <? 12 * 1962 + 1) with false by (symmetry; apply Z.ltb_ge; lia). replace (k <? 12 * 1964 + 1) with false by (symmetry; apply Z.ltb_ge; lia).
          replace (k <? 12 * 1966 + 1) with false by (symmetry; apply Z.ltb_ge; lia). replace (k <? 12 * 1972 + 1) with false by (symmetry; apply Z.ltb_ge; lia). lia. }
        rewrite LG in H, S. replace (y * 10000 + m * 100 + d + 1) with (y * 10000 + m * 100 + (d + 1)) in Z' by lia. subst z'.
        destruct (entry_facts y m (d + 1) a' Y M ltac:(lia) A') as (_ & _ & DY' & PU' & PV'). rewrite K in PV'.
        exists (number (Date y m (d + 1) Gregorian)), (a' - lag7 k (number (Date y m (d + 1) Gregorian))).
        split; [exact (IH k (d + 1) (left - 1) a' Y ltac:(lia) ltac:(lia) ltac:(fold y m; lia) A' H)|]. split; [exact N'|]. split; [exact S|]. split; [exact DY'|]. split; [exact PU'|exact PV'].
      - cbv zeta in H. rewrite !andb_true_iff in H. destruct H as [[[Q1 Z'] S] H]. apply Z.eqb_eq in Z'. apply Z.leb_le in S, Q1. set (k' := k + 1) in *. set (y' := year_of k') in *. set (m' := month_of k') in *.
        assert (M' : 1 <= m' <= 12) by (unfold m', month_of; pose proof (Z.mod_pos_bound (k' - 1) 12 eq_refl); lia).
        assert (K' : 12 * y' + m' = k') by (unfold y', m', year_of, month_of; pose proof (Z.div_mod (k' - 1) 12 ltac:(discriminate)); lia).
        assert (Y' : 1961 <= y' <= 2022) by lia.
        pose proof (has_days_28 _ _ _ _ (has_days_exists Gregorian y' m' M')) as B. subst z'.
        assert (N' : number (Date y' m' 1 Gregorian) = N + 1).
        { apply number_follows. assert (EL : left = 0) by lia. pose proof (has_days_exists Gregorian y m M) as HD. replace d with (month_length y m Gregorian) by lia.
          destruct (Z.eq_dec m 12) as [Q2|Q2].
          - replace y' with (y + 1) by lia. replace m' with 1 by lia. rewrite Q2. replace (month_length y 12 Gregorian) with 31 by (unfold month_length; rewrite andb_false_r; reflexivity). apply next_year.
          - replace y' with y by lia. replace m' with (m + 1) by lia. apply next_month; [exact HD|lia]. }
        destruct (entry_facts y' m' 1 a' Y' M' ltac:(lia) A') as (_ & _ & DY' & PU' & PV'). rewrite K' in PV'.
        exists (number (Date y' m' 1 Gregorian)), (a' - lag7 k' (number (Date y' m' 1 Gregorian))).
        split; [exact (IH k' 1 (month_length y' m' Gregorian - 1) a' Y' ltac:(lia) ltac:(lia) ltac:(fold y' m'; lia) A' H)|]. split; [exact N'|]. split; [exact S|]. split; [exact DY'|]. split; [exact PU'|exact PV']. }
    destruct X as (n' & w' & (G1 & G2 & G3 & G4) & EN & S & DY' & PU' & PV'). cbn [map] in *. fold e. set (e' := entry_of (z', a')) in *.
    split; [|split; [|split]].
    + cbn [forallb] in *. rewrite G. exact G1.
    + cbn [consecutive]. apply andb_true_iff. split; [rewrite DY, DY'; apply Z.eqb_eq; lia|exact G2].
    + cbn [forallb] in *. rewrite UG. exact G3.
    + exact (pair_steep e e' N a n' a' (a - lag7 k N) w' A A' EN S PU PV PU' PV' (map entry_of r) G4).
Qed.
Definition table_check : bool :=
  match eop_c04_data with
  | (z, a) :: r => (z =? 19620101) && (Z.abs a <=? 10000000) && let lag := lag7 23545 (number (Date 1962 1 1 Gregorian)) in walk 23545 19620101 30 lag (rate7 23545) (a - lag) r
  | [] => false
  end.
Lemma table_checked : table_check = true.
Proof. vm_compute. reflexivity. Qed.
Lemma table_good : good_table eop_c04.
Proof.
  pose proof table_checked as H. unfold table_check in H. change eop_c04 with (map entry_of eop_c04_data). destruct eop_c04_data as [|[z a] r]; [discriminate|].
  cbv zeta in H. rewrite !andb_true_iff in H. destruct H as [[Z' A] H]. apply Z.eqb_eq in Z'. apply Z.leb_le in A. subst z.
  refine (walk_ok r 23545 1 30 a _ _ _ _ A H); [change (year_of 23545) with 1962; lia|lia|lia|reflexivity].
Qed.
Open Scope Q_scope.
Lemma check_c04 : forallb c04_good eop_c04 = true.
Proof. exact (proj1 table_good). Qed.
Lemma check_days : consecutive eop_c04 = true.
Proof. exact (proj1 (proj2 table_good)). Qed.
Lemma check_utc : forallb utc_good eop_c04 = true.
Proof. exact (proj1 (proj2 (proj2 table_good))). Qed.
Lemma steep_app k p r : steep eps (k ++ [p]) -> steep eps (p :: r) -> steep eps (k ++ p :: r).
Proof.
  induction k as [|[u v] k IH]; intros H R; [exact R|]. destruct k as [|[u' v'] k].
  - cbn [app] in *. destruct p as [u' v']. destruct H as (H1 & H2 & _). split; [exact H1|]. split; [exact H2|exact R].
  - destruct H as (H1 & H2 & H3). split; [exact H1|]. split; [exact H2|]. apply IH; [exact H3|exact R].
Qed.
Definition junction : bool := match eop_c04 with front :: _ => steepb (map c02_point early_entries ++ [c04_point front]) | [] => false end.
Lemma check_junction : junction = true.
Proof. vm_compute. reflexivity. Qed.
Lemma steep_points : steep eps (points early_entries eop_c04).
Proof.
  unfold points. pose proof check_junction as J. unfold junction in J. pose proof (proj2 (proj2 (proj2 table_good))) as S. destruct eop_c04 as [|f r]; [discriminate|]. cbn [map] in *.
  apply steep_app; [apply steepb_ok, J|exact S].
Qed.
Definition late_check : bool :=
  match late_entries, eop_c04 with e :: _, front :: _ => negb (Qle_bool (fst (c02_point e)) (fst (c04_point front))) | _, _ => false end.
Lemma check_late : late_check = true.
Proof. vm_compute. reflexivity. Qed.
Definition lengths : bool := (Nat.leb 1 (length early_entries)) && Nat.leb 2 (length eop_c04).
Lemma check_lengths : lengths = true.
Proof. vm_compute. reflexivity. Qed.
Definition first_c02 : Q := inject_Z (-5356065600).
Definition back_c04 : Q := 707832000 - (901686 # 10000000).
Definition front_c04 : Q := inject_Z (-1199188800) + (326338 # 10000000).
Definition back_tt : Q := 707832000 + 37 + (32184 # 1000).
Definition ends : bool :=
  match nth_error early_entries 0, nth_error eop_c04 0, nth_error eop_c04 (length eop_c04 - 1) with
  | Some f, Some e, Some b => Qeq_bool (fst (c02_point f)) first_c02 && Qeq_bool (fst (c04_point e)) front_c04 && Qeq_bool (fst (c04_point b)) back_c04
                              && Qeq_bool (tt_of b) back_tt
  | _, _, _ => false
  end.
Lemma check_ends : ends = true.
Proof. vm_compute. reflexivity. Qed.
