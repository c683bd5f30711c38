From Coq Require Import ZArith Bool List QArith Qabs Lia Lqa.
From Verif Require Import Date_Model Date_Proofs DateText_Model DateText_Proofs TimeScales_Model.
Import ListNotations.
Open Scope Z_scope.
Ltac Zify.zify_post_hook ::= Z.div_mod_to_equations.

(** ** Specification *)
(** The leap seconds announced by the IERS: at the ends of these months. *)
Definition announced : list (Z * Z) :=
  [(1972, 6); (1972, 12); (1973, 12); (1974, 12); (1975, 12); (1976, 12); (1977, 12); (1978, 12); (1979, 12); (1981, 6); (1982, 6);
   (1983, 6); (1985, 6); (1987, 12); (1989, 12); (1990, 12); (1992, 6); (1993, 6); (1994, 6); (1995, 12); (1997, 6); (1998, 12);
   (2005, 12); (2008, 12); (2012, 6); (2015, 6); (2016, 12)].
(** The steps of UTC from 1961 to 1972, in milliseconds, at the ends of these months. *)
Definition stretchy_steps : list (Z * Z * Q) :=
  [(1961, 7, inject_Z (-50)); (1963, 10, inject_Z 100); (1964, 3, inject_Z 100); (1964, 8, inject_Z 100); (1964, 12, inject_Z 100);
   (1965, 2, inject_Z 100); (1965, 6, inject_Z 100); (1965, 8, inject_Z 100); (1968, 1, inject_Z (-100)); (1971, 12, (107758 # 1000)%Q)].
(** The relative difference in rate between UTC and TAI. *)
Definition frequency_offset (y : Z) : Q :=
  (if y <? 1962 then 150 # 10000000000 else if y <? 1964 then 130 # 10000000000 else if y <? 1966 then 150 # 10000000000
   else if y <? 1972 then 300 # 10000000000 else 0)%Q.
Definition all_steps : list (Z * Z * Q) := stretchy_steps ++ map (fun a => (a, inject_Z 1000)) announced.
(** The milliseconds added at the end of a month. *)
Definition step (y m : Z) : Q :=
  match find (fun a => let '(y', m', _) := a in (y' =? y) && (m' =? m)) all_steps with Some (_, _, s) => s | None => inject_Z 0 end.
(** The length in milliseconds of the minute of [x]. *)
Inductive minute_length (x : date_time) : Q -> Prop :=
| ordinary_minute : ~ (hour (time_of x) = 23 /\ minute (time_of x) = 59) -> minute_length x (inject_Z 60000)
| last_of_day : ~ has_days Gregorian (year (date_of x)) (month (date_of x)) (day (date_of x)) -> minute_length x (inject_Z 60000)
| last_of_month : hour (time_of x) = 23 -> minute (time_of x) = 59 ->
    has_days Gregorian (year (date_of x)) (month (date_of x)) (day (date_of x)) ->
    minute_length x (inject_Z 60000 + step (year (date_of x)) (month (date_of x)))%Q.
Definition in_minute (t : time_of_day) : Z := 1000 * second t + millisecond t.
Definition utc_day (d : date) : Prop := valid d /\ calendar d = Gregorian /\ 1961 <= year d <= 2022.
(** The times of UTC: they do not skip the steps. *)
Definition utc_exists (x : date_time) : Prop :=
  utc_day (date_of x) /\ 0 <= hour (time_of x) < 24 /\ 0 <= minute (time_of x) < 60 /\ 0 <= second (time_of x) /\ 0 <= millisecond (time_of x) < 1000 /\
  exists l, minute_length x l /\ (inject_Z (in_minute (time_of x)) < l)%Q.
(** The next time, and the milliseconds in between. *)
Inductive utc_next : date_time -> date_time -> Q -> Prop :=
| in_the_minute d h m s ms s' ms' l : minute_length (DateAndTime d (Time h m s ms)) l ->
    1000 * s' + ms' = 1000 * s + ms + 1 -> 0 <= ms' < 1000 -> (inject_Z (1000 * s' + ms') < l)%Q ->
    utc_next (DateAndTime d (Time h m s ms)) (DateAndTime d (Time h m s' ms')) (inject_Z 1)
| in_the_hour d h m : m < 59 -> utc_next (DateAndTime d (Time h m 59 999)) (DateAndTime d (Time h (m + 1) 0 0)) (inject_Z 1)
| in_the_day d h : h < 23 -> utc_next (DateAndTime d (Time h 59 59 999)) (DateAndTime d (Time (h + 1) 0 0 0)) (inject_Z 1)
| in_the_next_day d d' s ms l : minute_length (DateAndTime d (Time 23 59 s ms)) l -> (l <= inject_Z (1000 * s + ms + 1))%Q -> follows d d' ->
    utc_next (DateAndTime d (Time 23 59 s ms)) (DateAndTime d' (Time 0 0 0 0)) (l - inject_Z (1000 * s + ms))%Q.
(** TAI - UTC increased by one second per leap second, and was 10 s in 1972. *)
Definition announced_before (d : date) : Z :=
  Z.of_nat (length (filter (fun a => let '(y, m) := a in (y <? year d) || ((y =? year d) && (m <? month d))) announced)).

(** ** Months *)
Definition month_number (d : date) : Z := 12 * year d + month d.
Definition last (d : date) : bool := day d =? Date_Model.month_length (year d) (month d) Gregorian.
Lemma last_ok d : valid d -> calendar d = Gregorian -> last d = true <-> has_days Gregorian (year d) (month d) (day d).
Proof.
  intros V C. destruct (valid_days d V) as [M _]. unfold last. rewrite Z.eqb_eq, has_days_ok. tauto.
Qed.
Lemma first_of_month_valid y m : 1 <= m <= 12 -> valid (Date y m 1 Gregorian).
Proof.
  intros M. exists (Date_Model.month_length y m Gregorian). split; [apply has_days_exists; exact M|].
  pose proof (has_days_28 _ _ _ _ (has_days_exists Gregorian y m M)). cbn [day]. lia.
Qed.
Lemma utc_range d : calendar d = Gregorian -> 1583 <= year d -> in_range d.
Proof. intros C Y. unfold in_range. rewrite C. lia. Qed.
Lemma ltb_month d y m : valid d -> calendar d = Gregorian -> 1583 <= year d -> 1583 <= y -> 1 <= m <= 12 ->
  date_ltb d (Date y m 1 Gregorian) = (month_number d <? 12 * y + m).
Proof.
  intros V C Y Y' M. destruct (valid_days d V) as [Md Dd].
  destruct (order_ok d (Date y m 1 Gregorian) V (first_of_month_valid y m M) (utc_range d C Y) (utc_range (Date y m 1 Gregorian) eq_refl Y') C) as [O _].
  apply eq_true_iff_eq. rewrite O, Z.ltb_lt. unfold before, month_number. cbn [year month day]. lia.
Qed.
Lemma next_day_follows d : valid d -> calendar d = Gregorian -> 1583 <= year d -> follows d (next_day d).
Proof.
  intros V C Y. destruct (next_day_ok d V (utc_range d C Y)) as (_ & _ & F). apply F.
  - unfold civil_calendar. rewrite C. unfold before. cbn [year]. lia.
  - intros ->. discriminate C.
Qed.
Lemma eqb_next_month d y m : valid d -> calendar d = Gregorian -> 1583 <= year d -> 1583 <= y -> 1 <= m <= 12 ->
  date_eqb (next_day d) (Date y m 1 Gregorian) = last d && (month_number d + 1 =? 12 * y + m).
Proof.
  intros V C Y Y' M. pose proof (next_day_follows d V C Y) as F. destruct (follows_valid d (next_day d) V F) as (V' & C' & Y'').
  rewrite C in C'.
  destruct (order_ok (next_day d) (Date y m 1 Gregorian) V' (first_of_month_valid y m M) (utc_range _ C' ltac:(lia)) (utc_range (Date y m 1 Gregorian) eq_refl Y') C') as [_ O].
  apply eq_true_iff_eq. rewrite O, andb_true_iff, Z.eqb_eq. unfold last. rewrite Z.eqb_eq. clear O.
  remember (next_day d) as d'. clear Heqd'. destruct F as [y0 m0 d0 c n H L|y0 m0 c n H L|y0 c]; cbn [calendar] in C; subst c; unfold month_number; cbn [year month day].
  - apply has_days_ok in H. destruct H as [_ ->]. destruct (valid_days _ V) as [_ B]. cbn [day year month] in B. split; [intros E; injection E as -> -> E; lia|lia].
  - apply has_days_ok in H. destruct H as [H ->]. split; [intros E; injection E as -> <-; split; [reflexivity|lia]|]. intros [_ E]. f_equal; lia.
  - assert (D : Date_Model.month_length y0 12 Gregorian = 31) by (unfold Date_Model.month_length; rewrite andb_false_r; reflexivity).
    split; [intros E; injection E as <- <-; split; [symmetry; exact D|lia]|]. intros [_ E]. f_equal; lia.
Qed.

(** ** The tables *)
Lemma nat_interval a b (P : Z -> bool) : forallb P (map (fun n => a + Z.of_nat n) (seq 0 (Z.to_nat (b - a + 1)))) = true -> forall k, a <= k <= b -> P k = true.
Proof.
  intros H k K. rewrite forallb_forall in H. apply H. apply in_map_iff. exists (Z.to_nat (k - a)). split; [lia|]. apply in_seq. lia.
Qed.
Definition year_of (k : Z) : Z := (k - 1) / 12.
Definition month_of (k : Z) : Z := (k - 1) mod 12 + 1.
Lemma year_month_of d : 1 <= month d <= 12 -> year_of (month_number d) = year d /\ month_of (month_number d) = month d.
Proof. unfold year_of, month_of, month_number. lia. Qed.
Definition count_before (k : Z) : Z :=
  Z.of_nat (length (filter (fun a : Z * Z => let '(y, m) := a in (y <? year_of k) || ((y =? year_of k) && (m <? month_of k))) announced)).
Definition is_announced (y m : Z) : bool := existsb (fun a : Z * Z => let '(y', m') := a in (y' =? y) && (m' =? m)) announced.
Definition optZ_eqb (a b : option Z) : bool := match a, b with Some a, Some b => a =? b | None, None => true | _, _ => false end.
Lemma optZ_eqb_ok a b : optZ_eqb a b = true -> a = b.
Proof. destruct a, b; cbn; try discriminate; try reflexivity. intros H. apply Z.eqb_eq in H. congruence. Qed.
Lemma leap_second_table k : 12 * 1972 + 1 <= k <= 12 * 2022 + 12 ->
  (if (month_of k =? 6) || (month_of k =? 12) then
     optZ_eqb (LeapSecond (year_of k) (month_of k)) (Some (if is_announced (year_of k) (month_of k) then 1 else 0))
   else match LeapSecond (year_of k) (month_of k) with None => negb (is_announced (year_of k) (month_of k)) | Some _ => false end) = true.
Proof. revert k. match goal with |- forall k, ?a <= k <= ?b -> @?P k = true => apply (nat_interval a b P) end. vm_compute. reflexivity. Qed.
Definition utc_minus_tai (k : Z) : option Z :=
  plus (if 6 <? month_of k then opp (LeapSecond (year_of k) 6) else Some 0) (UTCMinusTAI_january_1st (Z.to_nat (year_of k - 1972))).
Lemma utc_minus_tai_table k : 12 * 1972 + 1 <= k <= 12 * 2022 + 12 -> optZ_eqb (utc_minus_tai k) (Some (-10 - count_before k)) = true.
Proof. revert k. match goal with |- forall k, ?a <= k <= ?b -> @?P k = true => apply (nat_interval a b P) end. vm_compute. reflexivity. Qed.
Lemma count_before_ok d : 1 <= month d <= 12 -> count_before (month_number d) = announced_before d.
Proof. intros M. destruct (year_month_of d M) as [EY EM]. unfold count_before, announced_before. rewrite EY, EM. reflexivity. Qed.
Lemma plus_0 a : plus (Some 0) a = a.
Proof. destruct a; reflexivity. Qed.
Lemma utc_minus_tai_model d : 1972 <= year d -> 1 <= month d <= 12 -> ModernUTCMinusTAI d = utc_minus_tai (month_number d).
Proof.
  intros Y M. destruct (year_month_of d M) as [EY EM]. unfold utc_minus_tai. rewrite EY, EM. unfold ModernUTCMinusTAI.
  generalize (UTCMinusTAI_january_1st (Z.to_nat (year d - 1972))). intros j. generalize (opp (LeapSecond (year d) 6)). intros l.
  replace (year d <? 1972) with false by (symmetry; apply Z.ltb_ge; exact Y).
  destruct (Z.eqb_spec (month d) 1) as [E|E]; cbn [andb]; [|reflexivity]. destruct (day d =? 1); [|reflexivity].
  replace (6 <? month d) with false by (symmetry; apply Z.ltb_ge; lia). symmetry. apply plus_0.
Qed.
Lemma utc_minus_tai_ok d : 1972 <= year d <= 2022 -> 1 <= month d <= 12 -> ModernUTCMinusTAI d = Some (-10 - announced_before d).
Proof.
  intros Y M. rewrite utc_minus_tai_model by (exact M || apply Y). rewrite <- count_before_ok by exact M.
  apply optZ_eqb_ok, utc_minus_tai_table. unfold month_number. lia.
Qed.
Lemma is_announced_ok y m : is_announced y m = true <-> In (y, m) announced.
Proof.
  unfold is_announced. rewrite existsb_exists. split.
  - intros ([y' m'] & I & E). apply andb_true_iff in E. rewrite !Z.eqb_eq in E. destruct E; subst. exact I.
  - intros I. exists (y, m). split; [exact I|]. rewrite !Z.eqb_refl. reflexivity.
Qed.
Lemma modern_valid x : utc_day (date_of x) -> 1972 <= year (date_of x) ->
  IsValidModernUTC x = Some true <-> (second (time_of x) = 60 -> In (year (date_of x), month (date_of x)) announced).
Proof.
  intros (V & C & Y) Y'. destruct (valid_days _ V) as [M _]. unfold IsValidModernUTC, is_leap_second.
  destruct (Z.eqb_spec (second (time_of x)) 60) as [S|S]; cbn [negb]; [|split; [intros _ E; congruence|reflexivity]].
  destruct (year_month_of (date_of x) M) as [EY EM]. assert (K : 12 * 1972 + 1 <= month_number (date_of x) <= 12 * 2022 + 12) by (unfold month_number; lia).
  pose proof (leap_second_table _ K) as T. rewrite EY, EM in T. rewrite <- is_announced_ok.
  destruct (_ || _).
  - apply optZ_eqb_ok in T. rewrite T. destruct (is_announced _ _); split; try reflexivity; try discriminate; intros H; specialize (H S); discriminate.
  - destruct (LeapSecond _ _); [discriminate|]. destruct (is_announced _ _); [discriminate|]. split; [discriminate|]. intros H. specialize (H S). discriminate.
Qed.

(** ** Validity *)
Definition stepk (k : Z) : Q := step (year_of k) (month_of k).
(** The steps in units of 0.0001 ms. *)
Definition stretchy_step (k : Z) : Z :=
  if k =? 12 * 1961 + 7 then -500000 else if k =? 12 * 1963 + 10 then 1000000 else if k =? 12 * 1964 + 3 then 1000000
  else if k =? 12 * 1964 + 8 then 1000000 else if k =? 12 * 1964 + 12 then 1000000 else if k =? 12 * 1965 + 2 then 1000000
  else if k =? 12 * 1965 + 6 then 1000000 else if k =? 12 * 1965 + 8 then 1000000 else if k =? 12 * 1968 + 1 then -1000000
  else if k =? 12 * 1971 + 12 then 1077580 else 0.
Definition integer_step (k : Z) : Z :=
  if k <=? 12 * 1971 + 12 then stretchy_step k else if is_announced (year_of k) (month_of k) then 10000000 else 0.
Lemma step_table k : 12 * 1961 + 1 <= k <= 12 * 2022 + 12 -> Qeq_bool (stepk k) (integer_step k # 10000) = true.
Proof. revert k. match goal with |- forall k, ?a <= k <= ?b -> @?P k = true => apply (nat_interval a b P) end. vm_compute. reflexivity. Qed.
Lemma step_ok d : utc_day d -> (step (year d) (month d) == integer_step (month_number d) # 10000)%Q.
Proof.
  intros (V & _ & Y). destruct (valid_days _ V) as [M _]. destruct (year_month_of d M) as [EY EM]. rewrite <- EY, <- EM.
  apply Qeq_bool_iff, step_table. unfold month_number. lia.
Qed.
Lemma integer_step_bounds k : -1000000 <= integer_step k <= 10000000.
Proof. unfold integer_step, stretchy_step. repeat match goal with |- context [if ?b then _ else _] => destruct b end; lia. Qed.
(** The length of the minute of [x], in units of 0.0001 ms. *)
Definition length_of (x : date_time) : Z :=
  if (hour (time_of x) =? 23) && (minute (time_of x) =? 59) && last (date_of x) then 600000000 + integer_step (month_number (date_of x)) else 600000000.
Lemma length_ok x l : utc_day (date_of x) -> minute_length x l -> (l == length_of x # 10000)%Q.
Proof.
  intros D H. pose proof D as (V & C & Y). unfold length_of. destruct H as [H|H|H1 H2 H].
  - destruct (Z.eqb_spec (hour (time_of x)) 23), (Z.eqb_spec (minute (time_of x)) 59); cbn [andb]; try reflexivity. tauto.
  - rewrite <- last_ok in H by assumption. apply not_true_iff_false in H. rewrite H, andb_false_r. reflexivity.
  - rewrite <- last_ok in H by assumption. rewrite H1, H2, H. cbn [Z.eqb Pos.eqb andb]. rewrite step_ok by assumption.
    unfold Qeq, Qplus, inject_Z. cbn [Qnum Qden]. lia.
Qed.
Lemma length_exists x : utc_day (date_of x) -> exists l, minute_length x l.
Proof.
  intros (V & C & _). destruct (last (date_of x)) eqn:L.
  - destruct (Z.eq_dec (hour (time_of x)) 23) as [H|H]; [|eexists; apply ordinary_minute; tauto].
    destruct (Z.eq_dec (minute (time_of x)) 59) as [M|M]; [|eexists; apply ordinary_minute; tauto].
    eexists. apply last_of_month; [exact H|exact M|apply last_ok; assumption].
  - eexists. apply last_of_day. rewrite <- last_ok by assumption. congruence.
Qed.
Lemma lt_length x l n : utc_day (date_of x) -> minute_length x l -> ((inject_Z n < l)%Q <-> n * 10000 < length_of x).
Proof. intros D H. rewrite (length_ok x l D H). unfold Qlt, inject_Z. cbn [Qnum Qden]. lia. Qed.
Lemma exists_ok x : utc_exists x <-> utc_day (date_of x) /\ 0 <= hour (time_of x) < 24 /\ 0 <= minute (time_of x) < 60 /\ 0 <= second (time_of x) /\
  0 <= millisecond (time_of x) < 1000 /\ in_minute (time_of x) * 10000 < length_of x.
Proof.
  unfold utc_exists. split.
  - intros (D & A & B & S & M & l & L & E). rewrite (lt_length x l _ D L) in E. tauto.
  - intros (D & A & B & S & M & E). destruct (length_exists x D) as (l & L). rewrite <- (lt_length x l _ D L) in E. exact (conj D (conj A (conj B (conj S (conj M (ex_intro _ l (conj L E))))))). 
Qed.
(** The times that are wrongly rejected: in the last minute before a negative step, those in the last 50 or 100 ms of any second. *)
Definition rejected (x : date_time) : Prop :=
  exists y m k, (y = 1961 /\ m = 7 /\ k = 50 \/ y = 1968 /\ m = 1 /\ k = 100) /\
    year (date_of x) = y /\ month (date_of x) = m /\ day (date_of x) = 31 /\ hour (time_of x) = 23 /\ minute (time_of x) = 59 /\
    second (time_of x) < 59 /\ 1000 - k <= millisecond (time_of x).
Lemma stretchy_valid x : utc_day (date_of x) -> year (date_of x) < 1972 ->
  IsValidStretchyUTC x =
    (let k := month_number (date_of x) in let ms := millisecond (time_of x) in
     (negb (last (date_of x) && (k =? 12 * 1961 + 7)) || (hour (time_of x) <? 23) || (minute (time_of x) <? 59) || (ms <? 950)) &&
     (negb (last (date_of x) && (k =? 12 * 1968 + 1)) || (hour (time_of x) <? 23) || (minute (time_of x) <? 59) || (ms <? 900)) &&
     (negb (second (time_of x) =? 60) || (last (date_of x) && (0 <? stretchy_step k) && (ms * 10000 <? stretchy_step k)))).
Proof.
  intros (V & C & Y) Y'. unfold IsValidStretchyUTC, IsValidStretchyUTCIfOnDayOfNegativeLeap, IsValidPositiveStretchyUTCLeap, is_leap_second.
  rewrite !eqb_next_month by (assumption || lia). set (k := month_number (date_of x)). cbv zeta.
  destruct (Z.leb_spec 1961 (year (date_of x))); [|lia]. destruct (Z.ltb_spec (year (date_of x)) 1972); [|lia]. rewrite !andb_true_l.
  assert (E : forall a b, (k + 1 =? a + b) = (k =? a + (b - 1))) by (intros; apply eq_true_iff_eq; rewrite !Z.eqb_eq; lia).
  rewrite !E. change (8 - 1) with 7. change (2 - 1) with 1. change (11 - 1) with 10. change (4 - 1) with 3. change (9 - 1) with 8. change (3 - 1) with 2. change (7 - 1) with 6.
  change (12 * 1965 + (1 - 1)) with (12 * 1964 + 12). change (12 * 1972 + (1 - 1)) with (12 * 1971 + 12). change (1000 - 50) with 950. change (1000 - 100) with 900.
  unfold stretchy_step. clear E.
  destruct (last (date_of x)); [|destruct (second (time_of x) =? 60); reflexivity].
  destruct (second (time_of x) =? 60); [|reflexivity]. rewrite !andb_true_l. rewrite !orb_false_l. f_equal.
  destruct (k =? 12 * 1961 + 7) eqn:E1; [apply Z.eqb_eq in E1; rewrite E1; reflexivity|].
  destruct (k =? 12 * 1963 + 10) eqn:E2; [apply Z.eqb_eq in E2; rewrite E2; cbn; rewrite ?orb_false_r; reflexivity|].
  destruct (k =? 12 * 1964 + 3) eqn:E3; [apply Z.eqb_eq in E3; rewrite E3; cbn; rewrite ?orb_false_r; reflexivity|].
  destruct (k =? 12 * 1964 + 8) eqn:E4; [apply Z.eqb_eq in E4; rewrite E4; cbn; rewrite ?orb_false_r; reflexivity|].
  destruct (k =? 12 * 1964 + 12) eqn:E5; [apply Z.eqb_eq in E5; rewrite E5; cbn; rewrite ?orb_false_r; reflexivity|].
  destruct (k =? 12 * 1965 + 2) eqn:E6; [apply Z.eqb_eq in E6; rewrite E6; cbn; rewrite ?orb_false_r; reflexivity|].
  destruct (k =? 12 * 1965 + 6) eqn:E7; [apply Z.eqb_eq in E7; rewrite E7; cbn; rewrite ?orb_false_r; reflexivity|].
  destruct (k =? 12 * 1965 + 8) eqn:E8; [apply Z.eqb_eq in E8; rewrite E8; cbn; rewrite ?orb_false_r; reflexivity|].
  destruct (k =? 12 * 1968 + 1) eqn:E9; [apply Z.eqb_eq in E9; rewrite E9; reflexivity|].
  destruct (k =? 12 * 1971 + 12); reflexivity.
Qed.
Lemma step_not_announced d : valid d -> year d < 1972 -> month_number d <= 12 * 1971 + 12.
Proof. intros V Y. destruct (valid_days d V). unfold month_number. lia. Qed.
Lemma accepts x : utc_day (date_of x) -> valid_time (time_of x) -> hour (time_of x) <> 24 ->
  (second (time_of x) = 60 -> has_days Gregorian (year (date_of x)) (month (date_of x)) (day (date_of x))) -> ~ rejected x ->
  ((exists q, DateTimeAsUTC x = Some q) <-> utc_exists x).
Proof.
  intros D T H24 L R. pose proof D as (V & C & Y). rewrite <- last_ok in L by assumption. rewrite exists_ok.
  unfold DateTimeAsUTC, is_end_of_day. destruct (Z.eqb_spec (hour (time_of x)) 24); [contradiction|]. unfold DateTimeAsUTC_normal.
  unfold valid_time in T. destruct T as [T|T]; [lia|].
  assert (TT : 0 <= hour (time_of x) < 24 /\ 0 <= minute (time_of x) < 60 /\ 0 <= second (time_of x) <= 60) by lia.
  destruct (valid_days _ V) as [MV DV]. rewrite C in DV.
  destruct (Z.ltb_spec (year (date_of x)) 1972) as [Y'|Y'].
  - rewrite stretchy_valid by assumption. set (k := month_number (date_of x)). cbv zeta.
    assert (K : integer_step k = stretchy_step k).
    { unfold integer_step. replace (k <=? 12 * 1971 + 12) with true; [reflexivity|]. symmetry. apply Z.leb_le, step_not_announced; assumption. }
    unfold length_of. fold k. rewrite K.
    transitivity ((hour (time_of x) = 23 -> minute (time_of x) = 59 -> last (date_of x) = true -> in_minute (time_of x) * 10000 < 600000000 + stretchy_step k) /\
      (second (time_of x) = 60 -> last (date_of x) = true /\ hour (time_of x) = 23 /\ minute (time_of x) = 59)).
    + assert (R1 : last (date_of x) = true -> k = 12 * 1961 + 7 -> ~ (hour (time_of x) = 23 /\ minute (time_of x) = 59 /\ second (time_of x) < 59 /\ 950 <= millisecond (time_of x))).
      { intros LT E (A & B & S & M). apply R. exists 1961, 7, 50. unfold k, month_number in E. assert (year (date_of x) = 1961) by lia. assert (month (date_of x) = 7) by lia.
        unfold last in LT. apply Z.eqb_eq in LT. rewrite H, H0 in LT. change (Date_Model.month_length 1961 7 Gregorian) with 31 in LT. lia. }
      assert (R2 : last (date_of x) = true -> k = 12 * 1968 + 1 -> ~ (hour (time_of x) = 23 /\ minute (time_of x) = 59 /\ second (time_of x) < 59 /\ 900 <= millisecond (time_of x))).
      { intros LT E (A & B & S & M). apply R. exists 1968, 1, 100. unfold k, month_number in E. assert (year (date_of x) = 1968) by lia. assert (month (date_of x) = 1) by lia.
        unfold last in LT. apply Z.eqb_eq in LT. rewrite H, H0 in LT. change (Date_Model.month_length 1968 1 Gregorian) with 31 in LT. lia. }
      match goal with |- (exists q, (if ?b then _ else _) = _) <-> _ => transitivity (b = true) end.
      { destruct (_ && _); split; try congruence; [intros _; eexists; reflexivity|intros [q E]; discriminate]. }
      rewrite !andb_true_iff, !orb_true_iff, !negb_true_iff, !andb_false_iff, !Z.ltb_lt, !Z.eqb_neq. rewrite !andb_true_iff, !Z.ltb_lt. unfold in_minute.
      assert (S1 : k = 12 * 1961 + 7 -> stretchy_step k = -500000) by (intros ->; reflexivity).
      assert (S2 : k = 12 * 1968 + 1 -> stretchy_step k = -1000000) by (intros ->; reflexivity).
      assert (S3 : k <> 12 * 1961 + 7 -> k <> 12 * 1968 + 1 -> 0 <= stretchy_step k).
      { intros N1 N2. unfold stretchy_step. destruct (Z.eqb_spec k (12 * 1961 + 7)); [contradiction|]. destruct (Z.eqb_spec k (12 * 1968 + 1)); [contradiction|].
        repeat match goal with |- context [if ?b then _ else _] => destruct b end; lia. }
      set (st := stretchy_step k) in *. clearbody st k. clear R K DV MV V D C Y Y' H24 n. destruct (last (date_of x)).
      * specialize (R1 eq_refl). specialize (R2 eq_refl). destruct (Z.eq_dec k (12 * 1961 + 7)) as [E1|E1]; [|destruct (Z.eq_dec k (12 * 1968 + 1)) as [E2|E2]].
        -- specialize (S1 E1). specialize (R1 E1). clear S2 S3 R2. split; [intros ((A1 & A2) & A3); split; [intros; lia|]|intros (A1 & A2); split; [split|]].
           ++ intros S60. destruct A3 as [A3|((_ & A3) & _)]; lia.
           ++ destruct (Z.eq_dec (hour (time_of x)) 23) as [H1|H1], (Z.eq_dec (minute (time_of x)) 59) as [H2|H2]; try (assert (hour (time_of x) < 23 \/ minute (time_of x) < 59) by lia; tauto). 
              right. specialize (A1 H1 H2 eq_refl). lia.
           ++ left. left. left. right. subst k. lia.
           ++ left. intros S60. destruct (A2 S60) as (_ & H1 & H2). specialize (A1 H1 H2 eq_refl). lia.
        -- specialize (S2 E2). specialize (R2 E2). clear S1 S3 R1. split; [intros ((A1 & A2) & A3); split; [intros; lia|]|intros (A1 & A2); split; [split|]].
           ++ intros S60. destruct A3 as [A3|((_ & A3) & _)]; lia.
           ++ left. left. left. right. subst k. lia.
           ++ destruct (Z.eq_dec (hour (time_of x)) 23) as [H1|H1], (Z.eq_dec (minute (time_of x)) 59) as [H2|H2]; try (assert (hour (time_of x) < 23 \/ minute (time_of x) < 59) by lia; tauto). 
              right. specialize (A1 H1 H2 eq_refl). lia.
           ++ left. intros S60. destruct (A2 S60) as (_ & H1 & H2). specialize (A1 H1 H2 eq_refl). lia.
        -- specialize (S3 E1 E2). clear S1 S2 R1 R2. split; [intros ((A1 & A2) & A3); split|intros (A1 & A2); split; [split|]].
           ++ intros H1 H2 _. destruct A3 as [A3|(_ & A3)]; lia.
           ++ intros S60. split; [reflexivity|]. lia.
           ++ left. left. left. right. lia.
           ++ left. left. left. right. lia.
           ++ destruct (Z.eq_dec (second (time_of x)) 60) as [S60|S60]; [|left; exact S60]. right. destruct (A2 S60) as (_ & H1 & H2). specialize (A1 H1 H2 eq_refl).
              split; [split; [reflexivity|]|]; lia.
      * split.
        -- intros (_ & [A3|((A3 & _) & _)]); [|discriminate]. split; [discriminate|lia].
        -- intros (_ & A2). split; [split; left; left; left; left; reflexivity|]. left. intros S60. destruct (A2 S60) as (A & _). discriminate.
    + split.
      * intros (A1 & A2). split; [exact D|]. split; [lia|]. split; [lia|]. split; [lia|]. split; [lia|].
        unfold in_minute in *. destruct (Z.eqb_spec (hour (time_of x)) 23) as [H1|H1], (Z.eqb_spec (minute (time_of x)) 59) as [H2|H2]; cbn [andb];
          [destruct (last (date_of x))|..]; try (specialize (A1 H1 H2 eq_refl); lia);
          (destruct (Z.eq_dec (second (time_of x)) 60) as [S60|S60]; [destruct (A2 S60) as (A & B & C'); try discriminate; contradiction|lia]).
      * intros (_ & _ & _ & _ & _ & A). split.
        -- intros H1 H2 H3. rewrite H1, H2, H3 in A. exact A.
        -- intros S60. split; [exact (L S60)|lia].
  - transitivity (IsValidModernUTC x = Some true).
    { rewrite utc_minus_tai_ok by (assumption || lia). destruct (IsValidModernUTC x) as [[|]|]; split; try congruence; try (intros [q E]; discriminate). intros _. eexists. reflexivity. }
    rewrite modern_valid by assumption. unfold length_of, integer_step. set (k := month_number (date_of x)).
    assert (K : 12 * 1972 + 1 <= k) by (unfold k, month_number; lia). replace (k <=? 12 * 1971 + 12) with false by (symmetry; apply Z.leb_gt; lia).
    destruct (year_month_of (date_of x) MV) as [EY EM]. fold k in EY, EM. rewrite EY, EM. rewrite <- is_announced_ok. unfold in_minute.
    split.
    + intros A. split; [exact D|]. split; [lia|]. split; [lia|]. split; [lia|]. split; [lia|].
      destruct (Z.eq_dec (second (time_of x)) 60) as [S60|S60].
      * rewrite (L S60), (A S60). destruct T as (TM & [(-> & -> & _)|TT']); [|lia]. cbn [Z.eqb Pos.eqb andb]. lia.
      * destruct (_ && _); [|lia]. destruct (is_announced _ _); lia.
    + intros (_ & _ & _ & _ & _ & A) S60. rewrite (L S60), S60 in A. destruct T as (TM & [(E1 & E2 & _)|TT']); [|lia]. rewrite E1, E2 in A. cbn [Z.eqb Pos.eqb andb] in A.
      destruct (is_announced _ _); [reflexivity|lia].
Qed.

(** ** Elapsed time *)
Definition of_day (t : time_of_day) : Z := millisecond t + 1000 * (second t + 60 * (minute t + 60 * hour t)).
Definition offset_of (k : Z) : Q :=
  (if k <? 12 * 1961 + 8 then 14228180 # 10000000 else if k <? 12 * 1962 + 1 then 13728180 # 10000000
   else if k <? 12 * 1963 + 11 then 18458580 # 10000000 else if k <? 12 * 1964 + 1 then 19458580 # 10000000
   else if k <? 12 * 1964 + 4 then 32401300 # 10000000 else if k <? 12 * 1964 + 9 then 33401300 # 10000000
   else if k <? 12 * 1965 + 1 then 34401300 # 10000000 else if k <? 12 * 1965 + 3 then 35401300 # 10000000
   else if k <? 12 * 1965 + 7 then 36401300 # 10000000 else if k <? 12 * 1965 + 9 then 37401300 # 10000000
   else if k <? 12 * 1966 + 1 then 38401300 # 10000000 else if k <? 12 * 1968 + 2 then 43131700 # 10000000
   else 42131700 # 10000000)%Q.
Definition epoch_of (k : Z) : Z := if k <? 12 * 1962 + 1 then 37300 else if k <? 12 * 1964 + 1 then 37665 else if k <? 12 * 1966 + 1 then 38761 else 39126.
Definition rate_of (k : Z) : Q :=
  (if k <? 12 * 1962 + 1 then 1296 # 1000000 else if k <? 12 * 1964 + 1 then 11232 # 10000000
   else if k <? 12 * 1966 + 1 then 1296 # 1000000 else 2592 # 1000000)%Q.
Definition delta (k N t : Z) : Q :=
  (if k <? 12 * 1972 + 1 then offset_of k + (inject_Z (N - 2400001 - epoch_of k) + inject_Z t * (1 # 86400000)) * rate_of k
   else inject_Z (10 + count_before k))%Q.
Definition base (N t : Z) : Q := (inject_Z (t + 86400000 * (N - 2451545) - 43200000) * (1 # 1000))%Q.
Definition instant (k N t : Z) : Q := (base N t + delta k N t + (32184 # 1000))%Q.
Lemma since_ok x : utc_day (date_of x) -> milliseconds_since x = of_day (time_of x) + 86400000 * (number (date_of x) - 2451545) - 43200000.
Proof.
  intros (V & C & Y). unfold milliseconds_since, of_day, mjd. rewrite (exact (date_of x) V) by (apply utc_range; [exact C|lia]).
  change (jd (Date 2000 1 1 Gregorian)) with 2451545. lia.
Qed.
Lemma value_ok x q : utc_day (date_of x) -> DateTimeAsUTC_normal x = Some q -> (q == instant (month_number (date_of x)) (number (date_of x)) (of_day (time_of x)))%Q.
Proof.
  intros D H. pose proof D as (V & C & Y). destruct (valid_days _ V) as [MV _]. set (k := month_number (date_of x)). set (N := number (date_of x)). set (t := of_day (time_of x)).
  assert (SS : (TimeSince20000101T120000Z x == base N t)%Q).
  { unfold TimeSince20000101T120000Z, base. rewrite since_ok by exact D. fold N t. unfold inject_Z. reflexivity. }
  unfold DateTimeAsUTC_normal in H. unfold instant, delta. destruct (Z.ltb_spec (year (date_of x)) 1972) as [Y'|Y'].
  - destruct (IsValidStretchyUTC x); [|discriminate]. injection H as <-. unfold FromTAI, FromTT.
    replace (k <? 12 * 1972 + 1) with true by (symmetry; apply Z.ltb_lt; pose proof (step_not_announced _ V Y'); fold k in H; lia).
    unfold TAIMinusStretchyUTC, OffsetTAIMinusStretchyUTC, RateTAIMinusStretchyUTC, mjd_of_time. cbv zeta.
    rewrite !ltb_month by (assumption || lia). fold k. fold (offset_of k).
    assert (E : (base N t / inject_Z 86400 + (103089 # 2) == inject_Z (N - 2400001) + inject_Z t * (1 # 86400000))%Q).
    { unfold base. unfold Z.sub. rewrite !inject_Z_plus, inject_Z_mult, inject_Z_plus. unfold inject_Z at 2 4. cbn [Z.opp]. unfold Qdiv. change (/ inject_Z 86400)%Q with (1 # 86400)%Q. 
      unfold inject_Z. lra. }
    assert (E' : forall e : Z, (base N t / inject_Z 86400 + (103089 # 2) - inject_Z e == inject_Z (N - 2400001 - e) + inject_Z t * (1 # 86400000))%Q).
    { intros e. rewrite E. replace (N - 2400001 - e) with (N - 2400001 + - e) by lia. rewrite inject_Z_plus, inject_Z_opp. ring. }
    unfold epoch_of, rate_of. destruct (k <? 12 * 1962 + 1); [|destruct (k <? 12 * 1964 + 1); [|destruct (k <? 12 * 1966 + 1)]]; rewrite SS, E'; ring.
  - destruct (IsValidModernUTC x) as [[|]|]; try discriminate. rewrite utc_minus_tai_ok in H by (assumption || lia).
    assert (SI : forall a b : Q, Some a = Some b -> a = b) by congruence. apply SI in H. subst q. unfold FromTAI, FromTT. replace (k <? 12 * 1972 + 1) with false by (symmetry; apply Z.ltb_ge; unfold k, month_number; lia).
    rewrite <- (count_before_ok _ MV). fold k. rewrite SS. replace (-10 - count_before k) with (- (10 + count_before k)) by lia. rewrite inject_Z_opp. ring.
Qed.
Lemma month_change k : 12 * 1961 + 1 <= k <= 12 * 2022 + 11 ->
  (let N := number (Date (year_of (k + 1)) (month_of (k + 1)) 1 Gregorian) in
   Qeq_bool (delta (k + 1) N 0 - delta k N 0) (integer_step k # 10000000)) = true.
Proof. revert k. match goal with |- forall k, ?a <= k <= ?b -> @?P k = true => apply (nat_interval a b P) end. vm_compute. reflexivity. Qed.
Lemma rate_frequency d : 1 <= month d <= 12 -> year d < 1972 -> (rate_of (month_number d) == frequency_offset (year d) * inject_Z 86400)%Q.
Proof.
  intros M Y. unfold rate_of, frequency_offset.
  replace (month_number d <? 12 * 1962 + 1) with (year d <? 1962) by (unfold month_number; apply eq_true_iff_eq; rewrite !Z.ltb_lt; lia).
  replace (month_number d <? 12 * 1964 + 1) with (year d <? 1964) by (unfold month_number; apply eq_true_iff_eq; rewrite !Z.ltb_lt; lia).
  replace (month_number d <? 12 * 1966 + 1) with (year d <? 1966) by (unfold month_number; apply eq_true_iff_eq; rewrite !Z.ltb_lt; lia).
  replace (year d <? 1972) with true by (symmetry; apply Z.ltb_lt; exact Y).
  destruct (year d <? 1962); [reflexivity|]. destruct (year d <? 1964); [reflexivity|]. destruct (year d <? 1966); reflexivity.
Qed.
Lemma frequency_modern d : 1972 <= year d -> frequency_offset (year d) = 0%Q.
Proof.
  intros Y. unfold frequency_offset. destruct (Z.ltb_spec (year d) 1962); [lia|]. destruct (Z.ltb_spec (year d) 1964); [lia|].
  destruct (Z.ltb_spec (year d) 1966); [lia|]. destruct (Z.ltb_spec (year d) 1972); [lia|reflexivity].
Qed.
(** On one day, TAI runs faster by the frequency offset. *)
Lemma same_day_elapsed d t t' : utc_day d ->
  (instant (month_number d) (number d) t' - instant (month_number d) (number d) t == inject_Z (t' - t) * (1 # 1000) * (1 + frequency_offset (year d)))%Q.
Proof.
  intros (V & C & Y). destruct (valid_days _ V) as [M _]. unfold instant, base, delta.
  replace (t' + 86400000 * (number d - 2451545) - 43200000) with (t + 86400000 * (number d - 2451545) - 43200000 + (t' - t)) by lia. rewrite inject_Z_plus.
  assert (Et : (inject_Z t' == inject_Z t + inject_Z (t' - t))%Q) by (rewrite <- inject_Z_plus; replace (t + (t' - t)) with t' by lia; reflexivity).
  destruct (Z.ltb_spec (month_number d) (12 * 1972 + 1)) as [K|K].
  - assert (Y' : year d < 1972) by (unfold month_number in K; lia). rewrite (rate_frequency d M Y'), Et. change (inject_Z 86400) with (86400 # 1)%Q. ring.
  - rewrite frequency_modern by (unfold month_number in K; lia). ring.
Qed.
Lemma midnight d d' : utc_day d -> year d' <= 2022 -> follows d d' ->
  utc_day d' /\ number d' = number d + 1 /\
  (instant (month_number d') (number d') 0 - instant (month_number d) (number d) 86400000 ==
     (if last d then integer_step (month_number d) else 0) # 10000000)%Q.
Proof.
  intros D Y' F. pose proof D as (V & C & Y). destruct (follows_valid d d' V F) as (V' & C' & _). pose proof (number_follows d d' F) as EN.
  assert (D' : utc_day d') by (split; [exact V'|split; [congruence|]]; destruct (follows_valid d d' V F) as (_ & _ & Z); lia).
  split; [exact D'|]. split; [exact EN|].
  assert (G : (instant (month_number d) (number d') 0 == instant (month_number d) (number d) 86400000)%Q).
  { rewrite EN. unfold instant, base, delta. replace (0 + 86400000 * (number d + 1 - 2451545) - 43200000) with (86400000 + 86400000 * (number d - 2451545) - 43200000) by lia.
    destruct (_ <? _); [|reflexivity]. replace (number d + 1 - 2400001 - epoch_of (month_number d)) with (number d - 2400001 - epoch_of (month_number d) + 1) by lia.
    rewrite (inject_Z_plus _ 1). change (inject_Z 0) with 0%Q. change (inject_Z 86400000) with (86400000 # 1)%Q. change (inject_Z 1) with (1 # 1)%Q. ring. }
  rewrite <- G. clear G.
  assert (GG : forall k k' N, (instant k' N 0 - instant k N 0 == delta k' N 0 - delta k N 0)%Q) by (intros; unfold instant; ring). rewrite GG.
  destruct (last d) eqn:L.
  - assert (K : month_number d' = month_number d + 1 /\ day d' = 1).
    { unfold last in L. apply Z.eqb_eq in L. clear -L F C. destruct F as [y m dd c n H B|y m c n H B|y c]; cbn [year month day calendar] in *; unfold month_number; cbn [year month]; subst c.
      - apply has_days_ok in H. lia.
      - lia.
      - lia. }
    destruct K as [K E1]. destruct (valid_days _ V') as [M' _]. destruct (valid_days _ V) as [M _]. destruct (year_month_of d' M') as [EY EM].
    assert (R : 12 * 1961 + 1 <= month_number d <= 12 * 2022 + 11) by (unfold month_number in *; lia).
    pose proof (month_change _ R) as T. cbv zeta in T. rewrite <- K, EY, EM in T. apply Qeq_bool_iff in T.
    replace (Date (year d') (month d') 1 Gregorian) with d' in T by (destruct d'; cbn in *; congruence). exact T.
  - assert (K : month_number d' = month_number d).
    { unfold last in L. apply Z.eqb_neq in L. clear -L F C. destruct F as [y m dd c n H B|y m c n H B|y c]; cbn [year month day calendar] in *; unfold month_number; cbn [year month]; subst c.
      - reflexivity.
      - apply has_days_ok in H. lia.
      - exfalso. apply L. unfold Date_Model.month_length. rewrite andb_false_r. reflexivity. }
    rewrite K. unfold Qminus. rewrite Qplus_opp_r. reflexivity.
Qed.
Lemma small_offset y : (0 <= frequency_offset y <= 3 # 100000000)%Q.
Proof. unfold frequency_offset. repeat match goal with |- context [if ?b then _ else _] => destruct b end; split; unfold Qle; cbn; lia. Qed.
Lemma elapsed x y e q q' : utc_exists x -> utc_next x y e -> year (date_of y) <= 2022 -> DateTimeAsUTC x = Some q -> DateTimeAsUTC y = Some q' ->
  (date_of x = date_of y -> (q' - q == e * (1 # 1000) * (1 + frequency_offset (year (date_of x))))%Q) /\
  (1972 <= year (date_of x) -> (q' - q == e * (1 # 1000))%Q) /\
  (Qabs (q' - q - e * (1 # 1000)) <= 1 # 100000000)%Q.
Proof.
  intros X N Y2 Hx Hy. rewrite exists_ok in X. destruct X as (D & BH & BM & BS & BMS & LT).
  assert (FX : DateTimeAsUTC x = DateTimeAsUTC_normal x).
  { unfold DateTimeAsUTC, is_end_of_day. replace (hour (time_of x) =? 24) with false by (symmetry; apply Z.eqb_neq; lia). reflexivity. }
  rewrite FX in Hx. apply value_ok in Hx; [|exact D].
  assert (Common : forall n, date_of y = date_of x -> hour (time_of y) <> 24 -> of_day (time_of y) = of_day (time_of x) + n -> e = inject_Z n -> 0 <= n <= 1 ->
    (date_of x = date_of y -> (q' - q == e * (1 # 1000) * (1 + frequency_offset (year (date_of x))))%Q) /\
    (1972 <= year (date_of x) -> (q' - q == e * (1 # 1000))%Q) /\ (Qabs (q' - q - e * (1 # 1000)) <= 1 # 100000000)%Q).
  { intros n ED H24 ET -> Bn. assert (FY : DateTimeAsUTC y = DateTimeAsUTC_normal y).
    { unfold DateTimeAsUTC, is_end_of_day. replace (hour (time_of y) =? 24) with false by (symmetry; apply Z.eqb_neq; exact H24). reflexivity. }
    rewrite FY in Hy. apply value_ok in Hy; [|rewrite ED; exact D]. rewrite ED, ET in Hy.
    pose proof (same_day_elapsed (date_of x) (of_day (time_of x)) (of_day (time_of x) + n) D) as S. rewrite <- Hx, <- Hy in S.
    replace (of_day (time_of x) + n - of_day (time_of x)) with n in S by lia. pose proof (small_offset (year (date_of x))) as SO.
    split; [intros _; exact S|]. split; [intros Y; rewrite frequency_modern in S by exact Y; rewrite S; ring|].
    rewrite S. assert (QN : (0 <= inject_Z n <= 1)%Q) by (unfold Qle, inject_Z; cbn; lia).
    apply Qabs_Qle_condition. set (f := frequency_offset (year (date_of x))) in *. clearbody f.
    assert (M : (0 <= inject_Z n * f <= f)%Q) by (split; nra). split; lra. }
  destruct N as [d h m s ms s' ms' l Hl E B Lt|d h m B|d h B|d d' s ms l Hl Le F]; cbn [date_of time_of hour minute second millisecond] in *.
  - apply (Common 1); [reflexivity|lia|unfold of_day; cbn [hour minute second millisecond]; lia|reflexivity|lia].
  - apply (Common 1); [reflexivity|lia|unfold of_day; cbn [hour minute second millisecond]; lia|reflexivity|lia].
  - apply (Common 1); [reflexivity|lia|unfold of_day; cbn [hour minute second millisecond]; lia|reflexivity|lia].
  - clear Common. change (DateTimeAsUTC _) with (DateTimeAsUTC_normal (DateAndTime d' (Time 0 0 0 0))) in Hy.
    destruct (midnight d d' D Y2 F) as (D' & EN & S). apply value_ok in Hy; [|exact D']. cbn [date_of time_of] in Hy, Hx.
    change (of_day (Time 0 0 0 0)) with 0 in Hy.
    pose proof (same_day_elapsed d (of_day (Time 23 59 s ms)) 86400000 D) as S'. rewrite <- Hx in S'. rewrite <- Hy in S.
    replace (86400000 - of_day (Time 23 59 s ms)) with (60000 - (1000 * s + ms)) in S' by (unfold of_day; cbn [hour minute second millisecond]; lia).
    pose proof (length_ok (DateAndTime d (Time 23 59 s ms)) l D Hl) as EL. unfold length_of in EL, LT. cbn [date_of time_of hour minute] in EL, LT. cbn [Z.eqb Pos.eqb andb] in EL, LT.
    set (st := if last d then integer_step (month_number d) else 0) in *.
    assert (EL' : (l == inject_Z 60000 + (st # 10000))%Q).
    { rewrite EL. unfold st. destruct (last d); [|reflexivity]. unfold Qeq, Qplus, inject_Z. cbn [Qnum Qden]. lia. }
    assert (T : (q' - q == (l - inject_Z (1000 * s + ms)) * (1 # 1000) + inject_Z (60000 - (1000 * s + ms)) * (1 # 1000) * frequency_offset (year d))%Q).
    { rewrite EL'. transitivity ((q' - instant (month_number d) (number d) 86400000) + (instant (month_number d) (number d) 86400000 - q))%Q; [ring|]. rewrite S, S'.
      replace (60000 - (1000 * s + ms)) with (60000 + - (1000 * s + ms)) by lia. rewrite inject_Z_plus, inject_Z_opp.
      assert (ST : (st # 10000000 == (st # 10000) * (1 # 1000))%Q) by (unfold Qeq, Qmult; cbn [Qnum Qden]; lia). rewrite ST. ring. }
    split; [intros E; exfalso; subst d'; lia|]. split; [intros Y; rewrite T, frequency_modern by exact Y; ring|].
    rewrite T. pose proof (small_offset (year d)) as SO.
    apply Qabs_Qle_condition. destruct (Z_lt_ge_dec (year d) 1972) as [Y|Y].
    + assert (BB : -108 <= 60000 - (1000 * s + ms) <= 101).
      { rewrite EL in Le. unfold Qle, inject_Z in Le. cbn [Qnum Qden] in Le. unfold in_minute in LT. cbn [second millisecond] in LT.
        assert (S1 : -1000000 <= st <= 1077580).
        { unfold st. destruct (last d); [|lia]. unfold integer_step. replace (month_number d <=? 12 * 1971 + 12) with true by (symmetry; apply Z.leb_le, step_not_announced; [apply D|exact Y]).
          unfold stretchy_step. repeat match goal with |- context [if ?b then _ else _] => destruct b end; lia. }
        unfold st in S1. destruct (last d); lia. }
      assert (QB : (inject_Z (-108) <= inject_Z (60000 - (1000 * s + ms)) <= inject_Z 101)%Q) by (rewrite <- !Zle_Qle; exact BB).
      set (b := inject_Z (60000 - (1000 * s + ms))) in *. set (f := frequency_offset (year d)) in *. clearbody b f. change (inject_Z (-108)) with (-108 # 1)%Q in QB. change (inject_Z 101) with (101 # 1)%Q in QB.
      assert (M : (- (108 # 1) * f <= b * f <= (101 # 1) * f)%Q) by (split; nra).
      split; lra.
    + rewrite frequency_modern by lia. split; ring_simplify; unfold Qle; cbn; lia.
Qed.
Lemma end_of_day d d' : utc_day d -> year d' <= 2022 -> follows d d' ->
  DateTimeAsUTC (DateAndTime d (Time 24 0 0 0)) = DateTimeAsUTC (DateAndTime d' (Time 0 0 0 0)).
Proof.
  intros D Y F. pose proof D as (V & C & YD). unfold DateTimeAsUTC. cbn [is_end_of_day time_of hour Z.eqb Pos.eqb]. unfold normalized_end_of_day. cbn [is_end_of_day time_of hour Z.eqb Pos.eqb].
  unfold BeginningOfDay. change (hhmmss_ms 0 0) with (Ok (Time 0 0 0 0)). cbn [bind]. unfold DateTime. change (is_leap_second (Time 0 0 0 0)) with false. cbn [negb orb].
  cbn [date_of]. replace (next_day d) with d'; [reflexivity|].
  pose proof (next_day_follows d V C ltac:(lia)) as F'. clear -F F' V C.
  destruct (follows_valid d d' V F) as (V1 & C1 & _). destruct (follows_valid d _ V F') as (V2 & C2 & _).
  apply (number_order d' (next_day d)); [exact V1|exact V2|congruence|]. rewrite (number_follows _ _ F), (number_follows _ _ F'). reflexivity.
Qed.
Lemma negative_leap : exists x, utc_exists x /\ valid_time (time_of x) /\ DateTimeAsUTC x = None.
Proof.
  exists (DateAndTime (Date 1961 7 31 Gregorian) (Time 23 59 30 970)). split; [|split; [|vm_compute; reflexivity]].
  - apply exists_ok. split.
    + split; [|split; [reflexivity|cbn [date_of year]; lia]]. exists 31. split; [|cbn [date_of day]; lia]. cbn [date_of calendar year month]. apply thirty_one. lia.
    + cbn [time_of hour minute second millisecond]. repeat (split; [lia|]). vm_compute. reflexivity.
  - unfold valid_time. cbn [time_of hour minute second millisecond]. lia.
Qed.
