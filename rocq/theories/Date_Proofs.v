From Coq Require Import ZArith Znumtheory Bool Lia.
From Verif Require Import Date_Model.
Open Scope Z_scope.
Ltac Zify.zify_post_hook ::= Z.div_mod_to_equations.

(** ** Specification: the calendars *)
Definition leap (c : calendars) (y : Z) : Prop :=
  match c with Julian => (4 | y) | Gregorian => (4 | y) /\ (~ (100 | y) \/ (400 | y)) end.
(** The lengths of the months. *)
Inductive has_days (c : calendars) (y : Z) : Z -> Z -> Prop :=
| thirty m : m = 4 \/ m = 6 \/ m = 9 \/ m = 11 -> has_days c y m 30
| thirty_one m : m = 1 \/ m = 3 \/ m = 5 \/ m = 7 \/ m = 8 \/ m = 10 \/ m = 12 -> has_days c y m 31
| february_common : ~ leap c y -> has_days c y 2 28
| february_leap : leap c y -> has_days c y 2 29.
Definition valid (d : date) : Prop := exists n, has_days (calendar d) (year d) (month d) n /\ 1 <= day d <= n.
(** The calendar successor. *)
Inductive follows : date -> date -> Prop :=
| same_month y m d c n : has_days c y m n -> d < n -> follows (Date y m d c) (Date y m (d + 1) c)
| next_month y m c n : has_days c y m n -> m < 12 -> follows (Date y m n c) (Date y (m + 1) 1 c)
| next_year y c : follows (Date y 12 31 c) (Date (y + 1) 1 1 c).
(** The number of days in the months before [m]. *)
Inductive days_before (c : calendars) (y : Z) : Z -> Z -> Prop :=
| before_january : days_before c y 1 0
| before_next m n k : days_before c y m k -> has_days c y m n -> days_before c y (m + 1) (k + n).
Definition before (d d' : date) : Prop :=
  year d < year d' \/ (year d = year d' /\ (month d < month d' \/ (month d = month d' /\ day d < day d'))).

(** ** The months *)
Lemma leap_mod c y : leap c y <->
  match c with Julian => y mod 4 = 0 | Gregorian => y mod 4 = 0 /\ (y mod 100 <> 0 \/ y mod 400 = 0) end.
Proof.
  destruct c; cbn [leap]; rewrite <- !Z.mod_divide by lia; tauto.
Qed.
Lemma leap_year y c : is_leap_year y c = true <-> leap c y.
Proof.
  rewrite leap_mod. unfold is_leap_year. destruct c; cbn [is_julian].
  - rewrite Z.eqb_eq. rewrite Z.rem_mod_eq_0 by lia. tauto.
  - rewrite andb_true_iff, orb_true_iff, negb_true_iff, Z.eqb_neq, !Z.eqb_eq. rewrite !Z.rem_mod_eq_0 by lia. tauto.
Qed.
Lemma leap_dec c y : {leap c y} + {~ leap c y}.
Proof. destruct (is_leap_year y c) eqn:E; [left; apply leap_year; exact E|right; rewrite <- leap_year; congruence]. Qed.

Lemma has_days_month c y m n : has_days c y m n -> 1 <= m <= 12.
Proof. intros []; lia. Qed.
Lemma month_cases m : 1 <= m <= 12 -> m = 1 \/ m = 2 \/ m = 3 \/ m = 4 \/ m = 5 \/ m = 6 \/ m = 7 \/ m = 8 \/ m = 9 \/ m = 10 \/ m = 11 \/ m = 12.
Proof. lia. Qed.
Ltac months H := destruct (month_cases _ H) as [->|[->|[->|[->|[->|[->|[->|[->|[->|[->|[->| ->]]]]]]]]]]].
Lemma has_days_ok c y m n : has_days c y m n <-> 1 <= m <= 12 /\ n = month_length y m c.
Proof.
  unfold month_length. split.
  - intros H. split; [exact (has_days_month _ _ _ _ H)|]. destruct H as [m H|m H|H|H].
    + repeat (destruct H as [->|H]; [rewrite andb_false_r; reflexivity|]). subst. rewrite andb_false_r. reflexivity.
    + repeat (destruct H as [->|H]; [rewrite andb_false_r; reflexivity|]). subst. rewrite andb_false_r. reflexivity.
    + rewrite <- leap_year in H. destruct (is_leap_year y c); [congruence|reflexivity].
    + rewrite <- leap_year in H. rewrite H. reflexivity.
  - intros [H ->]. destruct (leap_dec c y) as [L|L].
    + pose proof L as L'. apply leap_year in L'. rewrite L'. months H; cbn [andb Z.eqb Pos.eqb non_leap_year_month_length];
        first [exact (february_leap c y L)|apply thirty_one; lia|apply thirty; lia].
    + assert (L' : is_leap_year y c = false) by (destruct (is_leap_year y c) eqn:E; [exfalso; apply L, leap_year, E|reflexivity]).
      rewrite L'. months H; cbn [andb Z.eqb Pos.eqb non_leap_year_month_length];
        first [exact (february_common c y L)|apply thirty_one; lia|apply thirty; lia].
Qed.
Lemma has_days_28 c y m n : has_days c y m n -> 28 <= n <= 31.
Proof. intros []; lia. Qed.

(** ** The number of a day *)
(** Meeus's formula with integer parts instead of truncations. *)
Definition computation_year (d : date) : Z := if month d <=? 2 then year d - 1 else year d.
Definition number (d : date) : Z :=
  let Y := computation_year d in
  let M := if month d <=? 2 then month d + 12 else month d in
  365 * Y + Y / 4 + (306001 * (M + 1)) / 10000 + day d + 1720995
  + (if is_julian (calendar d) then 0 else 2 - Y / 100 + Y / 400).
(** The years, starting in March, for which jd() is off by one. *)
Definition julian_error (d : date) : Z :=
  let Y := computation_year d in if (Y <? -4716) && negb (Y mod 4 =? 0) then 1 else 0.
Definition gregorian_error (d : date) : Z :=
  let Y := computation_year d in
  if negb (is_julian (calendar d)) && (Y <? 0) && (Y mod 100 =? 0) && negb (Y mod 400 =? 0) then 1 else 0.

Lemma quot_cases a b : 0 < b -> Z.quot a b = if 0 <=? a then a / b else - ((- a) / b).
Proof.
  intros B. destruct (Z.leb_spec 0 a); [apply Z.quot_div_nonneg; lia|].
  rewrite <- (Z.opp_involutive a) at 1. rewrite Z.quot_opp_l by lia. rewrite Z.quot_div_nonneg by lia. reflexivity.
Qed.

Lemma jd_error d : 1 <= month d <= 12 -> jd d = number d + julian_error d + gregorian_error d.
Proof.
  destruct d as [y m d c]. unfold jd, number, julian_error, gregorian_error, computation_year. cbn [year month day calendar]. intros H.
  set (Y := if m <=? 2 then y - 1 else y). clearbody Y. set (M := if m <=? 2 then m + 12 else m).
  assert (HM : 3 <= M <= 14) by (unfold M; destruct (Z.leb_spec m 2); lia). clearbody M.
  rewrite (Z.quot_div_nonneg (306001 * (M + 1))) by lia. set (F := 306001 * (M + 1) / 10000). clearbody F. clear HM H m y M.
  assert (J : Z.quot (1461 * (Y + 4716)) 4 = 365 * Y + Y / 4 + 1722519 + (if (Y <? -4716) && negb (Y mod 4 =? 0) then 1 else 0)).
  { rewrite quot_cases by lia. destruct (Z.leb_spec 0 (1461 * (Y + 4716))), (Z.ltb_spec Y (-4716)), (Z.eqb_spec (Y mod 4) 0);
      cbn [andb negb]; lia. }
  assert (G : 2 - Z.quot Y 100 + Z.quot (Z.quot Y 100) 4 = 2 - Y / 100 + Y / 400 +
    (if (Y <? 0) && (Y mod 100 =? 0) && negb (Y mod 400 =? 0) then 1 else 0)).
  { rewrite (quot_cases Y) by lia. destruct (Z.leb_spec 0 Y).
    - rewrite quot_cases by lia. destruct (Z.leb_spec 0 (Y / 100)); [|lia]. destruct (Z.ltb_spec Y 0); [lia|]. cbn [andb]. lia.
    - rewrite quot_cases by lia. destruct (Z.leb_spec 0 (- (- Y / 100))), (Z.ltb_spec Y 0), (Z.eqb_spec (Y mod 100) 0), (Z.eqb_spec (Y mod 400) 0);
      cbn [andb negb]; lia. }
  rewrite J. destruct c; cbn [is_julian negb andb]; lia.
Qed.

Ltac eval_months := cbn [month year day calendar Z.leb Z.compare Pos.compare Pos.compare_cont Z.add Pos.add Pos.succ Z.mul Pos.mul].
Lemma february c y : number (Date y 3 1 c) = number (Date y 2 1 c) + (if is_leap_year y c then 29 else 28).
Proof.
  assert (L := leap_year y c). rewrite leap_mod in L. unfold number, computation_year. cbn [month year day calendar].
  replace (3 <=? 2) with false by reflexivity. replace (2 <=? 2) with true by reflexivity.
  replace (306001 * (3 + 1) / 10000) with 122 by reflexivity. replace (306001 * (2 + 12 + 1) / 10000) with 459 by reflexivity.
  destruct c; cbn [is_julian] in *.
  - destruct (is_leap_year y Julian); lia.
  - destruct (is_leap_year y Gregorian); lia.
Qed.
Lemma number_follows d d' : follows d d' -> number d' = number d + 1.
Proof.
  intros [y m d0 c n H L|y m c n H L|y c].
  - unfold number, computation_year. cbn [month year day calendar]. lia.
  - apply has_days_ok in H. destruct H as [B ->].
    assert (B' : 1 <= m <= 12) by lia. months B'; try lia; unfold month_length; try rewrite andb_false_r;
      try (unfold number, computation_year; cbn [month year day calendar non_leap_year_month_length]; vm_compute (_ <=? _);
           lazy beta iota; vm_compute (306001 * _ / _); lia).
    pose proof (february c y) as F. replace (2 + 1) with 3 by reflexivity. rewrite F.
    replace (number (Date y 2 (if is_leap_year y c && (2 =? 2) then 29 else non_leap_year_month_length 2) c)) with
      (number (Date y 2 1 c) + (if is_leap_year y c then 29 else 28) - 1); [lia|].
    unfold number, computation_year. cbn [month year day calendar]. destruct (is_leap_year y c); cbn [andb Z.eqb Pos.eqb non_leap_year_month_length]; lia.
  - unfold number, computation_year. cbn [month year day calendar]. replace (12 <=? 2) with false by reflexivity.
    replace (1 <=? 2) with true by reflexivity. replace (y + 1 - 1) with y by lia.
    replace (306001 * (1 + 12 + 1) / 10000) with 428 by reflexivity. replace (306001 * (12 + 1) / 10000) with 397 by reflexivity. lia.
Qed.

Lemma successor d : valid d -> exists d', follows d d' /\ valid d' /\ calendar d' = calendar d /\ computation_year d <= computation_year d'.
Proof.
  destruct d as [y m d c]. intros [n [H B]]. cbn [year month day calendar] in *.
  pose proof (has_days_28 _ _ _ _ H) as N. pose proof (has_days_month _ _ _ _ H) as M.
  destruct (Z.eq_dec d n) as [->|D].
  - destruct (Z.eq_dec m 12) as [->|M'].
    + exists (Date (y + 1) 1 1 c). assert (n = 31) as -> by (apply has_days_ok in H; destruct H as [_ ->]; unfold month_length; rewrite andb_false_r; reflexivity).
      split; [constructor|]. split; [exists 31; split; [apply thirty_one; cbn; lia|cbn; lia]|]. split; [reflexivity|].
      unfold computation_year; cbn; lia.
    + exists (Date y (m + 1) 1 c). split; [apply next_month; [exact H|lia]|].
      split; [|split; [reflexivity|unfold computation_year; cbn [month year]; destruct (Z.leb_spec m 2), (Z.leb_spec (m + 1) 2); lia]].
      exists (month_length y (m + 1) c). assert (has_days c y (m + 1) (month_length y (m + 1) c)) as H' by (apply has_days_ok; split; [lia|reflexivity]).
      pose proof (has_days_28 _ _ _ _ H'). split; [exact H'|cbn; lia].
  - exists (Date y m (d + 1) c). split; [apply (same_month y m d c n H); lia|].
    split; [exists n; split; [exact H|cbn; lia]|]. split; [reflexivity|unfold computation_year; cbn; lia].
Qed.
Lemma all_after d0 : valid d0 -> forall z, number d0 <= z ->
  exists d, valid d /\ number d = z /\ calendar d = calendar d0 /\ computation_year d0 <= computation_year d.
Proof.
  intros V. apply (Zlt_lower_bound_ind (fun z => exists d, valid d /\ number d = z /\ calendar d = calendar d0 /\ computation_year d0 <= computation_year d)).
  intros z IH L. destruct (Z.eq_dec z (number d0)) as [->|N].
  - exists d0. split; [exact V|]. split; [reflexivity|]. split; [reflexivity|lia].
  - destruct (IH (z - 1)) as (d & V' & E & C & Y); [lia|]. destruct (successor d V') as (d' & F & V'' & C' & Y').
    exists d'. split; [exact V''|]. rewrite (number_follows _ _ F). split; [lia|]. split; [congruence|lia].
Qed.

(** The calendar returned by Date::JD. *)
Definition civil (d : date) : Prop := match calendar d with Julian => number d < 2299161 | Gregorian => 2299161 <= number d end.

Lemma JD_fields Y M d : -4716 <= Y -> 3 <= M <= 14 -> 1 <= d <= (if M =? 14 then if (Y + 1) mod 4 =? 0 then 29 else 28 else month_length 1 (if M <=? 12 then M else M - 12) Julian) ->
  let B := 365 * Y + Y / 4 + (306001 * (M + 1)) / 10000 + d + 1722519 in
  let C := Z.quot (20 * B - 2442) 7305 in
  let D := Z.quot (1461 * C) 4 in
  let E := Z.quot (10000 * (B - D)) 306001 in
  C = Y + 4716 /\ E = M + 1 /\ B - D - Z.quot (306001 * E) 10000 = d.
Proof.
  intros HY HM Hd B C D E.
  assert (HC : C = Y + 4716).
  { subst C B. clear D E. rewrite quot_cases by lia.
    assert (K : M = 3 \/ M = 4 \/ M = 5 \/ M = 6 \/ M = 7 \/ M = 8 \/ M = 9 \/ M = 10 \/ M = 11 \/ M = 12 \/ M = 13 \/ M = 14) by lia.
    destruct (Z.eqb_spec M 14) as [->|N14].
    - replace (306001 * (14 + 1) / 10000) with 459 by reflexivity. destruct (Z.eqb_spec ((Y + 1) mod 4) 0);
        destruct (Z.leb_spec 0 (20 * (365 * Y + Y / 4 + 459 + d + 1722519) - 2442)); lia.
    - assert (1 <= d <= 31 /\ 122 <= 306001 * (M + 1) / 10000 <= 428) as [Hd' HF].
      { destruct K as [->|[->|[->|[->|[->|[->|[->|[->|[->|[->|[->| ->]]]]]]]]]]]; try lia;
          match type of Hd with _ <= _ <= ?u => let v := eval vm_compute in u in change u with v in Hd end; (split; [lia|vm_compute; split; discriminate]). }
      set (F := 306001 * (M + 1) / 10000) in *. clearbody F. clear K Hd.
      destruct (Z.leb_spec 0 (20 * (365 * Y + Y / 4 + F + d + 1722519) - 2442)); lia. }
  assert (HD : D = 365 * Y + Y / 4 + 1722519).
  { subst D. rewrite HC, Z.quot_div_nonneg by lia. lia. }
  assert (HBD : B - D = 306001 * (M + 1) / 10000 + d) by (rewrite HD; subst B; lia).
  assert (HE : E = M + 1 /\ B - D - Z.quot (306001 * E) 10000 = d).
  { subst E. rewrite HBD. clear HBD HD HC. clearbody B C D. 
    assert (K : M = 3 \/ M = 4 \/ M = 5 \/ M = 6 \/ M = 7 \/ M = 8 \/ M = 9 \/ M = 10 \/ M = 11 \/ M = 12 \/ M = 13 \/ M = 14) by lia.
    assert (HE : Z.quot (10000 * (306001 * (M + 1) / 10000 + d)) 306001 = M + 1).
    { destruct K as [->|[->|[->|[->|[->|[->|[->|[->|[->|[->|[->| ->]]]]]]]]]]];
        match goal with |- context [306001 * ?a / 10000] => let v := eval vm_compute in (306001 * a / 10000) in change (306001 * a / 10000) with v end;
        rewrite Z.quot_div_nonneg by lia;
        match type of Hd with _ <= _ <= (if 14 =? 14 then _ else _) => change (14 =? 14) with true in Hd; cbv iota in Hd; destruct (_ =? _) in Hd; lia
        | _ <= _ <= ?u => let v := eval vm_compute in u in change u with v in Hd; lia end. }
    split; [exact HE|]. rewrite HE. rewrite Z.quot_div_nonneg by lia. lia. }
  split; [exact HC|exact HE].
Qed.

Lemma valid_month d : valid d -> 1 <= month d <= 12.
Proof. intros (n & H & _). exact (has_days_month _ _ _ _ H). Qed.
(** The day fits in the corresponding month of the Julian calendar. *)
Lemma valid_fields d : valid d ->
  let Y := computation_year d in let M := if month d <=? 2 then month d + 12 else month d in
  3 <= M <= 14 /\
  1 <= day d <= (if M =? 14 then if (Y + 1) mod 4 =? 0 then 29 else 28 else month_length 1 (if M <=? 12 then M else M - 12) Julian).
Proof.
  destruct d as [y m d c]. intros (n & H & B). unfold computation_year. cbn [year month day calendar] in *.
  apply has_days_ok in H. destruct H as [M ->]. split; [destruct (Z.leb_spec m 2); lia|].
  assert (L := leap_year y c). rewrite leap_mod in L. unfold month_length in *.
  months M; try (rewrite andb_false_r in B;
    match goal with |- _ <= _ <= ?u => let v := eval vm_compute in u in change u with v end;
    match type of B with _ <= _ <= ?u => let v := eval vm_compute in u in change u with v in B end; exact B).
  change (if (if 2 <=? 2 then 2 + 12 else 2) =? 14 then ?a else _) with a.
  replace (if 2 <=? 2 then y - 1 else y) with (y - 1) by reflexivity. replace (y - 1 + 1) with y by lia.
  change (if (if 2 <=? 2 then 2 + 12 else 2) =? 14 then if y mod 4 =? 0 then 29 else 28 else _) with (if y mod 4 =? 0 then 29 else 28).
  change (non_leap_year_month_length 2) with 28 in B.
  destruct (is_leap_year y c); cbn [andb Z.eqb Pos.eqb] in B; destruct (Z.eqb_spec (y mod 4) 0); destruct c; lia.
Qed.
Lemma century Y K : 0 <= Y -> 122 < K <= 488 ->
  (K = 488 -> (Y + 1) mod 4 = 0 /\ ((Y + 1) mod 100 <> 0 \/ (Y + 1) mod 400 = 0)) ->
  2299161 <= 365 * Y + Y / 4 + K + 1720995 + (2 - Y / 100 + Y / 400) ->
  Z.quot (4 * (365 * Y + Y / 4 + K + 1720995 + (2 - Y / 100 + Y / 400)) - 7468865) 146097 = Y / 100 - 4.
Proof.
  intros HY HK H488 H. rewrite Z.quot_div_nonneg by lia.
  symmetry. apply Z.div_unique with
    (r := 4 * (365 * Y + Y / 4 + K + 1720995 + (2 - Y / 100 + Y / 400)) - 7468865 - 146097 * (Y / 100 - 4)); [|lia].
  left. assert (E1 : Y / 4 = 25 * (Y / 100) + (Y mod 100) / 4) by lia.
  assert (E2 : Y = 100 * (Y / 100) + Y mod 100) by lia.
  set (a := Y / 100) in *. set (b := Y mod 100) in *. assert (Hb : 0 <= b < 100) by (subst b; lia).
  assert (E3 : Y / 400 = a / 4) by (subst a; lia). assert (E4 : (Y + 1) mod 4 = (b + 1) mod 4) by (subst b; lia).
  assert (E5 : b = 99 -> (Y + 1) mod 100 = 0) by (subst b; lia).
  assert (E6 : b = 99 -> (Y + 1) mod 400 = 0 -> (a + 1) mod 4 = 0) by (subst a b; lia).
  rewrite E3, E1. rewrite E4 in H488. clear E4 E3 E1. clearbody a b. subst Y. lia.
Qed.

Lemma JD_number d : valid d -> -4716 <= computation_year d -> civil d -> JD (number d) = d.
Proof.
  intros V HY Hc. destruct (valid_fields d V) as [HM Hd]. cbv zeta in HM, Hd. pose proof (valid_month d V) as Hm.
  destruct d as [y m d c]. unfold civil in Hc. cbn [calendar] in Hc.
  assert (HN : number (Date y m d c) = 365 * computation_year (Date y m d c) + computation_year (Date y m d c) / 4 +
    306001 * ((if m <=? 2 then m + 12 else m) + 1) / 10000 + d + 1720995 +
    (if is_julian c then 0 else 2 - computation_year (Date y m d c) / 100 + computation_year (Date y m d c) / 400)) by reflexivity.
  set (Y := computation_year (Date y m d c)) in *. cbn [month day] in *. set (M := if m <=? 2 then m + 12 else m) in *.
  pose proof (JD_fields Y M d HY HM Hd) as J. cbv zeta in J. unfold JD.
  assert (EC : (if number (Date y m d c) <? 2299161 then Julian else Gregorian) = c).
  { destruct c; [apply Z.ltb_lt in Hc|apply Z.ltb_ge in Hc]; rewrite Hc; reflexivity. }
  assert (EB : (if number (Date y m d c) <? 2299161 then number (Date y m d c) else
      let α := Z.quot (4 * number (Date y m d c) - 7468865) 146097 in number (Date y m d c) + 1 + α - Z.quot α 4) + 1524 =
      365 * Y + Y / 4 + (306001 * (M + 1)) / 10000 + d + 1722519).
  { destruct c; [apply Z.ltb_lt in Hc|pose proof Hc as Hc'; apply Z.ltb_ge in Hc]; rewrite Hc; clear EC; rewrite HN; cbn [is_julian] in *; cbv zeta.
    - lia.
    - assert (K : 122 < 306001 * (M + 1) / 10000 + d <= 488 /\
        (306001 * (M + 1) / 10000 + d = 488 -> (Y + 1) mod 4 = 0 /\ ((Y + 1) mod 100 <> 0 \/ (Y + 1) mod 400 = 0))).
      { unfold valid in V. destruct V as (n & Hn & Bn). cbn [year month day calendar] in Hn, Bn.
        assert (KM : M = 3 \/ M = 4 \/ M = 5 \/ M = 6 \/ M = 7 \/ M = 8 \/ M = 9 \/ M = 10 \/ M = 11 \/ M = 12 \/ M = 13 \/ M = 14) by lia.
        pose proof (has_days_28 _ _ _ _ Hn) as N28. 
        destruct (Z.eq_dec M 14) as [E14|N14].
        - assert (E2 : m = 2) by (subst M; destruct (Z.leb_spec m 2); lia). rewrite E14.
          replace (306001 * (14 + 1) / 10000) with 459 by reflexivity.
          assert (EY : Y + 1 = y) by (subst Y; unfold computation_year; cbn [month year]; rewrite E2; replace (2 <=? 2) with true by reflexivity; lia).
          rewrite EY. clear - Hn Bn E2. subst m. apply has_days_ok in Hn. destruct Hn as [_ Hn]. subst n. unfold month_length in Bn.
          assert (L := leap_year y Gregorian). rewrite leap_mod in L. cbn [non_leap_year_month_length] in Bn.
          replace (2 =? 2) with true in Bn by reflexivity.
          destruct (is_leap_year y Gregorian); cbn [andb] in Bn; split; try lia; intros; apply L; reflexivity.
        - assert (122 <= 306001 * (M + 1) / 10000 <= 428).
          { clear - KM N14. destruct KM as [->|[->|[->|[->|[->|[->|[->|[->|[->|[->|[->| ->]]]]]]]]]]]; try lia; vm_compute; split; discriminate. }
          split; lia. }
      destruct K as [K1 K2].
      assert (Hn : 2299161 <= 365 * Y + Y / 4 + (306001 * (M + 1) / 10000 + d) + 1720995 + (2 - Y / 100 + Y / 400)).
      { rewrite HN in Hc'. lia. }
      set (F := 306001 * (M + 1) / 10000) in *. 
      assert (HY0 : 0 <= Y) by (clear - Hn K1; lia).
      pose proof (century Y (F + d) HY0 K1 K2 Hn) as α.
      replace (365 * Y + Y / 4 + F + d + 1720995 + (2 - Y / 100 + Y / 400)) with
        (365 * Y + Y / 4 + (F + d) + 1720995 + (2 - Y / 100 + Y / 400)) by lia.
      rewrite α. assert (HA : 4 <= Y / 100) by (clear - Hn K1 HY0; lia). clearbody F. clear - HA HY0.
      rewrite Z.quot_div_nonneg by lia. lia. }
  cbv zeta in EB |- *. rewrite EC, EB. destruct J as (-> & -> & ->).
  assert (Em : (if M + 1 <? 14 then M + 1 - 1 else M + 1 - 13) = m).
  { subst M. destruct (Z.leb_spec m 2); [destruct (Z.ltb_spec (m + 12 + 1) 14)|destruct (Z.ltb_spec (m + 1) 14)]; lia. }
  rewrite Em. f_equal. subst Y. unfold computation_year. cbn [month year]. destruct (Z.leb_spec m 2), (Z.ltb_spec 2 m); lia.
Qed.

Lemma first_julian : valid (Date (-4716) 3 1 Julian).
Proof. exists 31. split; [apply thirty_one; cbn; lia|cbn; lia]. Qed.
Lemma first_gregorian : valid (Date 1582 10 15 Gregorian).
Proof. exists 31. split; [apply thirty_one; cbn; lia|cbn; lia]. Qed.
Lemma exact_julian d : valid d -> calendar d = Julian -> -4716 <= computation_year d -> jd d = number d.
Proof.
  intros V C Y. rewrite (jd_error d (valid_month d V)). unfold julian_error, gregorian_error. rewrite C. cbn [is_julian negb andb].
  destruct (Z.ltb_spec (computation_year d) (-4716)); [lia|]. cbn [andb]. lia.
Qed.
Lemma exact_late d : valid d -> -100 < computation_year d -> jd d = number d.
Proof.
  intros V Y. rewrite (jd_error d (valid_month d V)). unfold julian_error, gregorian_error.
  destruct (Z.ltb_spec (computation_year d) (-4716)); [lia|]. cbn [andb].
  destruct (Z.ltb_spec (computation_year d) 0); [|rewrite andb_false_r; cbn [andb]; lia].
  destruct (Z.eqb_spec (computation_year d mod 100) 0); [lia|]. rewrite !andb_false_r. cbn [andb]. lia.
Qed.

(** The day of every nonnegative Julian date. *)
Lemma JD_jd z : -1401 <= z -> valid (JD z) /\ jd (JD z) = z /\ number (JD z) = z /\
  calendar (JD z) = (if z <? 2299161 then Julian else Gregorian) /\ -4716 <= computation_year (JD z).
Proof.
  intros H. destruct (Z.ltb_spec z 2299161) as [L|L].
  - destruct (all_after _ first_julian z) as (d & V & E & C & Y); [exact H|].
    assert (HY : -4716 <= computation_year d) by exact Y.
    assert (JD z = d) as ->. { rewrite <- E. apply JD_number; [exact V|exact HY|]. unfold civil. rewrite C. cbn [calendar]. lia. }
    split; [exact V|]. split; [rewrite (exact_julian d V C HY); exact E|]. split; [exact E|]. split; [exact C|exact HY].
  - destruct (all_after _ first_gregorian z) as (d & V & E & C & Y); [exact L|].
    assert (HY : 1582 <= computation_year d) by exact Y.
    assert (JD z = d) as ->. { rewrite <- E. apply JD_number; [exact V|lia|]. unfold civil. rewrite C. cbn [calendar]. lia. }
    split; [exact V|]. split; [rewrite (exact_late d V); [exact E|lia]|]. split; [exact E|]. split; [exact C|lia].
Qed.

(** ** The order *)
Lemma number_day y m d e c : number (Date y m e c) = number (Date y m d c) + (e - d).
Proof. unfold number, computation_year. cbn [year month day calendar]. lia. Qed.
Lemma has_days_exists c y m : 1 <= m <= 12 -> has_days c y m (month_length y m c).
Proof. intros H. apply has_days_ok. auto. Qed.
Lemma month_order y c m m' : 1 <= m -> m < m' -> m' <= 12 -> number (Date y m (month_length y m c) c) < number (Date y m' 1 c).
Proof.
  intros H1 H2. assert (H3 : m + 1 <= m') by lia. clear H2. revert m' H3.
  apply (Zlt_lower_bound_ind (fun m' => m' <= 12 -> number (Date y m (month_length y m c) c) < number (Date y m' 1 c))).
  intros m' IH L U. destruct (Z.eq_dec m' (m + 1)) as [->|N].
  - rewrite (number_follows _ _ (next_month y m c _ (has_days_exists c y m ltac:(lia)) ltac:(lia))). lia.
  - assert (I := IH (m' - 1) ltac:(lia) ltac:(lia)).
    pose proof (number_follows _ _ (next_month y (m' - 1) c _ (has_days_exists c y (m' - 1) ltac:(lia)) ltac:(lia))) as F.
    replace (m' - 1 + 1) with m' in F by lia. rewrite (number_day y (m' - 1) 1) in F.
    pose proof (has_days_28 _ _ _ _ (has_days_exists c y (m' - 1) ltac:(lia))). lia.
Qed.
Lemma valid_days d : valid d -> 1 <= month d <= 12 /\ 1 <= day d <= month_length (year d) (month d) (calendar d).
Proof. intros (n & H & B). apply has_days_ok in H. destruct H as [M ->]. auto. Qed.
Lemma year_bounds d : valid d -> number (Date (year d) 1 1 (calendar d)) <= number d < number (Date (year d + 1) 1 1 (calendar d)).
Proof.
  intros V. apply valid_days in V. destruct d as [y m d c]. cbn [year month day calendar] in *. destruct V as [M D].
  assert (number (Date y 1 1 c) <= number (Date y m 1 c)).
  { destruct (Z.eq_dec m 1) as [->|N]; [lia|]. pose proof (month_order y c 1 m ltac:(lia) ltac:(lia) ltac:(lia)) as O.
    rewrite (number_day y 1 1) in O. pose proof (has_days_28 _ _ _ _ (has_days_exists c y 1 ltac:(lia))). lia. }
  assert (number (Date y m (month_length y m c) c) <= number (Date y 12 31 c)).
  { destruct (Z.eq_dec m 12) as [->|N]; [unfold month_length; rewrite andb_false_r; cbn [non_leap_year_month_length]; lia|].
    pose proof (month_order y c m 12 ltac:(lia) ltac:(lia) ltac:(lia)) as O. rewrite (number_day y 12 1 31). lia. }
  rewrite (number_follows _ _ (next_year y c)). rewrite (number_day y m 1 d). rewrite (number_day y m 1 (month_length y m c)) in *. lia.
Qed.
Lemma year_order y y' c : y <= y' -> number (Date y 1 1 c) <= number (Date y' 1 1 c).
Proof.
  revert y'. apply (Zlt_lower_bound_ind (fun y' => number (Date y 1 1 c) <= number (Date y' 1 1 c))).
  intros y' IH L. destruct (Z.eq_dec y' y) as [->|N]; [lia|]. specialize (IH (y' - 1) ltac:(lia)).
  assert (V : valid (Date (y' - 1) 1 1 c)) by (exists 31; split; [apply thirty_one; cbn; lia|cbn; lia]).
  pose proof (year_bounds _ V) as B. cbn [year calendar] in B. replace (y' - 1 + 1) with y' in B by lia. lia.
Qed.
Lemma number_before d d' : valid d -> valid d' -> calendar d = calendar d' -> before d d' -> number d < number d'.
Proof.
  intros V V' C B. destruct B as [B|[E B]].
  - pose proof (year_bounds d V) as H. pose proof (year_bounds d' V') as H'. rewrite C in H.
    pose proof (year_order (year d + 1) (year d') (calendar d') ltac:(lia)). lia.
  - apply valid_days in V, V'. destruct d as [y m d c], d' as [y' m' d' c']. cbn [year month day calendar] in *. subst y' c'.
    destruct B as [B|[<- B]].
    + pose proof (month_order y c m m' ltac:(lia) ltac:(lia) ltac:(lia)) as O. rewrite (number_day y m d (month_length y m c)) in O.
      rewrite (number_day y m' 1 d'). lia.
    + rewrite (number_day y m d d'). lia.
Qed.
Lemma before_total d d' : calendar d = calendar d' -> d = d' \/ before d d' \/ before d' d.
Proof.
  destruct d as [y m d c], d' as [y' m' d' c']. unfold before. cbn [year month day calendar]. intros ->.
  destruct (Z.eq_dec y y') as [->|]; [|lia]. destruct (Z.eq_dec m m') as [->|]; [|lia]. destruct (Z.eq_dec d d') as [->|]; [auto|lia].
Qed.
Lemma number_order d d' : valid d -> valid d' -> calendar d = calendar d' ->
  (number d < number d' <-> before d d') /\ (number d = number d' <-> d = d').
Proof.
  intros V V' C. destruct (before_total d d' C) as [->|[B|B]].
  - split; [|tauto]. split; [lia|]. intros [B|[_ [B|[_ B]]]]; lia.
  - pose proof (number_before d d' V V' C B). split; split; [tauto|lia|lia|].
    intros ->. lia.
  - symmetry in C. pose proof (number_before d' d V' V C B). split; split; [lia| |lia|intros ->; lia].
    intros B'. pose proof (number_before d d' V V' (eq_sym C) B'). lia.
Qed.

(** ** The operations *)
(** The years for which jd() is correct. *)
Definition in_range (d : date) : Prop := match calendar d with Julian => -4715 <= year d | Gregorian => -98 <= year d end.
Lemma computation_year_bounds d : year d - 1 <= computation_year d <= year d.
Proof. unfold computation_year. destruct (month d <=? 2); lia. Qed.
Lemma exact d : valid d -> in_range d -> jd d = number d.
Proof.
  intros V R. unfold in_range in R. pose proof (computation_year_bounds d). destruct (calendar d) eqn:C.
  - apply exact_julian; [exact V|exact C|lia].
  - apply exact_late; [exact V|lia].
Qed.
Lemma follows_valid d d' : valid d -> follows d d' -> valid d' /\ calendar d' = calendar d /\ year d <= year d'.
Proof.
  intros V F. destruct F as [y m d c n H L|y m c n H L|y c]; cbn [year calendar].
  - split; [|split; [reflexivity|lia]]. destruct V as (k & _ & B). cbn [day] in B. exists n. split; [exact H|cbn; lia].
  - split; [|split; [reflexivity|lia]]. pose proof (has_days_month _ _ _ _ H).
    pose proof (has_days_exists c y (m + 1) ltac:(lia)) as H'. pose proof (has_days_28 _ _ _ _ H').
    exists (month_length y (m + 1) c). split; [exact H'|cbn; lia].
  - split; [|split; [reflexivity|lia]]. exists 31. split; [apply thirty_one; cbn; lia|cbn; lia].
Qed.
Lemma in_range_follows d d' : valid d -> in_range d -> follows d d' -> in_range d'.
Proof.
  intros V R F. destruct (follows_valid d d' V F) as (_ & C & Y). unfold in_range in *. rewrite C. destruct (calendar d); lia.
Qed.
Lemma jd_follows d d' : valid d -> in_range d -> follows d d' -> jd d' = jd d + 1.
Proof.
  intros V R F. rewrite (exact d V R). rewrite (exact d'); [exact (number_follows _ _ F)| |exact (in_range_follows d d' V R F)].
  exact (proj1 (follows_valid d d' V F)).
Qed.
Lemma jd_bound d : valid d -> in_range d -> -1401 <= jd d.
Proof.
  intros V R. rewrite (exact d V R). destruct (year_bounds d V) as [H _]. unfold in_range in R. destruct (calendar d).
  - pose proof (year_order _ _ Julian R) as O. change (number (Date (-4715) 1 1 Julian)) with (-1095) in O. lia.
  - pose proof (year_order _ _ Gregorian R) as O. assert (0 <= number (Date (-98) 1 1 Gregorian)) by (vm_compute; discriminate). lia.
Qed.
(** A date in the civil calendar: Julian until 1582-10-04, Gregorian from 1582-10-15. *)
Definition civil_calendar (d : date) : Prop :=
  match calendar d with Julian => before d (Date 1582 10 5 Julian) | Gregorian => ~ before d (Date 1582 10 15 Gregorian) end.
Lemma civil_ok d : valid d -> civil_calendar d <-> civil d.
Proof.
  intros V. unfold civil_calendar, civil. destruct (calendar d) eqn:C.
  - assert (V' : valid (Date 1582 10 5 Julian)) by (exists 31; split; [apply thirty_one; cbn; lia|cbn; lia]).
    destruct (number_order d _ V V' C) as [O _]. change (number (Date 1582 10 5 Julian)) with 2299161 in O. tauto.
  - destruct (number_order d _ V first_gregorian C) as [O _]. change (number (Date 1582 10 15 Gregorian)) with 2299161 in O.
    rewrite <- O. lia.
Qed.
Lemma in_range_computation d : in_range d -> -4716 <= computation_year d.
Proof. unfold in_range. pose proof (computation_year_bounds d). destruct (calendar d); lia. Qed.
Lemma same_day d : valid d -> in_range d ->
  valid (JD (jd d)) /\ jd (JD (jd d)) = jd d /\ (civil_calendar d -> JD (jd d) = d).
Proof.
  intros V R. destruct (JD_jd (jd d) (jd_bound d V R)) as (V' & E & _). split; [exact V'|]. split; [exact E|].
  intros C. rewrite (exact d V R). apply JD_number; [exact V|exact (in_range_computation d R)|apply civil_ok; assumption].
Qed.
Lemma next_day_ok d : valid d -> in_range d ->
  valid (next_day d) /\ jd (next_day d) = jd d + 1 /\
  (civil_calendar d -> d <> Date 1582 10 4 Julian -> follows d (next_day d)).
Proof.
  intros V R. pose proof (jd_bound d V R) as B. unfold next_day. destruct (JD_jd (jd d + 1)) as (V' & E & _); [lia|].
  split; [exact V'|]. split; [exact E|]. intros C N. destruct (successor d V) as (d' & F & V'' & C' & Y').
  replace (JD (jd d + 1)) with d'; [exact F|]. rewrite <- (jd_follows d d' V R F).
  pose proof (in_range_follows d d' V R F) as R'. rewrite (exact d' V'' R'). symmetry.
  apply JD_number; [exact V''|exact (in_range_computation d' R')|]. apply (civil_ok d V) in C. unfold civil in *.
  rewrite C', (number_follows _ _ F). destruct (calendar d) eqn:K; [|lia].
  assert (number d <> 2299160); [|lia]. intros E'.
  assert (V4 : valid (Date 1582 10 4 Julian)) by (exists 31; split; [apply thirty_one; cbn; lia|cbn; lia]).
  apply N. apply (number_order d _ V V4 K). exact E'.
Qed.
Lemma days_before_number c y m k : days_before c y m k -> m <= 12 -> number (Date y m 1 c) = number (Date y 1 1 c) + k.
Proof.
  intros H. induction H as [|m n k H IH D]; intros L; [lia|].
  rewrite (number_follows _ _ (next_month y m c n D ltac:(lia))). rewrite (number_day y m 1 n), IH by lia. lia.
Qed.
Lemma january_1 d : in_range d -> valid (Date (year d) 1 1 (calendar d)) /\ in_range (Date (year d) 1 1 (calendar d)).
Proof. intros R. split; [exists 31; split; [apply thirty_one; cbn; lia|cbn; lia]|exact R]. Qed.
Lemma ordinal_ok d k : valid d -> in_range d -> days_before (calendar d) (year d) (month d) k -> ordinal d = k + day d.
Proof.
  intros V R H. unfold ordinal. destruct (january_1 d R) as [VJ RJ]. rewrite (exact d V R), (exact _ VJ RJ).
  pose proof (valid_month d V). destruct d as [y m d c]. cbn [year month day calendar] in *.
  rewrite (number_day y m 1 d). rewrite (days_before_number c y m k H) by lia. lia.
Qed.
Lemma ordinal_bounds d : valid d -> in_range d -> 1 <= ordinal d <= year_length (year d) (calendar d).
Proof.
  intros V R. unfold ordinal. destruct (january_1 d R) as [VJ RJ]. rewrite (exact d V R), (exact _ VJ RJ).
  pose proof (year_bounds d V) as B. set (y := year d) in *. set (c := calendar d) in *.
  enough (number (Date (y + 1) 1 1 c) = number (Date y 1 1 c) + year_length y c) by lia.
  rewrite (number_follows _ _ (next_year y c)). unfold year_length. clear.
  pose proof (february c y) as F. revert F. unfold number, computation_year. cbn [month year day calendar].
  replace (3 <=? 2) with false by reflexivity. replace (2 <=? 2) with true by reflexivity. replace (12 <=? 2) with false by reflexivity.
  replace (1 <=? 2) with true by reflexivity.
  replace (306001 * (3 + 1) / 10000) with 122 by reflexivity. replace (306001 * (2 + 12 + 1) / 10000) with 459 by reflexivity.
  replace (306001 * (12 + 1) / 10000) with 397 by reflexivity. replace (306001 * (1 + 12 + 1) / 10000) with 428 by reflexivity.
  destruct (is_leap_year y c); lia.
Qed.
Lemma Ordinal_ok d : valid d -> in_range d ->
  exists d', Ordinal (year d) (ordinal d) (Some (calendar d)) = Some d' /\ valid d' /\ jd d' = jd d /\ (civil_calendar d -> d' = d).
Proof.
  intros V R. pose proof (ordinal_bounds d V R) as B. unfold Ordinal. cbn [default_calendar].
  destruct B as [B1 B2]. apply Z.leb_le in B1, B2. rewrite B1, B2. cbn [andb]. exists (JD (jd d)). split.
  - unfold ordinal. do 2 f_equal. lia.
  - destruct (same_day d V R) as (V' & E & C). auto.
Qed.
Lemma Ordinal_default y n : Ordinal y n None = if 1583 <=? y then Ordinal y n (Some Gregorian) else None.
Proof. unfold Ordinal, default_calendar. destruct (1583 <=? y); reflexivity. Qed.
Lemma Ordinal_accepts y n c : (exists d, Ordinal y n (Some c) = Some d) <-> 1 <= n /\ (n <= 365 \/ (n = 366 /\ leap c y)).
Proof.
  unfold Ordinal, default_calendar, year_length. rewrite <- leap_year. destruct (Z.leb_spec 1 n), (is_leap_year y c).
  - destruct (Z.leb_spec n 366); cbn [andb]; split; [lia|eauto|intros [d H']; discriminate|lia].
  - destruct (Z.leb_spec n 365); cbn [andb]; split; [lia|eauto|intros [d H']; discriminate|intros [_ [K|[_ K]]]; [lia|discriminate]].
  - cbn [andb]. split; [intros [d H']; discriminate|lia].
  - cbn [andb]. split; [intros [d H']; discriminate|lia].
Qed.
Lemma Calendar_ok y m d c r : Calendar y m d (Some c) = Some r <-> r = Date y m d c /\ valid r /\ y <= 9999.
Proof.
  unfold Calendar, default_calendar.
  destruct ((y <=? 9999) && (1 <=? m) && (m <=? 12) && (1 <=? d) && (d <=? month_length y m c)) eqn:E.
  - rewrite !andb_true_iff, !Z.leb_le in E. split; [intros H; injection H as <-|intros (-> & _); reflexivity].
    split; [reflexivity|]. split; [|lia]. exists (month_length y m c). split; [apply has_days_exists; cbn; lia|cbn; lia].
  - split; [discriminate|]. intros (-> & V & L). apply valid_days in V. cbn [year month day calendar] in V.
    assert (((y <=? 9999) && (1 <=? m) && (m <=? 12) && (1 <=? d) && (d <=? month_length y m c)) = true); [|congruence].
    rewrite !andb_true_iff, !Z.leb_le. lia.
Qed.
Lemma Calendar_default y m d : Calendar y m d None = if 1583 <=? y then Calendar y m d (Some Gregorian) else None.
Proof. unfold Calendar, default_calendar. destruct (1583 <=? y); reflexivity. Qed.
Lemma order_ok d d' : valid d -> valid d' -> in_range d -> in_range d' -> calendar d = calendar d' ->
  (date_ltb d d' = true <-> before d d') /\ (date_eqb d d' = true <-> d = d').
Proof.
  intros V V' R R' C. unfold date_ltb, date_eqb. rewrite Z.ltb_lt, Z.eqb_eq, (exact d V R), (exact d' V' R').
  exact (number_order d d' V V' C).
Qed.

(** ** Weeks *)
(** 1582-10-15 was a Friday; 1 is Monday. *)
Inductive weekday : date -> Z -> Prop :=
| friday : weekday (Date 1582 10 15 Gregorian) 5
| next_weekday d d' w : weekday d w -> follows d d' -> weekday d' (if w =? 7 then 1 else w + 1).
Lemma weekday_number d w : weekday d w -> valid d /\ calendar d = Gregorian /\ 1582 <= year d /\ 2299161 <= number d /\
  1 <= w <= 7 /\ w mod 7 = (number d + 1) mod 7.
Proof.
  intros H. induction H as [|d d' w H (V & C & Y & N & B & E) F].
  - split; [exact first_gregorian|]. split; [reflexivity|]. split; [cbn; lia|]. split; [vm_compute; discriminate|]. split; [lia|reflexivity].
  - destruct (follows_valid d d' V F) as (V' & C' & Y'). rewrite (number_follows _ _ F). split; [exact V'|]. split; [congruence|].
    split; [lia|]. split; [lia|]. destruct (Z.eqb_spec w 7); lia.
Qed.
Lemma weekday_exists z : 2299161 <= z -> exists d w, weekday d w /\ number d = z.
Proof.
  revert z. apply (Zlt_lower_bound_ind (fun z => exists d w, weekday d w /\ number d = z)). intros z IH L.
  destruct (Z.eq_dec z 2299161) as [->|N]; [exists (Date 1582 10 15 Gregorian), 5; split; [constructor|reflexivity]|].
  destruct (IH (z - 1) ltac:(lia)) as (d & w & W & E). destruct (weekday_number d w W) as (V & _).
  destruct (successor d V) as (d' & F & _). exists d', (if w =? 7 then 1 else w + 1). split; [exact (next_weekday d d' w W F)|].
  rewrite (number_follows _ _ F). lia.
Qed.
Lemma weekday_ok d w : valid d -> calendar d = Gregorian -> 2299161 <= number d ->
  (weekday d w <-> 1 <= w <= 7 /\ w mod 7 = (number d + 1) mod 7).
Proof.
  intros V C N. split; [intros W; destruct (weekday_number d w W) as (_ & _ & _ & _ & B); exact B|].
  intros [B E]. destruct (weekday_exists (number d) N) as (d' & w' & W & E'). destruct (weekday_number d' w' W) as (V' & C' & _ & _ & B' & M).
  assert (d' = d) as -> by (apply (number_order d' d V' V); congruence).
  replace w with w'; [exact W|]. lia.
Qed.
Lemma late_range d : valid d -> calendar d = Gregorian -> 2299161 <= number d -> in_range d /\ jd d = number d /\ 1582 <= year d.
Proof.
  intros V C N. assert (Y : 1582 <= year d).
  { destruct (weekday_exists (number d) N) as (d' & w' & W & E'). destruct (weekday_number d' w' W) as (V' & C' & Y & _).
    assert (d' = d) as <- by (apply (number_order d' d V' V); congruence). exact Y. }
  assert (R : in_range d) by (unfold in_range; rewrite C; lia). split; [exact R|]. split; [exact (exact d V R)|exact Y].
Qed.
(** The Thursday of the week of [r], whose weekday is [d]. *)
Definition thursday_of_week (r : date) (d : Z) (t : date) : Prop := weekday t 4 /\ jd t = jd r + (4 - d).
(** ISO 8601: the week belongs to the year of its Thursday, the [w]-th of that year. *)
Definition iso_week (y w d : Z) (r : date) : Prop :=
  weekday r d /\ exists t, thursday_of_week r d t /\ year t = y /\ 7 * (w - 1) < ordinal t <= 7 * w.

Lemma mod2_mod a b : 0 < b -> mod2 a b = a mod b.
Proof.
  intros B. unfold mod2. pose proof (Z.rem_bound_abs a b ltac:(lia)).
  rewrite Z.rem_mod_nonneg by lia. rewrite <- Zplus_mod_idemp_r, Z.mod_same, Z.add_0_r by lia.
  pose proof (Z.quot_rem' a b) as Q. rewrite Q at 2. rewrite Z.add_comm, Z.mul_comm, Z.mod_add by lia. reflexivity.
Qed.
Lemma start_of_year y : 1583 <= y -> 2299239 <= number (Date y 1 1 Gregorian) /\
  jd (Date y 1 1 Gregorian) = number (Date y 1 1 Gregorian) /\
  number (Date (y + 1) 1 1 Gregorian) = number (Date y 1 1 Gregorian) + (if is_leap_year y Gregorian then 366 else 365).
Proof.
  intros Y. pose proof (year_order 1583 y Gregorian Y) as O. change (number (Date 1583 1 1 Gregorian)) with 2299239 in O.
  assert (V : valid (Date y 1 1 Gregorian)) by (exists 31; split; [apply thirty_one; cbn; lia|cbn; lia]).
  split; [exact O|]. split; [apply exact; [exact V|unfold in_range; cbn; lia]|].
  pose proof (february Gregorian y) as F. revert F. unfold number, computation_year. cbn [month year day calendar].
  replace (3 <=? 2) with false by reflexivity. replace (2 <=? 2) with true by reflexivity.
  replace (1 <=? 2) with true by reflexivity.
  replace (306001 * (3 + 1) / 10000) with 122 by reflexivity. replace (306001 * (2 + 12 + 1) / 10000) with 459 by reflexivity.
  replace (306001 * (1 + 12 + 1) / 10000) with 428 by reflexivity. replace (y + 1 - 1) with y by lia.
  destruct (is_leap_year y Gregorian); lia.
Qed.
(** The Monday of the first week. *)
Definition first_monday (y : Z) : Z := let J := number (Date y 1 1 Gregorian) in J + (4 - (J + 1) mod 7) mod 7 - 3.
Lemma Week_unfold y w d : 1583 <= y <= 9999 -> Week y w d =
  if (1 <=? w) && (w <=? (if first_monday y + 7 * 52 + 3 <? number (Date (y + 1) 1 1 Gregorian) then 53 else 52)) && (1 <=? d) && (d <=? 7)
  then Some (JD (first_monday y + 7 * (w - 1) + (d - 1))) else None.
Proof.
  intros Y. destruct (start_of_year y) as (N & E & L); [lia|].
  assert (C : Calendar y 1 1 None = Some (Date y 1 1 Gregorian)).
  { rewrite Calendar_default. destruct (Z.leb_spec 1583 y); [|lia]. apply Calendar_ok. split; [reflexivity|].
    split; [exists 31; split; [apply thirty_one; cbn; lia|cbn; lia]|lia]. }
  unfold Week, number_of_iso_weeks_in_year, ordinal_of_w_01_1, day_of_week_on_january_1st, mod3. rewrite C, E, L.
  destruct (Z.leb_spec 1583 y); [|lia]. rewrite !mod2_mod by lia. unfold first_monday. set (J := number (Date y 1 1 Gregorian)).
  replace (if ((J + 1) mod 7 =? 4) || (is_leap_year y Gregorian && ((J + 1) mod 7 =? 3)) then 53 else 52) with
    (if J + (4 - (J + 1) mod 7) mod 7 - 3 + 7 * 52 + 3 <? J + (if is_leap_year y Gregorian then 366 else 365) then 53 else 52).
  - destruct (_ && _); [|reflexivity]. f_equal. f_equal. replace (2 - (J + 1) mod 7 - -2) with (4 - (J + 1) mod 7) by lia. lia.
  - clearbody J. clear. destruct (is_leap_year y Gregorian);
      destruct (Z.ltb_spec (J + (4 - (J + 1) mod 7) mod 7 - 3 + 7 * 52 + 3) (J + 366)),
       (Z.ltb_spec (J + (4 - (J + 1) mod 7) mod 7 - 3 + 7 * 52 + 3) (J + 365)), (Z.eqb_spec ((J + 1) mod 7) 4), (Z.eqb_spec ((J + 1) mod 7) 3); cbn [andb orb]; lia.
Qed.
Lemma first_monday_bounds y : let J := number (Date y 1 1 Gregorian) in
  J - 3 <= first_monday y <= J + 3 /\ (first_monday y + 1) mod 7 = 1.
Proof. unfold first_monday. cbv zeta. lia. Qed.
Lemma week_ok y w d r : 1583 <= y <= 9999 -> (Week y w d = Some r <-> iso_week y w d r).
Proof.
  intros Y. rewrite (Week_unfold y w d Y). destruct (start_of_year y) as (N & E & L); [lia|].
  destruct (first_monday_bounds y) as [B M]. set (J := number (Date y 1 1 Gregorian)) in *.
  set (J' := number (Date (y + 1) 1 1 Gregorian)) in *. set (F := first_monday y) in *.
  assert (L' : J + 365 <= J' <= J + 366) by (destruct (is_leap_year y Gregorian); lia).
  assert (VJ : valid (Date y 1 1 Gregorian)) by (exists 31; split; [apply thirty_one; cbn; lia|cbn; lia]).
  split.
  - destruct (_ && _) eqn:A; [|discriminate]. rewrite !andb_true_iff, !Z.leb_le in A.
    intros H. assert (H' : r = JD (F + 7 * (w - 1) + (d - 1))) by congruence. rewrite H'. clear H H'. set (z := F + 7 * (w - 1) + (d - 1)).
    destruct (JD_jd z) as (Vr & Ejr & Er & Cr & _); [lia|]. destruct (Z.ltb_spec z 2299161); [lia|].
    assert (Wr : weekday (JD z) d) by (apply weekday_ok; [exact Vr|exact Cr|lia|]; rewrite Er; lia).
    set (z4 := F + 7 * (w - 1) + 3).
    destruct (JD_jd z4) as (Vt & Ejt & Et & Ct & _); [lia|]. destruct (Z.ltb_spec z4 2299161); [lia|].
    assert (Wt : weekday (JD z4) 4) by (apply weekday_ok; [exact Vt|exact Ct|lia|]; rewrite Et; lia).
    assert (Bt : J <= z4 < J').
    { split; [lia|]. destruct A as [[[A1 A2] A3] A4]. destruct (Z.ltb_spec (F + 7 * 52 + 3) J'); lia. }
    assert (Yt : year (JD z4) = y).
    { pose proof (year_bounds _ Vt) as YB. rewrite Et, Ct in YB.
      assert (~ year (JD z4) < y) by (intros K; pose proof (year_order (year (JD z4) + 1) y Gregorian ltac:(lia)); lia).
      assert (~ y < year (JD z4)) by (intros K; pose proof (year_order (y + 1) (year (JD z4)) Gregorian ltac:(lia)); lia). lia. }
    split; [exact Wr|]. exists (JD z4). split; [split; [exact Wt|]|].
    { rewrite Ejt, Ejr; lia. } split; [exact Yt|].
    unfold ordinal. rewrite Yt, Ct, Ejt, E. lia.
  - intros (Wr & t & (Wt & Ejt) & Yt & O). destruct (weekday_number _ _ Wr) as (Vr & Cr & _ & Nr & Br & Mr).
    destruct (weekday_number _ _ Wt) as (Vt & Ct & _ & Nt & _ & Mt).
    destruct (late_range r Vr Cr Nr) as (_ & Er & _). destruct (late_range t Vt Ct Nt) as (_ & Et & _).
    pose proof (year_bounds t Vt) as YB. rewrite Yt, Ct in YB. fold J J' in YB.
    unfold ordinal in O. rewrite Yt, Ct, E, Et in O. rewrite Er, Et in Ejt.
    assert (Z4 : number t = F + 7 * (w - 1) + 3) by lia.
    assert (A : (1 <=? w) && (w <=? (if F + 7 * 52 + 3 <? J' then 53 else 52)) && (1 <=? d) && (d <=? 7) = true).
    { rewrite !andb_true_iff, !Z.leb_le. destruct (Z.ltb_spec (F + 7 * 52 + 3) J'); lia. }
    rewrite A. f_equal. replace (F + 7 * (w - 1) + (d - 1)) with (number r) by lia.
    apply JD_number; [exact Vr| |unfold civil; rewrite Cr; exact Nr].
    destruct (late_range r Vr Cr Nr) as (_ & _ & Yr). pose proof (computation_year_bounds r). lia.
Qed.
Lemma week_years y w d r : Week y w d = Some r -> 1583 <= y <= 9999.
Proof.
  unfold Week, number_of_iso_weeks_in_year, day_of_week_on_january_1st. destruct (Z.leb_spec 1583 y); [|discriminate].
  rewrite Calendar_default. destruct (Z.leb_spec 1583 y); [|lia]. unfold Calendar. cbn [default_calendar].
  destruct (Z.leb_spec y 9999); [lia|discriminate].
Qed.
Lemma weeks_consecutive y w r : Week y w 7 = Some r -> y < 9999 ->
  Week y (w + 1) 1 = Some (next_day r) \/ (Week y (w + 1) 1 = None /\ Week (y + 1) 1 1 = Some (next_day r)).
Proof.
  intros H Y. pose proof (week_years _ _ _ _ H) as Y'. rewrite (Week_unfold y w 7 Y') in H.
  destruct ((1 <=? w) && _) eqn:A; [|discriminate].
  assert (H' : r = JD (first_monday y + 7 * (w - 1) + (7 - 1))) by (injection H as H; symmetry; exact H). rewrite H'. clear H H'.
  destruct (start_of_year y) as (N & E & L); [lia|]. destruct (start_of_year (y + 1)) as (N' & E' & L'); [lia|].
  destruct (first_monday_bounds y) as [B M]. destruct (first_monday_bounds (y + 1)) as [B' M']. cbv zeta in B, B'.
  rewrite (Week_unfold y (w + 1) 1) by lia. rewrite (Week_unfold (y + 1) 1 1) by lia. unfold next_day.
  set (F := first_monday y) in *. set (F' := first_monday (y + 1)) in *. set (J := number (Date y 1 1 Gregorian)) in *.
  set (J' := number (Date (y + 1) 1 1 Gregorian)) in *. set (J'' := number (Date (y + 1 + 1) 1 1 Gregorian)) in *.
  assert (P : jd (JD (F + 7 * (w - 1) + (7 - 1))) = F + 7 * w - 1).
  { rewrite !andb_true_iff, !Z.leb_le in A. destruct (JD_jd (F + 7 * (w - 1) + (7 - 1))) as (_ & -> & _); lia. }
  rewrite P. clear P. assert (LL : J + 365 <= J' <= J + 366) by (destruct (is_leap_year y Gregorian); lia).
  assert (LL' : J' + 365 <= J'' <= J' + 366) by (destruct (is_leap_year (y + 1) Gregorian); lia).
  rewrite !andb_true_iff, !Z.leb_le in A. replace ((1 <=? 1) && _ && (1 <=? 1) && (1 <=? 7)) with true.
  2: { destruct (Z.ltb_spec (F' + 7 * 52 + 3) J''); reflexivity. }
  destruct ((1 <=? w + 1) && _) eqn:K.
  - left. apply f_equal, f_equal. lia.
  - right. split; [reflexivity|]. apply f_equal, f_equal.
    assert (~ (w + 1 <= (if F + 7 * 52 + 3 <? J' then 53 else 52))).
    { intros Q. apply Z.leb_le in Q. rewrite Q in K. destruct (Z.leb_spec 1 (w + 1)); [discriminate|lia]. }
    destruct (Z.ltb_spec (F + 7 * 52 + 3) J'); lia.
Qed.
Lemma january_4th y d : 1583 <= y <= 9999 -> weekday (Date y 1 4 Gregorian) d -> Week y 1 d = Some (Date y 1 4 Gregorian).
Proof.
  intros Y W. rewrite (Week_unfold y 1 d Y). destruct (start_of_year y) as (N & E & L); [lia|].
  destruct (first_monday_bounds y) as [B M]. cbv zeta in B. destruct (weekday_number _ _ W) as (V & C & _ & N4 & Bd & Md).
  pose proof (number_day y 1 1 4 Gregorian) as E4.
  replace ((1 <=? 1) && _ && (1 <=? d) && (d <=? 7)) with true.
  2: { symmetry. rewrite !andb_true_iff, !Z.leb_le. destruct (_ <? _); lia. }
  rewrite <- (JD_number (Date y 1 4 Gregorian) V) at 1;
    [|pose proof (computation_year_bounds (Date y 1 4 Gregorian)) as K; cbn [year] in K; lia|unfold civil; cbn [calendar]; exact N4].
  apply f_equal, f_equal. lia.
Qed.
