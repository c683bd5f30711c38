From Coq Require Import ZArith Bool List Ascii Lia.
From Verif Require Import Date_Model Date_Proofs DateText_Model.
Import ListNotations.
Local Open Scope char_scope.
Open Scope Z_scope.
Ltac Zify.zify_post_hook ::= Z.div_mod_to_equations.

(** ** Specification: the documented representations *)
Definition digit (k : Z) : ascii := nth (Z.to_nat k) ["0"; "1"; "2"; "3"; "4"; "5"; "6"; "7"; "8"; "9"] "0".
(** The decimal representation of [v] on [n] digits. *)
Fixpoint numeral (n : nat) (v : Z) : list ascii := match n with O => [] | S n => numeral n (v / 10) ++ [digit (v mod 10)] end.
Definition fits (n : nat) (v : Z) : Prop := 0 <= v < 10 ^ Z.of_nat n.
Definition prefix_text (c : option calendars) : list ascii := match c with None => [] | Some Julian => ["J"] | Some Gregorian => ["G"] end.
Inductive sign := NoSign | Plus | Minus.
Definition sign_text (s : sign) : list ascii := match s with NoSign => [] | Plus => ["+"] | Minus => ["-"] end.
Definition signed (s : sign) (y : Z) : Z := match s with Minus => - y | _ => y end.
(** The separators of the extended format. *)
Definition dash (extended : bool) : list ascii := if extended then ["-"] else [].
Definition colon (extended : bool) : list ascii := if extended then [":"] else [].
(** The format of a date. *)
Inductive date_format := YMD | YD | YWD.
Inductive date_text : date_format -> bool -> option calendars -> sign -> list ascii -> date -> Prop :=
| year_month_day x c g y m d r : fits 4 y -> fits 2 m -> fits 2 d -> Calendar (signed g y) m d c = Some r ->
    date_text YMD x c g (prefix_text c ++ sign_text g ++ numeral 4 y ++ dash x ++ numeral 2 m ++ dash x ++ numeral 2 d) r
| year_day x c g y n r : fits 4 y -> fits 3 n -> Ordinal (signed g y) n c = Some r ->
    date_text YD x c g (prefix_text c ++ sign_text g ++ numeral 4 y ++ dash x ++ numeral 3 n) r
| year_week_day x g y w d r : fits 4 y -> fits 2 w -> fits 1 d -> Week (signed g y) w d = Some r ->
    date_text YWD x None g (sign_text g ++ numeral 4 y ++ dash x ++ ["W"] ++ numeral 2 w ++ dash x ++ numeral 1 d) r.
(** A time of day of ISO 8601. *)
Definition valid_time (t : time_of_day) : Prop :=
  (hour t = 24 /\ minute t = 0 /\ second t = 0 /\ millisecond t = 0) \/
  (0 <= millisecond t < 1000 /\
   ((hour t = 23 /\ minute t = 59 /\ second t = 60) \/ (0 <= hour t < 24 /\ 0 <= minute t < 60 /\ 0 <= second t < 60))).
(** hh:mm:ss with [decimals] decimals; no decimal mark for [None]. *)
Inductive time_text (x : bool) : option nat -> list ascii -> time_of_day -> Prop :=
| hms h m s : fits 2 h -> fits 2 m -> fits 2 s -> valid_time (Time h m s 0) ->
    time_text x None (numeral 2 h ++ colon x ++ numeral 2 m ++ colon x ++ numeral 2 s) (Time h m s 0)
| hms_decimals h m s k f mark : fits 2 h -> fits 2 m -> fits 2 s -> (k <= 3)%nat -> fits k f -> mark = "," \/ mark = "." ->
    valid_time (Time h m s (f * 10 ^ Z.of_nat (3 - k))) ->
    time_text x (Some k) (numeral 2 h ++ colon x ++ numeral 2 m ++ colon x ++ numeral 2 s ++ [mark] ++ numeral k f)
      (Time h m s (f * 10 ^ Z.of_nat (3 - k))).

(** ** Digits *)
Lemma digit_cases c : is_digit c = true -> exists k, 0 <= k <= 9 /\ c = digit k /\ Z.of_N (N_of_ascii c) = 48 + k.
Proof.
  destruct c as [[] [] [] [] [] [] [] []]; intros H; try discriminate H;
    first [exists 0; split; [lia|split; reflexivity]|exists 1; split; [lia|split; reflexivity]|exists 2; split; [lia|split; reflexivity]
          |exists 3; split; [lia|split; reflexivity]|exists 4; split; [lia|split; reflexivity]|exists 5; split; [lia|split; reflexivity]
          |exists 6; split; [lia|split; reflexivity]|exists 7; split; [lia|split; reflexivity]|exists 8; split; [lia|split; reflexivity]
          |exists 9; split; [lia|split; reflexivity]].
Qed.
Lemma ten k : 0 <= k <= 9 -> k = 0 \/ k = 1 \/ k = 2 \/ k = 3 \/ k = 4 \/ k = 5 \/ k = 6 \/ k = 7 \/ k = 8 \/ k = 9.
Proof. lia. Qed.
Ltac tens H := destruct (ten _ H) as [->|[->|[->|[->|[->|[->|[->|[->|[->| ->]]]]]]]]].
Lemma digit_ok k : 0 <= k <= 9 -> is_digit (digit k) = true /\ Z.of_N (N_of_ascii (digit k)) = 48 + k /\ digit_char k = digit k.
Proof. intros H. tens H; repeat split; reflexivity. Qed.
Lemma digit_neq k c : 0 <= k <= 9 -> is_digit c = false -> Ascii.eqb (digit k) c = false.
Proof.
  intros H C. destruct (Ascii.eqb_spec (digit k) c) as [E|]; [|reflexivity]. rewrite <- E in C. destruct (digit_ok k H) as [D _]. congruence.
Qed.
Lemma numeral_app n m u v : fits m v -> numeral (n + m) (u * 10 ^ Z.of_nat m + v) = numeral n u ++ numeral m v.
Proof.
  revert v. induction m as [|m IH]; intros v H.
  - unfold fits in H. cbn [numeral]. rewrite Nat.add_0_r, app_nil_r. replace (u * 10 ^ Z.of_nat 0 + v) with u; [reflexivity|].
    change (Z.of_nat 0) with 0 in *. rewrite Z.pow_0_r in *. lia.
  - rewrite Nat.add_succ_r. cbn [numeral]. unfold fits in H. rewrite Nat2Z.inj_succ, Z.pow_succ_r in * by lia.
    rewrite app_assoc, <- IH by (unfold fits; split; [apply Z.div_pos; lia|apply Z.div_lt_upper_bound; lia]).
    set (p := 10 ^ Z.of_nat m) in *. replace (u * (10 * p) + v) with (v + (u * p) * 10) by lia.
    rewrite Z.mod_add, Z.div_add by lia. do 2 f_equal. lia.
Qed.

(** ** The scanner *)
Section Scanner.
Variables sep mark : ascii -> bool.
Hypothesis sep_mark : forall c, sep c = true -> mark c = false.
Hypothesis digit_sep : forall c, is_digit c = true -> sep c = false /\ mark c = false.
Definition allowed (c : ascii) : Prop := sep c = true \/ mark c = true \/ is_digit c = true.
Fixpoint positions (f : ascii -> bool) (s : list ascii) (i : Z) : list Z :=
  match s with [] => [] | c :: r => if f c then i :: positions f r (i + 1) else positions f r (i + 1) end.
Definition value_step (v : Z) (c : ascii) : Z := if is_digit c then v * 10 + Z.of_N (N_of_ascii c) - 48 else v.
Definition value (s : list ascii) (v : Z) : Z := fold_left value_step s v.
Definition count_digits (s : list ascii) : Z := Z.of_nat (length (filter is_digit s)).
Definition describe (s : list ascii) : parser :=
  let p := positions sep s 0 in let q := positions mark s 0 in
  Parser (value s 0) (count_digits s) (Z.of_nat (length p)) (nth 0 p (-1)) (nth 1 p (-1))
    (match q with [] => false | _ => true end) (nth 0 q (-1)).

(** The state of the scanner after [l], given the positions so far. *)
Definition state (v n : Z) (p q : list Z) : parser :=
  Parser v n (Z.of_nat (length p)) (nth 0 p (-1)) (nth 1 p (-1)) (match q with [] => false | _ => true end) (nth 0 q (-1)).
Lemma read_state s : forall i v n p q, (length p <= 2)%nat -> (length q <= 1)%nat ->
  forall r, ReadToEnd sep mark s i (state v n p q) = Ok r ->
  Forall allowed s /\ (length (p ++ positions sep s i) <= 2)%nat /\ (length (q ++ positions mark s i) <= 1)%nat /\
  r = state (value s v) (n + count_digits s) (p ++ positions sep s i) (q ++ positions mark s i).
Proof.
  induction s as [|c s IH]; intros i v n p q HP HQ r H.
  - cbn in H. injection H as <-. cbn [positions]. rewrite !app_nil_r. split; [constructor|]. split; [exact HP|]. split; [exact HQ|].
    unfold count_digits, value. cbn. rewrite Z.add_0_r. reflexivity.
  - cbn [ReadToEnd positions] in *. destruct (sep c) eqn:S.
    + rewrite (sep_mark c S). change (separators (state v n p q)) with (Z.of_nat (length p)) in H.
      destruct (Z.ltb_spec (Z.of_nat (length p)) 2) as [L|L]; [|discriminate].
      assert (E : Parser v n (Z.of_nat (length p) + 1) (if Z.of_nat (length p) =? 0 then i else nth 0 p (-1))
        (if Z.of_nat (length p) =? 0 then nth 1 p (-1) else i) (match q with [] => false | _ => true end) (nth 0 q (-1)) = state v n (p ++ [i]) q).
      { unfold state. destruct p as [|a [|b p]]; [reflexivity|reflexivity|]. cbn [length] in L. lia. }
      unfold state in H at 1. cbn [digits digit_count first_index second_index has_mark mark_index state] in H.
      unfold state in H. cbn [digits digit_count first_index second_index has_mark mark_index] in H. rewrite E in H.
      apply IH in H; [|rewrite app_length; cbn [length]; lia|exact HQ]. destruct H as (A & B & C & ->).
      rewrite <- app_assoc in *. cbn [app] in *. 
      assert (D : is_digit c = false) by (destruct (is_digit c) eqn:D; [destruct (digit_sep c D); congruence|reflexivity]).
      split; [constructor; [left; exact S|exact A]|]. split; [exact B|]. split; [exact C|].
      unfold value, count_digits, value_step. cbn [fold_left filter]. rewrite D. reflexivity.
    + destruct (mark c) eqn:M.
      * change (has_mark (state v n p q)) with (match q with [] => false | _ => true end) in H.
        destruct q as [|a q]; [|discriminate].
        change (Parser _ _ _ _ _ true i) with (state v n p [i]) in H.
        apply IH in H; [|exact HP|cbn; lia]. destruct H as (A & B & C & ->). cbn [app] in *.
        assert (D : is_digit c = false) by (destruct (is_digit c) eqn:D; [destruct (digit_sep c D); congruence|reflexivity]).
        split; [constructor; [right; left; exact M|exact A]|]. split; [exact B|]. split; [exact C|].
        unfold value, count_digits, value_step. cbn [fold_left filter]. rewrite D. reflexivity.
      * destruct (is_digit c) eqn:D; [|discriminate]. destruct (_ <=? int64_max); [|discriminate].
        change (Parser _ _ _ _ _ _ _) with (state (v * 10 + Z.of_N (N_of_ascii c) - 48) (n + 1) p q) in H.
        apply IH in H; [|exact HP|exact HQ]. destruct H as (A & B & C & ->).
        split; [constructor; [right; right; exact D|exact A]|]. split; [exact B|]. split; [exact C|].
        unfold value, count_digits, value_step. cbn [fold_left filter]. rewrite D. cbn [length]. f_equal. lia.
Qed.
Lemma read_sound s r : ReadToEnd sep mark s 0 initial_parser = Ok r ->
  Forall allowed s /\ (length (positions sep s 0) <= 2)%nat /\ (length (positions mark s 0) <= 1)%nat /\ r = describe s.
Proof. intros H. apply (read_state s 0 0 0 [] []) in H; [|cbn; lia|cbn; lia]. exact H. Qed.
Lemma read_complete_state s : forall i v n p q, Forall allowed s ->
  (length (p ++ positions sep s i) <= 2)%nat -> (length (q ++ positions mark s i) <= 1)%nat ->
  0 <= v -> v < 10 ^ (18 - Z.of_nat (length s)) -> (length s <= 18)%nat ->
  ReadToEnd sep mark s i (state v n p q) = Ok (state (value s v) (n + count_digits s) (p ++ positions sep s i) (q ++ positions mark s i)).
Proof.
  induction s as [|c s IH]; intros i v n p q A HP HQ V0 V L.
  - cbn. rewrite !app_nil_r. unfold count_digits, value. cbn. rewrite Z.add_0_r. reflexivity.
  - apply Forall_cons_iff in A. destruct A as [A0 A]. cbn [ReadToEnd positions length] in *.
    assert (V' : v < 10 ^ (18 - Z.of_nat (length s))).
    { apply Z.lt_le_trans with (1 := V). apply Z.pow_le_mono_r; lia. }
    destruct (sep c) eqn:S.
    + rewrite (sep_mark c S) in *. rewrite app_length in HP. cbn [length] in HP.
      change (separators (state v n p q)) with (Z.of_nat (length p)).
      destruct (Z.ltb_spec (Z.of_nat (length p)) 2) as [L'|L']; [|lia].
      assert (E : Parser v n (Z.of_nat (length p) + 1) (if Z.of_nat (length p) =? 0 then i else nth 0 p (-1))
        (if Z.of_nat (length p) =? 0 then nth 1 p (-1) else i) (match q with [] => false | _ => true end) (nth 0 q (-1)) = state v n (p ++ [i]) q).
      { unfold state. destruct p as [|a [|b p]]; [reflexivity|reflexivity|]. cbn [length] in L'. lia. }
      unfold state at 1 2 3 4 5 6. cbn [digits digit_count first_index second_index has_mark mark_index]. rewrite E.
      assert (D : is_digit c = false) by (destruct (is_digit c) eqn:D; [destruct (digit_sep c D); congruence|reflexivity]).
      rewrite IH; [|exact A|rewrite !app_length; cbn [length]; lia|exact HQ|exact V0|exact V'|lia].
      rewrite <- app_assoc. cbn [app]. unfold value, count_digits, value_step. cbn [fold_left filter]. rewrite D. reflexivity.
    + destruct (mark c) eqn:M.
      * change (has_mark (state v n p q)) with (match q with [] => false | _ => true end).
        destruct q as [|a q]; [|rewrite app_length in HQ; cbn [length] in HQ; lia].
        change (Parser _ _ _ _ _ true i) with (state v n p [i]).
        assert (D : is_digit c = false) by (destruct (is_digit c) eqn:D; [destruct (digit_sep c D); congruence|reflexivity]).
        rewrite IH; [|exact A|exact HP|exact HQ|exact V0|exact V'|lia].
        cbn [app]. unfold value, count_digits, value_step. cbn [fold_left filter]. rewrite D. reflexivity.
      * assert (D : is_digit c = true) by (destruct A0 as [K|[K|K]]; congruence). rewrite D.
        destruct (digit_cases c D) as (k & K & _ & EK). change (digits (state v n p q)) with v. rewrite EK.
        assert (P : 10 ^ (18 - Z.of_nat (length s)) = 10 * 10 ^ (18 - Z.of_nat (Datatypes.S (length s)))).
        { rewrite <- Z.pow_succ_r by lia. f_equal. lia. }
        assert (B : v * 10 + (48 + k) <=? int64_max = true).
        { apply Z.leb_le. assert (10 ^ (18 - Z.of_nat (length s)) <= 10 ^ 18) by (apply Z.pow_le_mono_r; lia).
          change (10 ^ 18) with 1000000000000000000 in *. unfold int64_max. lia. }
        rewrite B. change (Parser _ _ _ _ _ _ _) with (state (v * 10 + (48 + k) - 48) (n + 1) p q).
        rewrite IH; [|exact A|exact HP|exact HQ|lia|lia|lia].
        unfold value, count_digits, value_step. cbn [fold_left filter]. rewrite D, EK. cbn [length]. f_equal. f_equal. lia.
Qed.
Lemma read_complete s : Forall allowed s -> (length (positions sep s 0) <= 2)%nat -> (length (positions mark s 0) <= 1)%nat ->
  (length s <= 18)%nat -> ReadToEnd sep mark s 0 initial_parser = Ok (describe s).
Proof.
  intros A P Q L. change initial_parser with (state 0 0 [] []). rewrite read_complete_state; [reflexivity|exact A|exact P|exact Q|lia| |exact L].
  apply Z.pow_pos_nonneg; lia.
Qed.
Lemma lengths s : Forall allowed s -> forall i,
  Z.of_nat (length s) = count_digits s + Z.of_nat (length (positions sep s i)) + Z.of_nat (length (positions mark s i)).
Proof.
  induction 1 as [|c s A _ IH]; intros i; [reflexivity|]. specialize (IH (i + 1)). unfold count_digits in *. cbn [length filter positions].
  destruct (is_digit c) eqn:D.
  - destruct (digit_sep c D) as [S M]. rewrite S, M. cbn [length]. lia.
  - destruct (sep c) eqn:S; [rewrite (sep_mark c S); cbn [length]; lia|].
    destruct (mark c) eqn:M; [cbn [length]; lia|]. destruct A as [K|[K|K]]; congruence.
Qed.
End Scanner.

(** ** Pieces of strings *)
Lemma pow10_pos n : 0 < 10 ^ Z.of_nat n.
Proof. apply Z.pow_pos_nonneg; lia. Qed.
Lemma digit_range_ok e : forall b v, (b <= e)%nat -> 0 <= v ->
  digit_range v b e = Ok ((v / 10 ^ Z.of_nat b) mod 10 ^ Z.of_nat (e - b)).
Proof.
  induction e as [|e IH]; intros b v L V.
  - assert (b = O) as -> by lia. cbn. destruct (Z.ltb_spec v 0); [lia|]. rewrite Z.mod_1_r. reflexivity.
  - cbn [digit_range]. destruct (Z.ltb_spec v 0); [lia|]. destruct (Nat.eqb_spec b (S e)) as [->|N].
    + rewrite Nat.sub_diag. change (Z.of_nat 0) with 0. rewrite Z.pow_0_r, Z.mod_1_r. reflexivity.
    + rewrite Z.quot_div_nonneg, Z.rem_mod_nonneg by lia. destruct b as [|b].
      * rewrite IH by lia. cbn [bind]. rewrite !Nat.sub_0_r. change (Z.of_nat 0) with 0. rewrite !Z.pow_0_r, !Z.div_1_r.
        rewrite Nat2Z.inj_succ, Z.pow_succ_r by lia. rewrite Z.rem_mul_r by (pose proof (pow10_pos e); lia). f_equal. lia.
      * rewrite IH by lia. rewrite Nat2Z.inj_succ, Z.pow_succ_r by lia. rewrite Z.div_div by (pose proof (pow10_pos b); lia).
        replace (S e - S b)%nat with (e - b)%nat by lia. reflexivity.
Qed.
Definition all_digits (s : list ascii) : Prop := Forall (fun c => is_digit c = true) s.
Lemma value_app a b v : value (a ++ b) v = value b (value a v).
Proof. unfold value. apply fold_left_app. Qed.
Lemma value_digits s : all_digits s -> s = numeral (length s) (value s 0) /\ fits (length s) (value s 0) /\
  forall v, value s v = v * 10 ^ Z.of_nat (length s) + value s 0.
Proof.
  induction s as [|c s IH] using rev_ind; intros A.
  - split; [reflexivity|]. split; [unfold fits; cbn; lia|]. intros v. cbn. lia.
  - apply Forall_app in A. destruct A as [A A1]. apply Forall_inv in A1. destruct (IH A) as (E & F & L). clear IH.
    destruct (digit_cases c A1) as (k & K & EC & V). rewrite app_length, Nat.add_1_r.
    assert (VS : forall v, value (s ++ [c]) v = value s v * 10 + k).
    { intros v. rewrite value_app. unfold value at 1. cbn [fold_left]. unfold value_step. rewrite A1, V. lia. }
    rewrite Nat2Z.inj_succ, Z.pow_succ_r by lia. unfold fits in *. rewrite Nat2Z.inj_succ, Z.pow_succ_r by lia. split; [|split].
    + cbn [numeral]. rewrite VS, EC. f_equal; [|do 2 f_equal; lia].
      rewrite E at 1. f_equal. lia.
    + rewrite VS. lia.
    + intros v. rewrite (VS v), (VS 0), (L v). lia.
Qed.
Lemma numeral_length n v : length (numeral n v) = n.
Proof. revert v. induction n as [|n IH]; intros v; [reflexivity|]. cbn [numeral]. rewrite app_length, IH. cbn. lia. Qed.
Lemma numeral_digits n v : all_digits (numeral n v).
Proof.
  revert v. induction n as [|n IH]; intros v; [constructor|]. cbn [numeral]. apply Forall_app. split; [apply IH|].
  constructor; [|constructor]. apply digit_ok. lia.
Qed.
Lemma numeral_value n v u : fits n v -> value (numeral n v) u = u * 10 ^ Z.of_nat n + v.
Proof.
  revert v u. induction n as [|n IH]; intros v u F; unfold fits in F.
  - change (10 ^ Z.of_nat 0) with 1 in *. cbn. lia.
  - rewrite Nat2Z.inj_succ, Z.pow_succ_r in * by lia. cbn [numeral]. rewrite value_app.
    rewrite IH by (unfold fits; lia). unfold value. cbn [fold_left]. unfold value_step.
    destruct (digit_ok (v mod 10)) as (D & -> & _); [lia|]. rewrite D. lia.
Qed.
Lemma positions_app f a b i : positions f (a ++ b) i = positions f a i ++ positions f b (i + Z.of_nat (length a)).
Proof.
  revert i. induction a as [|c a IH]; intros i; [cbn; f_equal; lia|]. cbn [positions app length]. rewrite IH.
  replace (i + 1 + Z.of_nat (length a)) with (i + Z.of_nat (S (length a))) by lia. destruct (f c); reflexivity.
Qed.
Lemma positions_none f s i : Forall (fun c => f c = false) s -> positions f s i = [].
Proof. intros H. revert i. induction H as [|c s C _ IH]; intros i; [reflexivity|]. cbn [positions]. rewrite C. apply IH. Qed.
Lemma positions_nil f s i : positions f s i = [] -> Forall (fun c => f c = false) s.
Proof.
  revert i. induction s as [|c s IH]; intros i H; [constructor|]. cbn [positions] in H. destruct (f c) eqn:E; [discriminate|].
  constructor; [exact E|exact (IH _ H)].
Qed.
Lemma positions_cons f s i j r : positions f s i = j :: r -> exists a c b, s = a ++ c :: b /\ f c = true /\ j = i + Z.of_nat (length a) /\
  Forall (fun c => f c = false) a /\ positions f b (j + 1) = r.
Proof.
  revert i. induction s as [|c s IH]; intros i H; [discriminate|]. cbn [positions] in H. destruct (f c) eqn:E.
  - injection H as <- H. exists [], c, s. split; [reflexivity|]. split; [exact E|]. split; [cbn; lia|]. split; [constructor|exact H].
  - destruct (IH _ H) as (a & d & b & -> & F & -> & A & R). exists (c :: a), d, b. split; [reflexivity|]. split; [exact F|].
    split; [cbn [length]; lia|]. split; [constructor; assumption|exact R].
Qed.
Lemma count_app a b : count_digits (a ++ b) = count_digits a + count_digits b.
Proof. unfold count_digits. rewrite filter_app, app_length. lia. Qed.
Lemma count_all s : all_digits s -> count_digits s = Z.of_nat (length s).
Proof.
  intros H. unfold count_digits. f_equal. f_equal. induction H as [|c s C _ IH]; [reflexivity|]. cbn [filter]. rewrite C, IH. reflexivity.
Qed.

(** ** Dates *)
Definition is_hyphen (c : ascii) := Ascii.eqb c "-".
Definition is_W (c : ascii) := Ascii.eqb c "W".
Lemma hyphen_W c : is_hyphen c = true -> is_W c = false.
Proof. unfold is_hyphen. intros H. apply Ascii.eqb_eq in H. subst. reflexivity. Qed.
Lemma digit_date c : is_digit c = true -> is_hyphen c = false /\ is_W c = false.
Proof. intros H. destruct (digit_cases c H) as (k & K & -> & _). split; apply digit_neq; try exact K; reflexivity. Qed.
Lemma plain_digits s sep mark : Forall (allowed sep mark) s -> Forall (fun c => sep c = false) s -> Forall (fun c => mark c = false) s -> all_digits s.
Proof.
  intros A S M. unfold all_digits. rewrite Forall_forall in *. intros c I. specialize (A c I). specialize (S c I). specialize (M c I).
  destruct A as [K|[K|K]]; congruence.
Qed.
Lemma read_date_sound s p : read_date s = Ok p -> Forall (allowed is_hyphen is_W) s /\
  (length (positions is_hyphen s 0) <= 2)%nat /\ (length (positions is_W s 0) <= 1)%nat /\ p = describe is_hyphen is_W s.
Proof. exact (read_sound is_hyphen is_W hyphen_W digit_date s p). Qed.

Lemma of_option_ok {A} (o : option A) r : of_option o = Ok r <-> o = Some r.
Proof. destruct o; cbn; split; congruence. Qed.
Ltac eval_range := rewrite digit_range_ok by lia; cbn [bind];
  repeat match goal with |- context [Z.of_nat ?n] => let v := eval vm_compute in (Z.of_nat n) in change (Z.of_nat n) with v end;
  repeat match goal with |- context [10 ^ ?n] => let v := eval vm_compute in (10 ^ n) in change (10 ^ n) with v end.
Lemma fits_2 v : fits 2 v -> 0 <= v < 100. Proof. exact (fun H => H). Qed.
Lemma fits_3 v : fits 3 v -> 0 <= v < 1000. Proof. exact (fun H => H). Qed.
Lemma fits_4 v : fits 4 v -> 0 <= v < 10000. Proof. exact (fun H => H). Qed.
Lemma fits_1 v : fits 1 v -> 0 <= v < 10. Proof. exact (fun H => H). Qed.
Definition is_minus (g : sign) : bool := match g with Minus => true | _ => false end.
Lemma Calendar_zero y d c : Calendar y 0 d c = None.
Proof. unfold Calendar. destruct (default_calendar y c); [|reflexivity]. rewrite andb_false_r. reflexivity. Qed.
Lemma YYYYMMDD_ok g y m d c : fits 4 y -> fits 2 m -> fits 2 d ->
  YYYYMMDD (if is_minus g then - (y * 10000 + m * 100 + d) else y * 10000 + m * 100 + d) c = of_option (Calendar (signed g y) m d c).
Proof.
  intros Y M D. apply fits_4 in Y. apply fits_2 in M, D. set (v := y * 10000 + m * 100 + d).
  assert (R : forall s, (let! y := digit_range v 4 8 in let! m := digit_range v 2 4 in let! d := digit_range v 0 2 in of_option (Calendar (s * y) m d c)) =
    of_option (Calendar (s * y) m d c)).
  { intros s. assert (0 <= v) by lia. eval_range. eval_range. eval_range. replace (v / 10000 mod 10000) with y by lia.
    replace (v / 100 mod 100) with m by lia. replace (v / 1 mod 100) with d by lia. reflexivity. }
  unfold YYYYMMDD. destruct g; cbn [is_minus signed].
  - destruct (Z.ltb_spec v 0); [lia|]. destruct (Z.leb_spec v 99999999); [|lia]. rewrite R. f_equal; f_equal; lia.
  - destruct (Z.ltb_spec v 0); [lia|]. destruct (Z.leb_spec v 99999999); [|lia]. rewrite R. f_equal; f_equal; lia.
  - destruct (Z.ltb_spec (- v) 0).
    + rewrite Z.opp_involutive. destruct (Z.leb_spec v 99999999); [|lia]. rewrite R. f_equal; f_equal; lia.
    + replace (- v) with v by lia. destruct (Z.leb_spec v 99999999); [|lia]. rewrite R. assert (m = 0) as -> by lia. rewrite !Calendar_zero. reflexivity.
Qed.
Lemma YYYYDDD_ok g y n c : fits 4 y -> fits 3 n ->
  YYYYDDD (if is_minus g then - (y * 1000 + n) else y * 1000 + n) c = if is_minus g then CheckFailed else of_option (Ordinal (signed g y) n c).
Proof.
  intros Y N. apply fits_4 in Y. apply fits_3 in N. set (v := y * 1000 + n).
  assert (R : (let! y := digit_range v 3 7 in let! d := digit_range v 0 3 in of_option (Ordinal (1 * y) d c)) = of_option (Ordinal y n c)).
  { assert (0 <= v) by lia. eval_range. eval_range. replace (v / 1000 mod 10000) with y by lia. replace (v / 1 mod 1000) with n by lia.
    rewrite Z.mul_1_l. reflexivity. }
  unfold YYYYDDD. destruct g; cbn [is_minus signed].
  - destruct (Z.ltb_spec v 0); [lia|]. destruct (Z.leb_spec v 9999999); [|lia]. exact R.
  - destruct (Z.ltb_spec v 0); [lia|]. destruct (Z.leb_spec v 9999999); [|lia]. exact R.
  - destruct (Z.leb_spec (- v) 9999999); [|lia]. destruct (Z.ltb_spec (- v) 0).
    + cbn [digit_range]. destruct (Z.ltb_spec (- v) 0); [reflexivity|lia].
    + replace (- v) with v by lia. rewrite R. assert (n = 0) as -> by lia. unfold Ordinal. destruct (default_calendar y c); reflexivity.
Qed.
Lemma YYYYwwD_ok g y w d : fits 4 y -> fits 2 w -> fits 1 d ->
  YYYYwwD (if is_minus g then - (y * 1000 + w * 10 + d) else y * 1000 + w * 10 + d) = of_option (Week (signed g y) w d).
Proof.
  intros Y W D. apply fits_4 in Y. apply fits_2 in W. apply fits_1 in D. set (v := y * 1000 + w * 10 + d).
  assert (R : (let! y := digit_range v 3 7 in let! w := digit_range v 1 3 in let! d := digit_range v 0 1 in of_option (Week y w d)) =
    of_option (Week y w d)).
  { assert (0 <= v) by lia. eval_range. eval_range. eval_range. replace (v / 1000 mod 10000) with y by lia.
    replace (v / 10 mod 100) with w by lia. replace (v / 1 mod 10) with d by lia. reflexivity. }
  assert (W0 : forall y, y <= 0 -> Week y w d = None) by (intros z Z; unfold Week; destruct (Z.leb_spec 1583 z); [lia|reflexivity]).
  unfold YYYYwwD. destruct g; cbn [is_minus signed].
  - destruct (Z.leb_spec 0 v); [|lia]. destruct (Z.leb_spec v 9999999); [|lia]. exact R.
  - destruct (Z.leb_spec 0 v); [|lia]. destruct (Z.leb_spec v 9999999); [|lia]. exact R.
  - rewrite (W0 (- y)) by lia. destruct (Z.leb_spec 0 (- v)); [|reflexivity]. replace (- v) with v by lia.
    destruct (Z.leb_spec v 9999999); [|lia]. cbn [andb]. rewrite R, W0 by lia. reflexivity.
Qed.

(** The bodies, after the prefix and the sign. *)
Inductive body : date_format -> bool -> list ascii -> Z -> Prop :=
| body_ymd x y m d : fits 4 y -> fits 2 m -> fits 2 d ->
    body YMD x (numeral 4 y ++ dash x ++ numeral 2 m ++ dash x ++ numeral 2 d) (y * 10000 + m * 100 + d)
| body_yd x y n : fits 4 y -> fits 3 n -> body YD x (numeral 4 y ++ dash x ++ numeral 3 n) (y * 1000 + n)
| body_ywd x y w d : fits 4 y -> fits 2 w -> fits 1 d ->
    body YWD x (numeral 4 y ++ dash x ++ ["W"] ++ numeral 2 w ++ dash x ++ numeral 1 d) (y * 1000 + w * 10 + d).
Lemma split_digits n m s : all_digits s -> length s = (n + m)%nat -> exists a b, s = a ++ b /\ all_digits a /\ all_digits b /\ length a = n /\ length b = m.
Proof.
  intros A L. exists (firstn n s), (skipn n s). rewrite firstn_skipn. split; [reflexivity|].
  assert (A' := A). rewrite <- (firstn_skipn n s) in A'. apply Forall_app in A'. destruct A' as [A1 A2].
  split; [exact A1|]. split; [exact A2|]. rewrite firstn_length, skipn_length. lia.
Qed.
Lemma as_numeral n s : all_digits s -> length s = n -> exists v, s = numeral n v /\ fits n v.
Proof. intros A <-. destruct (value_digits s A) as (E & F & _). exists (value s 0). auto. Qed.
Lemma value_cons_other c s v : is_digit c = false -> value (c :: s) v = value s v.
Proof. intros H. unfold value. cbn [fold_left]. unfold value_step at 2. rewrite H. reflexivity. Qed.
Lemma hyphen_eq c : is_hyphen c = true -> c = "-".
Proof. unfold is_hyphen. apply Ascii.eqb_eq. Qed.
Lemma W_eq c : is_W c = true -> c = "W".
Proof. unfold is_W. apply Ascii.eqb_eq. Qed.
Ltac numval := repeat first [rewrite value_app|rewrite value_cons_other by reflexivity|rewrite numeral_value by assumption].
Lemma body_value f x s v : body f x s v -> value s 0 = v.
Proof.
  intros [x' y m d|x' y n|x' y w d]; destruct x'; cbn [dash app];
  repeat first [rewrite value_app|rewrite value_cons_other by reflexivity|rewrite numeral_value by assumption];
  change (Z.of_nat 4) with 4; change (Z.of_nat 2) with 2; change (Z.of_nat 3) with 3; change (Z.of_nat 1) with 1;
  change (10 ^ 4) with 10000; change (10 ^ 3) with 1000; change (10 ^ 2) with 100; change (10 ^ 1) with 10; lia.
Qed.
Lemma body_sound s p c neg r : read_date s = Ok p -> ToDate p c neg = Ok r ->
  (exists f x v, body f x s v /\ digits p = v /\
     match f with YMD => YYYYMMDD (if neg then - v else v) c = Ok r | YD => YYYYDDD (if neg then - v else v) c = Ok r
     | YWD => c = None /\ YYYYwwD (if neg then - v else v) = Ok r end) \/ (In "W" s /\ count_digits s = 8).
Proof.
  intros HR HT. apply read_date_sound in HR. destruct HR as (A & P2 & Q1 & ->). unfold ToDate in HT.
  pose proof (lengths is_hyphen is_W hyphen_W digit_date s A 0) as L.
  unfold describe in *. cbn [digits digit_count separators first_index second_index has_mark mark_index] in *.
  assert (NM : positions is_W s 0 = [] -> Forall (fun c => is_W c = false) s) by apply positions_nil.
  assert (NS : positions is_hyphen s 0 = [] -> Forall (fun c => is_hyphen c = false) s) by apply positions_nil.
  assert (body_known : forall f x v, body f x s v ->
     match f with YMD => YYYYMMDD (if neg then - v else v) c = Ok r | YD => YYYYDDD (if neg then - v else v) c = Ok r
     | YWD => c = None /\ YYYYwwD (if neg then - v else v) = Ok r end ->
     exists f x v, body f x s v /\ value s 0 = v /\
     match f with YMD => YYYYMMDD (if neg then - v else v) c = Ok r | YD => YYYYDDD (if neg then - v else v) c = Ok r
     | YWD => c = None /\ YYYYwwD (if neg then - v else v) = Ok r end).
  { intros f x v B H. exists f, x, v. split; [exact B|]. split; [exact (body_value f x s v B)|exact H]. }
  destruct (Z.eqb_spec (count_digits s) 8) as [C8|C8].
  - destruct (positions is_W s 0) as [|w q] eqn:EQ.
    2: { right. split; [|exact C8]. destruct (positions_cons _ _ _ _ _ EQ) as (a & d & b & -> & W & _). apply W_eq in W. subst d.
         apply in_or_app. right. left. reflexivity. }
    left. specialize (NM eq_refl). destruct (positions is_hyphen s 0) as [|i1 [|i2 [|i3 p]]] eqn:EP; cbn [length] in *; [ | | |lia].
    + specialize (NS eq_refl). pose proof (plain_digits s _ _ A NS NM) as D.
      destruct (split_digits 4 4 s D) as (a & b & -> & Da & Db & La & Lb); [lia|].
      destruct (split_digits 2 2 b Db Lb) as (b1 & b2 & -> & D1 & D2 & L1 & L2).
      destruct (as_numeral _ a Da La) as (y & -> & Fy). destruct (as_numeral _ b1 D1 L1) as (m & -> & Fm). destruct (as_numeral _ b2 D2 L2) as (d & -> & Fd).
      pose proof (body_ymd false y m d Fy Fm Fd) as B. apply (body_known _ _ _ B). cbn [dash app] in B.
      rewrite (body_value _ _ _ _ B) in HT. exact HT.
    + cbn in HT. discriminate.
    + change (Z.of_nat 2 =? 0) with false in HT. cbn [orb nth] in HT. change (Z.of_nat 2 =? 2) with true in HT. cbn [andb] in HT.
      destruct (Z.eqb_spec i1 4) as [->|]; [|discriminate]. destruct (Z.eqb_spec i2 7) as [->|]; [|discriminate]. cbn [andb] in HT.
      destruct (positions_cons _ _ _ _ _ EP) as (a & h & b & -> & Hh & La & Fa & EP'). apply hyphen_eq in Hh. subst h.
      destruct (positions_cons _ _ _ _ _ EP') as (b1 & h & b2 & -> & Hh & Lb & Fb & EP''). apply hyphen_eq in Hh. subst h. apply positions_nil in EP''.
      rewrite app_length in L. cbn [length] in L. rewrite app_length in L. cbn [length] in L.
      apply Forall_app in A, NM. destruct A as [Aa A], NM as [Ma M]. apply Forall_cons_iff in A, M. destruct A as [_ A], M as [_ M].
      apply Forall_app in A, M. destruct A as [Ab A], M as [Mb M]. apply Forall_cons_iff in A, M. destruct A as [_ A], M as [_ M].
      destruct (as_numeral 4 a (plain_digits a _ _ Aa Fa Ma)) as (y & -> & Fy); [lia|].
      destruct (as_numeral 2 b1 (plain_digits b1 _ _ Ab Fb Mb)) as (m & -> & Fm); [lia|].
      destruct (as_numeral 2 b2 (plain_digits b2 _ _ A EP'' M)) as (d & -> & Fd); [lia|].
      pose proof (body_ymd true y m d Fy Fm Fd) as B. apply (body_known _ _ _ B). cbn [dash app] in B.
      rewrite (body_value _ _ _ _ B) in HT. exact HT.
  - destruct (Z.eqb_spec (count_digits s) 7) as [C7|C7]; [|discriminate]. left.
    destruct (positions is_W s 0) as [|w [|w2 q]] eqn:EQ; [| |cbn [length] in *; lia].
    + specialize (NM eq_refl). destruct (positions is_hyphen s 0) as [|i1 [|i2 p]] eqn:EP; cbn [length] in *.
      * specialize (NS eq_refl). pose proof (plain_digits s _ _ A NS NM) as D.
        destruct (split_digits 4 3 s D) as (a & b & -> & Da & Db & La & Lb); [lia|].
        destruct (as_numeral _ a Da La) as (y & -> & Fy). destruct (as_numeral _ b Db Lb) as (n & -> & Fn).
        pose proof (body_yd false y n Fy Fn) as B. apply (body_known _ _ _ B). cbn [dash app] in B.
        rewrite (body_value _ _ _ _ B) in HT. exact HT.
      * change (Z.of_nat 1 =? 0) with false in HT. cbn [orb nth] in HT. change (Z.of_nat 1 =? 1) with true in HT. cbn [andb] in HT.
        destruct (Z.eqb_spec i1 4) as [->|]; [|discriminate].
        destruct (positions_cons _ _ _ _ _ EP) as (a & h & b & -> & Hh & La & Fa & EP'). apply hyphen_eq in Hh. subst h. apply positions_nil in EP'.
        rewrite app_length in L. cbn [length] in L.
        apply Forall_app in A, NM. destruct A as [Aa A], NM as [Ma M]. apply Forall_cons_iff in A, M. destruct A as [_ A], M as [_ M].
        destruct (as_numeral 4 a (plain_digits a _ _ Aa Fa Ma)) as (y & -> & Fy); [lia|].
        destruct (as_numeral 3 b (plain_digits b _ _ A EP' M)) as (n & -> & Fn); [lia|].
        pose proof (body_yd true y n Fy Fn) as B. apply (body_known _ _ _ B). cbn [dash app] in B.
        rewrite (body_value _ _ _ _ B) in HT. exact HT.
      * exfalso. revert HT. destruct (Z.eqb_spec (Z.of_nat (S (S (length p)))) 0); [lia|]. destruct (Z.eqb_spec (Z.of_nat (S (S (length p)))) 1); [lia|].
        cbn. discriminate.
    + cbn [nth] in HT.
      assert (CN : c = None /\ (((Z.of_nat (length (positions is_hyphen s 0)) =? 0) && (w =? 4)
         || (Z.of_nat (length (positions is_hyphen s 0)) =? 2) && (nth 0 (positions is_hyphen s 0) (-1) =? 4) && (w =? 5) && (nth 1 (positions is_hyphen s 0) (-1) =? 8)) = true)
         /\ YYYYwwD (if neg then - value s 0 else value s 0) = Ok r).
      { destruct (_ || _) eqn:K in HT; [|discriminate]. destruct c; [discriminate|]. split; [reflexivity|]. split; [exact K|exact HT]. }
      destruct CN as (-> & CN & HY). clear HT.
      destruct (positions is_hyphen s 0) as [|i1 [|i2 [|i3 p]]] eqn:EP; cbn [length nth] in *; [| |  |lia].
      * change (Z.of_nat 0 =? 0) with true in CN. change (Z.of_nat 0 =? 2) with false in CN. cbn [andb] in CN. rewrite orb_false_r in CN. apply Z.eqb_eq in CN. subst w.
        destruct (positions_cons _ _ _ _ _ EQ) as (a & h & b & -> & Hh & La & Fa & EQ'). apply W_eq in Hh. subst h. apply positions_nil in EQ'.
        specialize (NS eq_refl). rewrite app_length in L. cbn [length] in L.
        apply Forall_app in A, NS. destruct A as [Aa A], NS as [Sa S]. apply Forall_cons_iff in A, S. destruct A as [_ A], S as [_ S].
        destruct (as_numeral 4 a (plain_digits a _ _ Aa Sa Fa)) as (y & -> & Fy); [lia|].
        destruct (split_digits 2 1 b (plain_digits b _ _ A S EQ')) as (b1 & b2 & -> & D1 & D2 & L1 & L2); [rewrite numeral_length in L; lia|].
        destruct (as_numeral _ b1 D1 L1) as (m & -> & Fm). destruct (as_numeral _ b2 D2 L2) as (d & -> & Fd).
        pose proof (body_ywd false y m d Fy Fm Fd) as B. apply (body_known _ _ _ B). cbn [dash app] in B.
        rewrite (body_value _ _ _ _ B) in HY. split; [reflexivity|exact HY].
      * cbn in CN. discriminate.
      * change (Z.of_nat 2 =? 0) with false in CN. change (Z.of_nat 2 =? 2) with true in CN. cbn [andb orb] in CN.
        rewrite !andb_true_iff, !Z.eqb_eq in CN. destruct CN as [[-> ->] ->].
        destruct (positions_cons _ _ _ _ _ EP) as (a & h & b & -> & Hh & La & Fa & EP'). apply hyphen_eq in Hh. subst h.
        destruct (positions_cons _ _ _ _ _ EP') as (b1 & h & b2 & -> & Hh & Lb & Fb & EP''). apply hyphen_eq in Hh. subst h. apply positions_nil in EP''.
        rewrite app_length in L. cbn [length] in L. rewrite app_length in L. cbn [length] in L.
        rewrite positions_app in EQ. cbn [positions] in EQ. change (is_W "-") with false in EQ. cbv iota in EQ.
        rewrite positions_app in EQ. cbn [positions] in EQ. change (is_W "-") with false in EQ. cbv iota in EQ.
        destruct (positions is_W a 0) as [|j l] eqn:E1.
        2: { exfalso. destruct (positions_cons _ _ _ _ _ E1) as (a1 & h & a2 & -> & _ & J & _). cbn in EQ. injection EQ as EJ _.
             rewrite app_length in La. cbn [length] in La. lia. }
        cbn [app] in EQ. replace (0 + Z.of_nat (length a) + 1) with 5 in EQ by lia.
        destruct (positions is_W b1 5) as [|j l] eqn:E2.
        { exfalso. cbn [app] in EQ. destruct (positions_cons _ _ _ _ _ EQ) as (a1 & h & a2 & _ & _ & J & _). lia. }
        injection EQ as -> EQ. apply app_eq_nil in EQ. destruct EQ as [-> EQ]. apply positions_nil in EQ.
        destruct (positions_cons _ _ _ _ _ E2) as (b0 & h & b3 & -> & Hh & J & _ & E3). apply W_eq in Hh. subst h. apply positions_nil in E3.
        assert (b0 = []) as -> by (destruct b0; [reflexivity|cbn [length] in J; lia]). cbn [app length] in *.
        apply positions_nil in E1.
        apply Forall_app in A. destruct A as [Aa A]. apply Forall_cons_iff in A. destruct A as [_ A]. apply Forall_cons_iff in A. destruct A as [_ A].
        apply Forall_app in A. destruct A as [Ab A]. apply Forall_cons_iff in A. destruct A as [_ A]. apply Forall_cons_iff in Fb. destruct Fb as [_ Fb].
        destruct (as_numeral 4 a (plain_digits a _ _ Aa Fa E1)) as (y & -> & Fy); [lia|].
        destruct (as_numeral 2 b3 (plain_digits b3 _ _ Ab Fb E3)) as (m & -> & Fm); [lia|].
        destruct (as_numeral 1 b2 (plain_digits b2 _ _ A EP'' EQ)) as (d & -> & Fd); [lia|].
        pose proof (body_ywd true y m d Fy Fm Fd) as B. apply (body_known _ _ _ B). cbn [dash app] in B.
        rewrite (body_value _ _ _ _ B) in HY. split; [reflexivity|exact HY].
Qed.

(** The text of a date, after its prefix and its sign. *)
Lemma first_digit y s : exists c r, numeral 4 y ++ s = c :: r /\ is_digit c = true.
Proof.
  pose proof (numeral_digits 4 y) as D. pose proof (numeral_length 4 y) as L. destruct (numeral 4 y) as [|c r]; [discriminate|].
  apply Forall_inv in D. exists c, (r ++ s). auto.
Qed.
Lemma digit_not c k : is_digit c = true -> is_digit k = false -> Ascii.eqb c k = false.
Proof. intros D K. destruct (Ascii.eqb_spec c k) as [->|]; [congruence|reflexivity]. Qed.
Lemma prefix_sign c g y s :
  ParseDate (prefix_text c ++ sign_text g ++ numeral 4 y ++ s) = (let! p := read_date (numeral 4 y ++ s) in ToDate p c (is_minus g)).
Proof.
  destruct (first_digit y s) as (k & r & -> & D). unfold ParseDate.
  assert (P : read_prefix (prefix_text c ++ sign_text g ++ k :: r) = (c, sign_text g ++ k :: r)).
  { destruct c as [[]|]; [reflexivity|reflexivity|]. cbn [prefix_text app]. destruct g; [|reflexivity|reflexivity].
    cbn [sign_text app read_prefix]. rewrite !(digit_not k) by (exact D || reflexivity). reflexivity. }
  assert (S : read_sign (sign_text g ++ k :: r) = (is_minus g, k :: r)).
  { destruct g; [|reflexivity|reflexivity]. cbn [sign_text app read_sign]. rewrite !(digit_not k) by (exact D || reflexivity). reflexivity. }
  rewrite P, S. reflexivity.
Qed.
Lemma allowed_digits s : all_digits s -> Forall (allowed is_hyphen is_W) s.
Proof. unfold all_digits. apply Forall_impl. intros c H. right. right. exact H. Qed.
Lemma digits_positions f s i : (forall c, is_digit c = true -> f c = false) -> all_digits s -> positions f s i = [].
Proof. intros F D. apply positions_none. revert D. apply Forall_impl. exact F. Qed.
Lemma read_body f x s v : body f x s v -> exists p, read_date s = Ok p /\ digits p = v /\
  forall c neg, ToDate p c neg =
  match f with YMD => YYYYMMDD (if neg then - v else v) c | YD => YYYYDDD (if neg then - v else v) c
  | YWD => match c with None => YYYYwwD (if neg then - v else v) | Some _ => CheckFailed end end.
Proof.
  intros B. assert (HH : forall c, is_digit c = true -> is_hyphen c = false) by (intros c H; apply digit_date, H).
  assert (HW : forall c, is_digit c = true -> is_W c = false) by (intros c H; apply digit_date, H).
  exists (describe is_hyphen is_W s). pose proof (body_value f x s v B) as V.
  assert (K : Forall (allowed is_hyphen is_W) s /\ (length s <= 18)%nat /\
    match f with
    | YMD => count_digits s = 8 /\ positions is_W s 0 = [] /\ positions is_hyphen s 0 = (if x then [4; 7] else [])
    | YD => count_digits s = 7 /\ positions is_W s 0 = [] /\ positions is_hyphen s 0 = (if x then [4] else [])
    | YWD => count_digits s = 7 /\ positions is_W s 0 = [if x then 5 else 4] /\ positions is_hyphen s 0 = (if x then [4; 8] else [])
    end).
  { clear V. assert (AH : allowed is_hyphen is_W "-") by (left; reflexivity). assert (AW : allowed is_hyphen is_W "W") by (right; left; reflexivity).
    assert (AN : forall n v, Forall (allowed is_hyphen is_W) (numeral n v)) by (intros; apply allowed_digits, numeral_digits).
    destruct B as [x' y m d _ _ _|x' y n _ _|x' y w d _ _ _].
    - split; [destruct x'; cbn [dash app]; repeat first [apply AN|apply Forall_app; split|constructor; [exact AH|]]|].
      split; [rewrite !app_length, !numeral_length; destruct x'; cbn; lia|].
      rewrite !count_app, !(count_all (numeral _ _)) by apply numeral_digits. rewrite !numeral_length.
      split; [destruct x'; reflexivity|]. rewrite !positions_app, !numeral_length.
      rewrite !(digits_positions _ (numeral _ _)) by (assumption || apply numeral_digits). destruct x'; split; reflexivity.
    - split; [destruct x'; cbn [dash app]; repeat first [apply AN|apply Forall_app; split|constructor; [exact AH|]]|].
      split; [rewrite !app_length, !numeral_length; destruct x'; cbn; lia|].
      rewrite !count_app, !(count_all (numeral _ _)) by apply numeral_digits. rewrite !numeral_length.
      split; [destruct x'; reflexivity|]. rewrite !positions_app, !numeral_length.
      rewrite !(digits_positions _ (numeral _ _)) by (assumption || apply numeral_digits). destruct x'; split; reflexivity.
    - split; [destruct x'; cbn [dash app]; repeat first [apply AN|apply Forall_app; split|constructor; [first [exact AH|exact AW]|]]|].
      split; [rewrite !app_length, !numeral_length; destruct x'; cbn; lia|].
      rewrite !count_app, !(count_all (numeral _ _)) by apply numeral_digits. rewrite !numeral_length.
      split; [destruct x'; reflexivity|]. rewrite !positions_app, !numeral_length.
      rewrite !(digits_positions _ (numeral _ _)) by (assumption || apply numeral_digits). destruct x'; split; reflexivity. }
  destruct K as (A & L & K).
  assert (R : read_date s = Ok (describe is_hyphen is_W s)).
  { apply (read_complete is_hyphen is_W hyphen_W digit_date); [exact A| | |exact L];
      destruct f; destruct K as (_ & K1 & K2); rewrite ?K1, ?K2; destruct x; cbn; lia. }
  split; [exact R|]. split; [exact V|]. intros c neg. unfold ToDate, describe.
  cbn [digits digit_count separators first_index second_index has_mark mark_index].
  destruct f; destruct K as (K0 & K1 & K2); rewrite K0, K1, K2, V; destruct x; reflexivity.
Qed.

Lemma parse_date_complete f x c g s r : date_text f x c g s r -> (f = YD -> g <> Minus) -> ParseDate s = Ok r.
Proof.
  intros T N. destruct T as [x c g y m d r Fy Fm Fd H|x c g y n r Fy Fn H|x g y w d r Fy Fw Fd H].
  - rewrite prefix_sign. destruct (read_body _ _ _ _ (body_ymd x y m d Fy Fm Fd)) as (p & -> & _ & T). cbn [bind]. rewrite T.
    rewrite YYYYMMDD_ok by assumption. rewrite H. reflexivity.
  - rewrite prefix_sign. destruct (read_body _ _ _ _ (body_yd x y n Fy Fn)) as (p & -> & _ & T). cbn [bind]. rewrite T.
    rewrite YYYYDDD_ok by assumption. rewrite H. destruct g; [reflexivity|reflexivity|]. destruct (N eq_refl eq_refl).
  - change (sign_text g ++ ?a) with (prefix_text None ++ sign_text g ++ a). rewrite prefix_sign.
    destruct (read_body _ _ _ _ (body_ywd x y w d Fy Fw Fd)) as (p & -> & _ & T). cbn [bind]. rewrite T.
    rewrite YYYYwwD_ok by assumption. rewrite H. reflexivity.
Qed.
Lemma read_prefix_ok s : s = prefix_text (fst (read_prefix s)) ++ snd (read_prefix s).
Proof.
  destruct s as [|c r]; [reflexivity|]. cbn [read_prefix]. destruct (Ascii.eqb_spec c "J") as [->|]; [reflexivity|].
  destruct (Ascii.eqb_spec c "G") as [->|]; reflexivity.
Qed.
Lemma read_sign_ok s : exists g, is_minus g = fst (read_sign s) /\ s = sign_text g ++ snd (read_sign s).
Proof.
  destruct s as [|c r]; [exists NoSign; auto|]. cbn [read_sign]. destruct (Ascii.eqb_spec c "+") as [->|]; [exists Plus; auto|].
  destruct (Ascii.eqb_spec c "-") as [->|]; [exists Minus; auto|exists NoSign; auto].
Qed.
Lemma parse_date_sound s r : ParseDate s = Ok r ->
  (exists f x c g, date_text f x c g s r /\ (f = YD -> g <> Minus)) \/
  (exists c g b, s = prefix_text c ++ sign_text g ++ b /\ In "W" b /\ count_digits b = 8).
Proof.
  intros H. unfold ParseDate in H. pose proof (read_prefix_ok s) as E. destruct (read_prefix s) as [c s1]. cbn [fst snd] in E.
  pose proof (read_sign_ok s1) as (g & G & E1). destruct (read_sign s1) as [neg b]. cbn [fst snd] in *. subst neg s1 s.
  destruct (read_date b) as [p| |] eqn:R; try discriminate. cbn [bind] in H.
  destruct (body_sound b p c (is_minus g) r R H) as [(f & x & v & B & _ & K)|K]; [left|right; exists c, g, b; auto].
  exists f, x, c, g. destruct B as [x y m d Fy Fm Fd|x y n Fy Fn|x y w d Fy Fw Fd].
  - rewrite YYYYMMDD_ok in K by assumption. apply of_option_ok in K. split; [constructor; assumption|discriminate].
  - rewrite YYYYDDD_ok in K by assumption. destruct g; try discriminate; apply of_option_ok in K; (split; [constructor; assumption|discriminate]).
  - destruct K as [-> K]. rewrite YYYYwwD_ok in K by assumption. apply of_option_ok in K. split; [|discriminate].
    apply (year_week_day x g y w d r); assumption.
Qed.

(** ** Times *)
Definition is_colon (c : ascii) := Ascii.eqb c ":".
Definition is_decimal (c : ascii) := Ascii.eqb c "," || Ascii.eqb c ".".
Lemma colon_decimal c : is_colon c = true -> is_decimal c = false.
Proof. unfold is_colon. intros H. apply Ascii.eqb_eq in H. subst. reflexivity. Qed.
Lemma digit_time c : is_digit c = true -> is_colon c = false /\ is_decimal c = false.
Proof.
  intros H. destruct (digit_cases c H) as (k & K & -> & _). unfold is_colon, is_decimal.
  rewrite !digit_neq by (exact K || reflexivity). split; reflexivity.
Qed.
Lemma colon_eq c : is_colon c = true -> c = ":".
Proof. apply Ascii.eqb_eq. Qed.
Lemma decimal_eq c : is_decimal c = true -> c = "," \/ c = ".".
Proof. unfold is_decimal. rewrite orb_true_iff, !Ascii.eqb_eq. tauto. Qed.
Lemma TimeOfDay_ok h m s ms t : TimeOfDay h m s ms = Ok t <-> t = Time h m s ms /\ valid_time t.
Proof.
  unfold TimeOfDay. destruct (_ || _) eqn:E.
  - split; [intros H; injection H as <-; split; [reflexivity|]|intros [-> _]; reflexivity].
    unfold valid_time. cbn [hour minute second millisecond].
    rewrite ?orb_true_iff, ?andb_true_iff, ?Z.leb_le, ?Z.eqb_eq in E. rewrite ?orb_true_iff, ?andb_true_iff, ?Z.leb_le, ?Z.eqb_eq in E. lia.
  - split; [discriminate|]. intros [-> V]. unfold valid_time in V. cbn [hour minute second millisecond] in V.
    match type of E with ?b = false => assert (b = true); [|congruence] end.
    rewrite ?orb_true_iff, ?andb_true_iff, ?Z.leb_le, ?Z.eqb_eq. rewrite ?orb_true_iff, ?andb_true_iff, ?Z.leb_le, ?Z.eqb_eq. lia.
Qed.
Lemma hhmmss_ok h m s ms : fits 2 h -> fits 2 m -> fits 2 s -> hhmmss_ms (h * 10000 + m * 100 + s) ms = TimeOfDay h m s ms.
Proof.
  intros H M S. apply fits_2 in H, M, S. set (v := h * 10000 + m * 100 + s). unfold hhmmss_ms.
  destruct (Z.leb_spec 0 v); [|lia]. destruct (Z.leb_spec v 999999); [|lia]. cbn [andb].
  eval_range. eval_range. eval_range. replace (v / 10000 mod 100) with h by lia.
  replace (v / 100 mod 100) with m by lia. replace (v / 1 mod 100) with s by lia. reflexivity.
Qed.
Lemma shift_left_ok x c : 0 <= x -> 0 <= c -> x * 10 ^ c <= int64_max -> shift_left x c = Ok (x * 10 ^ c).
Proof.
  intros X C M. unfold shift_left. destruct (Z.ltb_spec c 0); [lia|]. rewrite <- (Z2Nat.id c C) in M |- *. rewrite Nat2Z.id.
  set (n := Z.to_nat c) in *. clearbody n. clear C c H. revert x X M. induction n as [|n IH]; intros x X M.
  - change (10 ^ Z.of_nat 0) with 1. rewrite Z.mul_1_r. reflexivity.
  - rewrite Nat2Z.inj_succ, Z.pow_succ_r in * by lia. cbn [shift_left_nat]. pose proof (pow10_pos n).
    assert (x * 10 <= int64_max) by nia. destruct (Z.leb_spec (x * 10) int64_max); [|lia]. rewrite IH by lia. f_equal. lia.
Qed.
Lemma read_time_sound s p : read_time s = Ok p -> Forall (allowed is_colon is_decimal) s /\
  (length (positions is_colon s 0) <= 2)%nat /\ (length (positions is_decimal s 0) <= 1)%nat /\ p = describe is_colon is_decimal s.
Proof. exact (read_sound is_colon is_decimal colon_decimal digit_time s p). Qed.

Inductive hms_text : bool -> list ascii -> Z -> Prop :=
| hms_text_intro x h m s : fits 2 h -> fits 2 m -> fits 2 s ->
    hms_text x (numeral 2 h ++ colon x ++ numeral 2 m ++ colon x ++ numeral 2 s) (h * 10000 + m * 100 + s).
Lemma hms_value x a v u : hms_text x a v -> value a u = u * 1000000 + v.
Proof.
  intros [x' h m s Fh Fm Fs]; destruct x'; cbn [colon app];
  repeat first [rewrite value_app|rewrite value_cons_other by reflexivity|rewrite numeral_value by assumption];
  change (Z.of_nat 2) with 2; change (10 ^ 2) with 100; lia.
Qed.
(** A string whose colons are none, or the third and the sixth characters. *)
Lemma hms_shape a : Forall (allowed is_colon is_decimal) a -> Forall (fun c => is_decimal c = false) a ->
  (positions is_colon a 0 = [] /\ length a = 6%nat) \/ (positions is_colon a 0 = [2; 5] /\ length a = 8%nat) ->
  exists x v, hms_text x a v.
Proof.
  intros A M [[P L]|[P L]].
  - pose proof (plain_digits a _ _ A (positions_nil _ _ _ P) M) as D.
    destruct (split_digits 2 4 a D L) as (b & c & -> & Db & Dc & Lb & Lc). destruct (split_digits 2 2 c Dc Lc) as (c1 & c2 & -> & D1 & D2 & L1 & L2).
    destruct (as_numeral _ b Db Lb) as (h & -> & Fh). destruct (as_numeral _ c1 D1 L1) as (m & -> & Fm). destruct (as_numeral _ c2 D2 L2) as (s & -> & Fs).
    exists false, (h * 10000 + m * 100 + s). exact (hms_text_intro false h m s Fh Fm Fs).
  - destruct (positions_cons _ _ _ _ _ P) as (b & k & c & -> & Hk & Lb & Fb & P'). apply colon_eq in Hk. subst k.
    destruct (positions_cons _ _ _ _ _ P') as (c1 & k & c2 & -> & Hk & Lc & Fc & P''). apply colon_eq in Hk. subst k. apply positions_nil in P''.
    rewrite app_length in L. cbn [length] in L. rewrite app_length in L. cbn [length] in L.
    apply Forall_app in A, M. destruct A as [Aa A], M as [Ma M]. apply Forall_cons_iff in A, M. destruct A as [_ A], M as [_ M].
    apply Forall_app in A, M. destruct A as [Ab A], M as [Mb M]. apply Forall_cons_iff in A, M. destruct A as [_ A], M as [_ M].
    destruct (as_numeral 2 b (plain_digits b _ _ Aa Fb Ma)) as (h & -> & Fh); [lia|].
    destruct (as_numeral 2 c1 (plain_digits c1 _ _ Ab Fc Mb)) as (m & -> & Fm); [lia|].
    destruct (as_numeral 2 c2 (plain_digits c2 _ _ A P'' M)) as (s & -> & Fs); [lia|].
    exists true, (h * 10000 + m * 100 + s). exact (hms_text_intro true h m s Fh Fm Fs).
Qed.
Lemma to_time_value k v f : (k <= 3)%nat -> 0 <= v < 1000000 -> fits k f ->
  (let! hhmmss := digit_range (v * 10 ^ Z.of_nat k + f) k (6 + k) in
   let! g := digit_range (v * 10 ^ Z.of_nat k + f) 0 k in
   let! ms := shift_left g (3 - Z.of_nat k) in hhmmss_ms hhmmss ms) = hhmmss_ms v (f * 10 ^ Z.of_nat (3 - k)).
Proof.
  intros K V F. unfold fits in F. pose proof (pow10_pos k) as P. assert (0 <= v * 10 ^ Z.of_nat k) by nia.
  rewrite digit_range_ok by lia. cbn [bind]. rewrite digit_range_ok by lia. cbn [bind].
  replace (6 + k - k)%nat with 6%nat by lia. rewrite Nat.sub_0_r. change (10 ^ Z.of_nat 0) with 1. change (10 ^ Z.of_nat 6) with 1000000.
  rewrite Z.div_1_r. rewrite (Z.add_comm (v * _)), Z.div_add, Z.mod_add, (Z.div_small f), (Z.mod_small f) by lia.
  rewrite Z.add_0_l, (Z.mod_small v) by lia.
  replace (3 - Z.of_nat k) with (Z.of_nat (3 - k)) by lia.
  rewrite shift_left_ok; [reflexivity|lia|lia|].
  assert (f * 10 ^ Z.of_nat (3 - k) <= 10 ^ Z.of_nat k * 10 ^ Z.of_nat (3 - k)) as B.
  { apply Z.mul_le_mono_nonneg_r; [pose proof (pow10_pos (3 - k)); lia|lia]. }
  rewrite <- Z.pow_add_r in B by lia. replace (Z.of_nat k + Z.of_nat (3 - k)) with 3 in B by lia. change (10 ^ 3) with 1000 in B.
  unfold int64_max. lia.
Qed.
Lemma hms_bounds x a v : hms_text x a v -> 0 <= v < 1000000.
Proof. intros [x' h m s Fh Fm Fs]. apply fits_2 in Fh, Fm, Fs. lia. Qed.
Lemma ToTime_unfold p : ToTime p = 
  if (6 <=? digit_count p) && (digit_count p <=? 15) &&
     ((separators p =? 0) || ((separators p =? 2) && (first_index p =? 2) && (second_index p =? 5))) &&
     (((digit_count p =? 6) && negb (has_mark p)) ||
      (has_mark p && (((separators p =? 0) && (mark_index p =? 6)) || (negb (separators p =? 0) && (mark_index p =? 8)))))
  then
    let k := Z.to_nat (digit_count p - 6) in
    let! hhmmss := digit_range (digits p) k (6 + k) in
    let! f := digit_range (digits p) 0 k in
    let! ms := shift_left f (3 - Z.of_nat k) in
    hhmmss_ms hhmmss ms
  else CheckFailed.
Proof.
  unfold ToTime. destruct (_ && _) eqn:E; [|reflexivity]. rewrite !andb_true_iff, !Z.leb_le in E. cbv zeta.
  replace (6 + Z.to_nat (digit_count p - 6))%nat with (Z.to_nat (digit_count p)) by lia.
  replace (3 - Z.of_nat (Z.to_nat (digit_count p - 6))) with (3 - (digit_count p - 6)) by lia. reflexivity.
Qed.
Lemma parse_time_sound s t : ParseTime s = Ok t -> exists x k, time_text x k s t.
Proof.
  unfold ParseTime. destruct (read_time s) as [p| |] eqn:R; try discriminate. cbn [bind]. apply read_time_sound in R.
  destruct R as (A & P2 & Q1 & ->). rewrite ToTime_unfold. cbv zeta.
  pose proof (lengths is_colon is_decimal colon_decimal digit_time s A 0) as L.
  unfold describe. cbn [digits digit_count separators first_index second_index has_mark mark_index].
  destruct (_ && _) eqn:E; [|discriminate]. rewrite !andb_true_iff, !Z.leb_le in E. destruct E as [[[C6 C15] S] M]. intros H.
  assert (PC : positions is_colon s 0 = [] \/ positions is_colon s 0 = [2; 5]).
  { destruct (positions is_colon s 0) as [|i1 [|i2 [|i3 q]]]; cbn [length nth] in *; [auto| | |lia].
    - cbn in S. discriminate.
    - cbn [andb orb] in S. change (Z.of_nat 2 =? 0) with false in S. change (Z.of_nat 2 =? 2) with true in S. cbn [andb orb] in S.
      rewrite andb_true_iff, !Z.eqb_eq in S. destruct S as [-> ->]. auto. }
  destruct (positions is_decimal s 0) as [|j [|j2 q]] eqn:EQ; [| |cbn [length] in *; lia].
  - cbn [andb negb orb] in M. rewrite orb_false_r, andb_true_r in M. apply Z.eqb_eq in M.
    apply positions_nil in EQ. destruct (hms_shape s A EQ) as (x & v & T).
    { destruct PC as [PC|PC]; rewrite PC in L |- *; cbn [length] in L; [left|right]; (split; [reflexivity|lia]). }
    rewrite (hms_value x s v 0 T), M in H. change (Z.to_nat (6 - 6)) with 0%nat in H.
    replace (0 * 1000000 + v) with (v * 10 ^ Z.of_nat 0 + 0) in H by (change (10 ^ Z.of_nat 0) with 1; lia).
    rewrite to_time_value in H; [|lia|exact (hms_bounds x s v T)|unfold fits; cbn; lia].
    destruct T as [x' h m sec Fh Fm Fs]. rewrite hhmmss_ok in H by assumption. apply TimeOfDay_ok in H. destruct H as [-> V].
    exists x', None. constructor; assumption.
  - cbn [andb negb orb nth] in M. rewrite andb_false_r in M. cbn [orb] in M.
    destruct (positions_cons _ _ _ _ _ EQ) as (a & mk & b & -> & Hm & Lj & Fa & EQ'). apply positions_nil in EQ'. cbn [app] in *.
    rewrite positions_app in PC, M, L. cbn [positions] in PC, M, L.
    assert (MC : is_colon mk = false) by (destruct (decimal_eq mk Hm) as [->| ->]; reflexivity). rewrite MC in PC, M, L.
    apply Forall_app in A. destruct A as [Aa A]. apply Forall_cons_iff in A. destruct A as [_ A].
    assert (PB : positions is_colon b (0 + Z.of_nat (length a) + 1) = [] /\ ((positions is_colon a 0 = [] /\ length a = 6%nat) \/ (positions is_colon a 0 = [2; 5] /\ length a = 8%nat))).
    { destruct (positions is_colon b _) as [|i1 r] eqn:EB.
      - rewrite app_nil_r in PC, M. split; [reflexivity|]. destruct PC as [PC|PC]; rewrite PC in M |- *; cbn [length] in M; [left|right]; (split; [reflexivity|]).
        + cbn [andb orb negb] in M. change (Z.of_nat 0 =? 0) with true in M. cbn [andb orb negb] in M. rewrite orb_false_r in M. apply Z.eqb_eq in M. lia.
        + change (Z.of_nat 2 =? 0) with false in M. cbn [andb orb negb] in M. apply Z.eqb_eq in M. lia.
      - exfalso. destruct (positions_cons _ _ _ _ _ EB) as (b1 & ? & b2 & -> & _ & J & _).
        destruct PC as [PC|PC]; [destruct (positions is_colon a 0); discriminate|].
        rewrite PC in M. cbn [length] in M. change (Z.of_nat 2 =? 0) with false in M. cbn [andb orb negb] in M. apply Z.eqb_eq in M.
        assert (In i1 [2; 5]) by (rewrite <- PC; apply in_or_app; right; left; reflexivity). destruct H0 as [<-|[<-|[]]]; lia. }
    destruct PB as [PB SH]. destruct (hms_shape a Aa Fa SH) as (x & v & T). apply positions_nil in PB.
    destruct (as_numeral (length b) b (plain_digits b _ _ A PB EQ') eq_refl) as (f & Eb & Ff). set (k := length b) in *. clearbody k. subst b.
    assert (CK : count_digits (a ++ mk :: numeral k f) = 6 + Z.of_nat k).
    { change (a ++ mk :: numeral k f) with (a ++ [mk] ++ numeral k f). rewrite !count_app.
      rewrite (count_all (numeral k f)) by apply numeral_digits. rewrite numeral_length.
      replace (count_digits [mk]) with 0 by (destruct (decimal_eq mk Hm) as [->| ->]; reflexivity).
      pose proof (lengths is_colon is_decimal colon_decimal digit_time a Aa 0) as La.
      rewrite (positions_none is_decimal a 0 Fa) in La. destruct SH as [[SH1 SH2]|[SH1 SH2]]; rewrite SH1, SH2 in La; cbn [length] in La; lia. }
    rewrite CK in *. replace (Z.to_nat (6 + Z.of_nat k - 6)) with k in H by lia.
    assert (VK : value (a ++ mk :: numeral k f) 0 = v * 10 ^ Z.of_nat k + f).
    { rewrite value_app, value_cons_other by (destruct (decimal_eq mk Hm) as [->| ->]; reflexivity).
      rewrite numeral_value by exact Ff. rewrite (hms_value x a v 0 T). lia. }
    rewrite VK in H. destruct (le_lt_dec k 3) as [K3|K3].
    + rewrite to_time_value in H; [|exact K3|exact (hms_bounds x a v T)|exact Ff].
      destruct T as [x' h m sec Fh Fm Fs]. rewrite hhmmss_ok in H by assumption. apply TimeOfDay_ok in H. destruct H as [-> V].
      exists x', (Some k). rewrite <- !app_assoc. change (mk :: numeral k f) with ([mk] ++ numeral k f).
      constructor; try assumption. apply decimal_eq, Hm.
    + exfalso. pose proof (hms_bounds x a v T). unfold fits in Ff. pose proof (pow10_pos k). assert (0 <= v * 10 ^ Z.of_nat k) by nia.
      rewrite digit_range_ok in H by lia. cbn [bind] in H. rewrite digit_range_ok in H by lia. cbn [bind] in H.
      unfold shift_left in H. destruct (Z.ltb_spec (3 - Z.of_nat k) 0); [discriminate|lia].
Qed.
Lemma hms_facts x a v : hms_text x a v -> Forall (allowed is_colon is_decimal) a /\ length a = (if x then 8 else 6)%nat /\ count_digits a = 6 /\
  positions is_decimal a 0 = [] /\ positions is_colon a 0 = (if x then [2; 5] else []).
Proof.
  assert (AH : allowed is_colon is_decimal ":") by (left; reflexivity).
  assert (AN : forall n v, Forall (allowed is_colon is_decimal) (numeral n v)).
  { intros n u. pose proof (numeral_digits n u) as D. revert D. apply Forall_impl. intros c H. right. right. exact H. }
  assert (HH : forall c, is_digit c = true -> is_colon c = false) by (intros c H; apply digit_time, H).
  assert (HW : forall c, is_digit c = true -> is_decimal c = false) by (intros c H; apply digit_time, H).
  intros [x' h m s Fh Fm Fs].
  split; [destruct x'; cbn [colon app]; repeat first [apply AN|apply Forall_app; split|constructor; [exact AH|]]|].
  split; [rewrite !app_length, !numeral_length; destruct x'; reflexivity|].
  rewrite !count_app, !(count_all (numeral _ _)) by apply numeral_digits. rewrite !numeral_length.
  split; [destruct x'; reflexivity|]. rewrite !positions_app, !numeral_length.
  rewrite !(digits_positions _ (numeral _ _)) by (assumption || apply numeral_digits). destruct x'; split; reflexivity.
Qed.
Lemma parse_time_complete x k s t : time_text x k s t -> ParseTime s = Ok t.
Proof.
  intros [h m sec Fh Fm Fs V|h m sec n f mk Fh Fm Fs K Ff MK V]; unfold ParseTime.
  - pose proof (hms_text_intro x h m sec Fh Fm Fs) as T. destruct (hms_facts _ _ _ T) as (A & L & C & Q & P). set (a := numeral 2 h ++ _) in *.
    assert (R : read_time a = Ok (describe is_colon is_decimal a)).
    { apply (read_complete is_colon is_decimal colon_decimal digit_time); [exact A|rewrite P; destruct x; cbn; lia|rewrite Q; cbn; lia|rewrite L; destruct x; lia]. }
    rewrite R. cbn [bind]. rewrite ToTime_unfold. cbv zeta. unfold describe.
    cbn [digits digit_count separators first_index second_index has_mark mark_index]. rewrite C, Q, P.
    replace ((6 <=? 6) && _ && _ && _) with true by (destruct x; reflexivity).
    rewrite (hms_value _ _ _ 0 T). change (Z.to_nat (6 - 6)) with 0%nat.
    replace (0 * 1000000 + (h * 10000 + m * 100 + sec)) with ((h * 10000 + m * 100 + sec) * 10 ^ Z.of_nat 0 + 0) by (change (10 ^ Z.of_nat 0) with 1; lia).
    rewrite to_time_value; [|lia|exact (hms_bounds _ _ _ T)|unfold fits; cbn; lia].
    rewrite hhmmss_ok by assumption. apply TimeOfDay_ok. split; [reflexivity|exact V].
  - replace (numeral 2 h ++ colon x ++ numeral 2 m ++ colon x ++ numeral 2 sec ++ [mk] ++ numeral n f) with
      ((numeral 2 h ++ colon x ++ numeral 2 m ++ colon x ++ numeral 2 sec) ++ [mk] ++ numeral n f) by (rewrite <- !app_assoc; reflexivity).
    pose proof (hms_text_intro x h m sec Fh Fm Fs) as T. destruct (hms_facts _ _ _ T) as (A & L & C & Q & P). set (a := numeral 2 h ++ _) in *.
    assert (DM : is_digit mk = false /\ is_colon mk = false /\ is_decimal mk = true) by (destruct MK as [->| ->]; repeat split; reflexivity).
    destruct DM as (DM & CM & MM). pose proof (numeral_digits n f) as DN.
    assert (AN : Forall (allowed is_colon is_decimal) (numeral n f)).
    { revert DN. apply Forall_impl. intros c H. right. right. exact H. }
    assert (P' : positions is_colon (a ++ [mk] ++ numeral n f) 0 = if x then [2; 5] else []).
    { rewrite !positions_app, P. cbn [positions]. rewrite CM. rewrite (digits_positions _ (numeral n f)) by (intros; apply digit_time || exact DN; assumption).
      cbn [app]. apply app_nil_r. }
    assert (Q' : positions is_decimal (a ++ [mk] ++ numeral n f) 0 = [if x then 8 else 6]).
    { rewrite !positions_app, Q. cbn [positions app]. rewrite MM. rewrite (digits_positions _ (numeral n f)) by (intros; apply digit_time || exact DN; assumption).
      cbn [app]. rewrite L. destruct x; reflexivity. }
    assert (C' : count_digits (a ++ [mk] ++ numeral n f) = 6 + Z.of_nat n).
    { rewrite !count_app, C, (count_all _ DN), numeral_length. replace (count_digits [mk]) with 0; [lia|]. unfold count_digits. cbn [filter]. rewrite DM. reflexivity. }
    assert (R : read_time (a ++ [mk] ++ numeral n f) = Ok (describe is_colon is_decimal (a ++ [mk] ++ numeral n f))).
    { apply (read_complete is_colon is_decimal colon_decimal digit_time).
      - apply Forall_app. split; [exact A|]. apply Forall_app. split; [|exact AN]. constructor; [right; left; exact MM|constructor].
      - rewrite P'. destruct x; cbn; lia.
      - rewrite Q'. cbn. lia.
      - rewrite !app_length, L, numeral_length. cbn [length]. destruct x; lia. }
    rewrite R. cbn [bind]. rewrite ToTime_unfold. cbv zeta. unfold describe.
    cbn [digits digit_count separators first_index second_index has_mark mark_index]. rewrite C', Q', P'.
    replace ((6 <=? 6 + Z.of_nat n) && _ && _ && _) with true.
    2: { symmetry. rewrite !andb_true_iff. split; [split; [split; [apply Z.leb_le; lia|apply Z.leb_le; lia]|destruct x; reflexivity]|].
         cbn [nth andb]. destruct x; cbn; apply orb_true_r. }
    replace (Z.to_nat (6 + Z.of_nat n - 6)) with n by lia.
    rewrite value_app. cbn [app]. rewrite value_cons_other by exact DM. rewrite numeral_value by exact Ff. rewrite (hms_value _ _ _ 0 T), Z.mul_0_l, Z.add_0_l.
    rewrite to_time_value; [|exact K|exact (hms_bounds _ _ _ T)|exact Ff].
    rewrite hhmmss_ok by assumption. apply TimeOfDay_ok. split; [reflexivity|exact V].
Qed.

(** ** Printing *)
Lemma print_digits_ok n : forall v acc, 0 <= v -> print_digits n v acc = numeral n v ++ acc.
Proof.
  induction n as [|n IH]; intros v acc H; [reflexivity|]. cbn [print_digits numeral]. rewrite IH by lia.
  rewrite <- app_assoc. cbn [app]. destruct (digit_ok (v mod 10)) as (_ & _ & ->); [lia|reflexivity].
Qed.
Lemma width_le fuel : forall n v, (1 <= n)%nat -> fits n v -> (width fuel v <= n)%nat.
Proof.
  induction fuel as [|f IH]; intros n v N H; cbn [width]; [lia|]. destruct (Z.ltb_spec v 10); [lia|].
  destruct n as [|[|n]]; [lia|unfold fits in H; cbn in H; lia|]. unfold fits in H.
  apply le_n_S, IH; [lia|]. unfold fits. rewrite Nat2Z.inj_succ, Z.pow_succ_r in H by lia. lia.
Qed.
Lemma setw_ok n v : (1 <= n)%nat -> fits n v -> setw n v = numeral n v.
Proof.
  intros N H. unfold setw. rewrite Nat.max_l by (apply width_le; assumption). rewrite print_digits_ok by (apply H). apply app_nil_r.
Qed.
Lemma fits2 v : 0 <= v < 100 -> fits 2 v.
Proof. intros H. unfold fits. change (10 ^ Z.of_nat 2) with 100. exact H. Qed.
Lemma time_round_trip t : valid_time t -> ParseTime (print_time t) = Ok t.
Proof.
  intros V. destruct t as [h m s ms]. unfold print_time. cbn [hour minute second millisecond].
  assert (B : fits 2 h /\ fits 2 m /\ fits 2 s /\ 0 <= ms < 1000).
  { unfold valid_time in V. cbn [hour minute second millisecond] in V. split; [apply fits2; lia|]. split; [apply fits2; lia|]. split; [apply fits2; lia|]. lia. }
  destruct B as (Fh & Fm & Fs & Fms). rewrite !(setw_ok 2) by (lia || assumption). destruct (Z.ltb_spec 0 ms).
  - assert (F : fits 3 ms) by (unfold fits; change (10 ^ Z.of_nat 3) with 1000; exact Fms). rewrite (setw_ok 3) by (lia || assumption).
    apply (parse_time_complete true (Some 3%nat)). replace ms with (ms * 10 ^ Z.of_nat (3 - 3)) at 2 by (change (10 ^ Z.of_nat (3 - 3)) with 1; lia).
    apply (hms_decimals true h m s 3 ms ","); try assumption; [lia|left; reflexivity|].
    change (10 ^ Z.of_nat (3 - 3)) with 1. rewrite Z.mul_1_r. exact V.
  - assert (ms = 0) by lia. subst ms. rewrite app_nil_r. apply (parse_time_complete true None). apply (hms true h m s); assumption.
Qed.
Definition printed_prefix (d : date) : option calendars :=
  match calendar d with Julian => Some Julian | Gregorian => if year d <=? 1582 then Some Gregorian else None end.
Definition printed_sign (d : date) : sign := if year d <? 0 then Minus else NoSign.
Lemma print_date_text d : valid d -> -9999 <= year d <= 9999 -> date_text YMD true (printed_prefix d) (printed_sign d) (print_date d) d.
Proof.
  intros V Y. destruct (valid_days d V) as [M D]. pose proof (has_days_28 _ _ _ _ (has_days_exists (calendar d) (year d) (month d) M)) as L.
  unfold print_date. rewrite (setw_ok 4), !(setw_ok 2); try apply fits2; try lia.
  2: { unfold fits. change (10 ^ Z.of_nat 4) with 10000. lia. }
  replace (if is_julian (calendar d) then _ else _) with (prefix_text (printed_prefix d)).
  2: { unfold printed_prefix. destruct (calendar d); [reflexivity|]. cbn [is_julian]. destruct (_ <=? _); reflexivity. }
  replace (if year d <? 0 then _ else _) with (sign_text (printed_sign d)) by (unfold printed_sign; destruct (_ <? _); reflexivity).
  apply (year_month_day true (printed_prefix d) (printed_sign d) (Z.abs (year d)) (month d) (day d) d).
  - unfold fits. change (10 ^ Z.of_nat 4) with 10000. lia.
  - apply fits2. lia.
  - apply fits2. lia.
  - replace (signed (printed_sign d) (Z.abs (year d))) with (year d) by (unfold printed_sign; destruct (Z.ltb_spec (year d) 0); cbn [signed]; lia).
    unfold printed_prefix. destruct d as [y m dd c]. cbn [year month day calendar] in *.
    destruct c; [|destruct (Z.leb_spec y 1582)]; [| |rewrite Calendar_default; destruct (Z.leb_spec 1583 y); [|lia]];
      apply Calendar_ok; (split; [reflexivity|split; [exact V|lia]]).
Qed.
Lemma date_round_trip d : valid d -> -9999 <= year d <= 9999 -> ParseDate (print_date d) = Ok d.
Proof. intros V Y. apply (parse_date_complete YMD true (printed_prefix d) (printed_sign d)); [apply print_date_text; assumption|]. discriminate. Qed.

(** ** Dates with times *)
Lemma contains_app s t c : contains (s ++ t) c = contains s c || contains t c.
Proof. apply existsb_app. Qed.
Lemma contains_digits s c : Forall (fun c => is_digit c = true) s -> is_digit c = false -> contains s c = false.
Proof.
  intros F D. induction F as [|x s X F IH]; [reflexivity|]. cbn [contains existsb]. unfold contains in IH. rewrite IH, orb_false_r.
  destruct (Ascii.eqb_spec x c); [congruence|reflexivity].
Qed.
Lemma index_of_app s t c : contains s c = false -> index_of (s ++ c :: t) c = Ok (length s).
Proof.
  induction s as [|x s IH]; cbn [app index_of contains existsb length]; intros H; [rewrite Ascii.eqb_refl; reflexivity|].
  apply orb_false_iff in H. destruct H as [-> H]. rewrite IH by exact H. reflexivity.
Qed.
Lemma index_of_sound s c : forall i, index_of s c = Ok i -> exists a b, s = a ++ c :: b /\ length a = i.
Proof.
  induction s as [|x s IH]; intros i H; [discriminate|]. cbn in H. destruct (Ascii.eqb_spec x c) as [->|N].
  - injection H as <-. exists [], s. split; reflexivity.
  - destruct (index_of s c) as [j| |]; try discriminate. injection H as <-. destruct (IH j eq_refl) as (a & b & -> & <-).
    exists (x :: a), b. split; reflexivity.
Qed.
Lemma cut (a b : list ascii) c : firstn (length a) (a ++ c :: b) = a /\ skipn (length a + 1) (a ++ c :: b) = b.
Proof.
  split; [rewrite firstn_app, firstn_all, Nat.sub_diag; apply app_nil_r|].
  rewrite skipn_app, skipn_all2 by lia. replace (length a + 1 - length a)%nat with 1%nat by lia. reflexivity.
Qed.
Ltac chars := repeat first [rewrite contains_app | rewrite (contains_digits (numeral _ _)) by (apply numeral_digits || reflexivity)].
Lemma date_chars f x c g s d : date_text f x c g s d ->
  contains s "T" = false /\ contains s ":" = false /\ contains s "-" = (x || match g with Minus => true | _ => false end).
Proof.
  intros [x' c' g' y m dd r|x' c' g' y n r|x' g' y w dd r]; chars; destruct x', g'; try destruct c' as [[]|]; repeat split; reflexivity.
Qed.
Lemma time_chars x k s t : time_text x k s t -> contains s ":" = x /\ contains s "-" = false.
Proof.
  intros [h m sec|h m sec n f mk Fh Fm Fs K Ff MK V]; chars; destruct x; try destruct MK as [->| ->]; split; reflexivity.
Qed.
Lemma parse_date_time_complete f x c g s d k u t : date_text f x c g s d -> (f = YD -> g <> Minus) -> (x = true \/ g <> Minus) -> time_text x k u t ->
  ParseDateTime (s ++ "T" :: u) = DateTime d t.
Proof.
  intros D N X T. destruct (date_chars _ _ _ _ _ _ D) as (D1 & D2 & D3). destruct (time_chars _ _ _ _ T) as (T1 & T2).
  unfold ParseDateTime. rewrite !contains_app. cbn [contains existsb]. fold (contains u "-") (contains u ":"). rewrite T1, T2, D2, D3.
  replace (Bool.eqb _ _) with true by (destruct x, g; cbn; try reflexivity; destruct X; congruence).
  rewrite index_of_app by exact D1. cbn [bind]. destruct (cut s u "T") as [-> ->].
  rewrite (parse_date_complete _ _ _ _ _ _ D N). cbn [bind]. rewrite (parse_time_complete _ _ _ _ T). reflexivity.
Qed.
Lemma DateTime_ok d t r : DateTime d t = Ok r <-> r = DateAndTime d t /\ (second t = 60 -> day d = month_length (year d) (month d) (calendar d)).
Proof.
  unfold DateTime, is_leap_second. destruct (Z.eqb_spec (second t) 60), (Z.eqb_spec (day d) (month_length (year d) (month d) (calendar d))); cbn;
    (split; [intros H|intros [H G]]); try discriminate; try (injection H as <-; split; [reflexivity|tauto]); try (rewrite H; reflexivity); try tauto.
Qed.
Lemma parse_date_time_sound s r : ParseDateTime s = Ok r -> exists a b, s = a ++ "T" :: b /\
  ParseDate a = Ok (date_of r) /\ ParseTime b = Ok (time_of r) /\
  (second (time_of r) = 60 -> day (date_of r) = month_length (year (date_of r)) (month (date_of r)) (calendar (date_of r))).
Proof.
  unfold ParseDateTime. destruct (Bool.eqb _ _); [|discriminate]. destruct (index_of s "T") as [i| |] eqn:I; try discriminate.
  apply index_of_sound in I. destruct I as (a & b & -> & <-). cbn [bind]. destruct (cut a b "T") as [-> ->].
  destruct (ParseDate a) as [d| |] eqn:D; try discriminate. cbn [bind]. destruct (ParseTime b) as [t| |] eqn:T; try discriminate. cbn [bind].
  intros H. apply DateTime_ok in H. destruct H as [-> H]. exists a, b. repeat split; assumption.
Qed.
Lemma print_time_text t : valid_time t -> exists k, time_text true k (print_time t) t.
Proof.
  intros V. pose proof (parse_time_sound _ _ (time_round_trip t V)) as (x & k & T). exists k.
  enough (x = true) by (subst; exact T). destruct (time_chars _ _ _ _ T) as [<- _]. unfold print_time.
  rewrite !contains_app. cbn [contains existsb]. rewrite !orb_true_r. reflexivity.
Qed.
Lemma date_time_round_trip x : valid (date_of x) -> -9999 <= year (date_of x) <= 9999 -> valid_time (time_of x) ->
  (second (time_of x) = 60 -> has_days (calendar (date_of x)) (year (date_of x)) (month (date_of x)) (day (date_of x))) ->
  ParseDateTime (print_date_time x) = Ok x.
Proof.
  destruct x as [d t]. cbn [date_of time_of]. intros V Y T L. destruct (print_time_text t T) as (k & TT). unfold print_date_time. cbn [date_of time_of app].
  rewrite (parse_date_time_complete YMD true (printed_prefix d) (printed_sign d) (print_date d) d k (print_time t) t);
    [|apply print_date_text; assumption|discriminate|left; reflexivity|exact TT].
  apply DateTime_ok. split; [reflexivity|]. intros S. apply L in S. apply has_days_ok in S. apply S.
Qed.
