From Coq Require Import Bool List Ascii String ZArith Reals Lra Lia.
From Verif Require Import Parser_Model.
Import ListNotations.
Open Scope list_scope.

(** * Specification: unit expressions, how they are written and what they denote. *)
Definition blanks (n : nat) : str := repeat blank n.
(** An integer literal: an optional sign and digits. *)
Inductive sign := No_sign | Plus | Minus.
Record literal := Literal { sign_of : sign; first_digit : nat; other_digits : list nat }.
Definition digit_char (d : nat) : ascii := ascii_of_nat (48 + d).
Definition print_literal (l : literal) : str := match sign_of l with No_sign => [] | Plus => ["+"%char] | Minus => ["-"%char] end ++ map digit_char (first_digit l :: other_digits l).
Fixpoint positional (ds : list nat) : Z := match ds with [] => 0 | d :: ds => Z.of_nat d * 10 ^ Z.of_nat (List.length ds) + positional ds end.
Definition literal_value (l : literal) : Z := let v := positional (first_digit l :: other_digits l) in match sign_of l with Minus => - v | _ => v end.
Definition literal_ok (l : literal) : Prop := Forall (fun d => (d <= 9)%nat) (first_digit l :: other_digits l) /\ (- 2 ^ 31 <= literal_value l < 2 ^ 31)%Z.
(** A unit with its name, or a power with blanks on either side of the caret. *)
Inductive factor := Name (name : str) | Power (name : str) (i j : nat) (exponent : literal).
Definition print_factor (f : factor) : str := match f with Name n => n | Power n i j l => n ++ blanks i ++ [caret] ++ blanks j ++ print_literal l end.
Inductive denote_factor : factor -> unit -> Prop :=
  | denote_name n u : In (n, u) units -> denote_factor (Name n) u
  | denote_power n u i j l : In (n, u) units -> literal_ok l -> denote_factor (Power n i j l) (Unit (map (fun d => d * literal_value l)%Z (dimensions u)) (powerRZ (scale u) (literal_value l))).
(** A product: factors separated by blanks, in fact by n + 1 of them. *)
Inductive product := Last (f : factor) | Times (f : factor) (n : nat) (p : product).
Fixpoint print_product (p : product) : str := match p with Last f => print_factor f | Times f n p => print_factor f ++ blanks (S n) ++ print_product p end.
Inductive denote_product : product -> unit -> Prop :=
  | denote_last f u : denote_factor f u -> denote_product (Last f) u
  | denote_times f n p u v : denote_factor f u -> denote_product p v -> denote_product (Times f n p) (Unit (map2 Z.add (dimensions u) (dimensions v)) (scale u * scale v)).
(** Quotients associate to the left; the denominator is a factor; the first numerator may be missing. *)
Inductive quotient := Nothing | Product (p : product) | Quotient (q : quotient) (i j : nat) (f : factor).
Fixpoint print_quotient (q : quotient) : str :=
  match q with
  | Nothing => []
  | Product p => print_product p
  | Quotient q i j f => match print_quotient q with [] => [] | s => s ++ blanks i end ++ [slash] ++ blanks j ++ print_factor f
  end.
Inductive denote : quotient -> unit -> Prop :=
  | denote_nothing : denote Nothing (Unit [0; 0; 0; 0; 0; 0; 0; 0]%Z 1)
  | denote_product_ p u : denote_product p u -> denote (Product p) u
  | denote_quotient q i j f u v : denote q u -> denote_factor f v -> denote (Quotient q i j f) (Unit (map2 Z.sub (dimensions u) (dimensions v)) (scale u / scale v)).

(** * Strings *)
Definition no (c : ascii) (s : str) : Prop := ~ In c s.
Lemma is_spec c a : is c a = true <-> c = a.
Proof. unfold is. destruct (Ascii.eqb_spec c a); split; intros; congruence. Qed.
Lemma is_false c a : is c a = false <-> c <> a.
Proof. unfold is. destruct (Ascii.eqb_spec c a); split; intros; congruence. Qed.
Lemma index_none p s : (forall a, In a s -> p a = false) -> index p s = None.
Proof. induction s as [|a s IH]; intros H; cbn; [reflexivity|]. rewrite H by now left. rewrite IH by (intros; apply H; now right). reflexivity. Qed.
Lemma index_app p s a t : (forall b, In b s -> p b = false) -> p a = true -> index p (s ++ a :: t) = Some (List.length s).
Proof.
  induction s as [|b s IH]; intros H A; cbn; [now rewrite A|]. rewrite H by now left. rewrite IH by (auto; intros; apply H; now right). reflexivity.
Qed.
Lemma last_index_none p s : (forall a, In a s -> p a = false) -> last_index p s = None.
Proof. induction s as [|a s IH]; intros H; cbn; [reflexivity|]. rewrite IH by (intros; apply H; now right). rewrite H by now left. reflexivity. Qed.
Lemma last_index_app p s a t : p a = true -> (forall b, In b t -> p b = false) -> last_index p (s ++ a :: t) = Some (List.length s).
Proof.
  intros A T. induction s as [|b s IH]; cbn; [rewrite last_index_none by exact T; now rewrite A|]. rewrite IH. reflexivity.
Qed.
Lemma in_blanks a n : In a (blanks n) -> a = blank.
Proof. intros I. apply repeat_spec in I. exact I. Qed.
Lemma blanks_length n : List.length (blanks n) = n.
Proof. apply repeat_length. Qed.
Lemma firstn_exact {A} (s t : list A) n : n = List.length s -> firstn n (s ++ t) = s.
Proof. intros ->. rewrite firstn_app, Nat.sub_diag, firstn_O, app_nil_r. apply firstn_all. Qed.
Lemma skipn_exact {A} (s t : list A) n : n = List.length s -> skipn n (s ++ t) = t.
Proof. intros ->. rewrite skipn_app, Nat.sub_diag, skipn_all. reflexivity. Qed.
Lemma not_blank_false a : a = blank -> negb (is blank a) = false.
Proof. intros ->. reflexivity. Qed.
Lemma not_blank_true a : a <> blank -> negb (is blank a) = true.
Proof. intros H. apply negb_true_iff, is_false. congruence. Qed.

(** The searches around a position: [s] is [pre ++ c :: blanks n ++ a :: post]. *)
Lemma first_nonblank_after pre c n a post : a <> blank -> find_first_not_of blank (pre ++ c :: blanks n ++ a :: post) (List.length pre + 1) = Some (List.length pre + 1 + n)%nat.
Proof.
  intros A. unfold find_first_not_of. replace (pre ++ c :: blanks n ++ a :: post) with ((pre ++ [c]) ++ blanks n ++ a :: post) by (rewrite <- app_assoc; reflexivity).
  rewrite skipn_exact by (rewrite app_length; reflexivity).
  rewrite index_app; [cbn [option_map]; rewrite blanks_length; reflexivity| |apply not_blank_true, A]. intros b B. apply not_blank_false, (in_blanks _ _ B).
Qed.
Lemma last_nonblank_before pre a n c post : a <> blank -> find_last_not_of blank (pre ++ a :: blanks n ++ c :: post) (before (List.length pre + 1 + n)) = Some (List.length pre).
Proof.
  intros A. unfold find_last_not_of. replace (List.length pre + 1 + n)%nat with (S (List.length pre + n)) by lia. cbn [before].
  replace (pre ++ a :: blanks n ++ c :: post) with ((pre ++ a :: blanks n) ++ c :: post) by (rewrite <- app_assoc; reflexivity).
  rewrite firstn_exact by (rewrite app_length; cbn [List.length]; rewrite blanks_length; lia).
  apply last_index_app; [apply not_blank_true, A|]. intros b B. apply not_blank_false, (in_blanks _ _ B).
Qed.

(** * Names and literals *)
Definition plain (s : str) : Prop := s <> [] /\ no blank s /\ no caret s /\ no slash s.
Fixpoint plainb (s : str) : bool := match s with [] => true | a :: s => (negb (is blank a) && negb (is caret a) && negb (is slash a) && plainb s)%bool end.
Lemma plainb_spec s : plainb s = true -> no blank s /\ no caret s /\ no slash s.
Proof.
  induction s as [|a s IH]; cbn [plainb]; [intros _; repeat split; intros []|]. rewrite !andb_true_iff, !negb_true_iff, !is_false. intros (((A & B) & C) & D).
  destruct (IH D) as (E & F & G). unfold no. cbn [In]. repeat split; intros [?|?]; auto.
Qed.
Lemma names_plain : forall n u, In (n, u) units -> plain n.
Proof.
  assert (H : forallb (fun n => match n with [] => false | _ => plainb n end) (map fst units) = true) by reflexivity.
  intros n u I. rewrite forallb_forall in H. specialize (H n (in_map fst _ _ I)). destruct n as [|a n]; [discriminate|]. split; [discriminate|]. apply plainb_spec, H.
Qed.
Lemma names_distinct : NoDup (map fst units).
Proof.
  assert (H : (fix check l := match l with [] => true | a :: l => (negb (existsb (str_eqb a) l) && check l)%bool end) (map fst units) = true) by reflexivity.
  revert H. induction (map fst units) as [|a l IH]; [constructor|]. rewrite andb_true_iff, negb_true_iff. intros [A B]. constructor; [|apply IH, B].
  intros I. assert (existsb (str_eqb a) l = true) as E; [|congruence]. apply existsb_exists. exists a. split; [exact I|]. unfold str_eqb. destruct (list_eq_dec ascii_dec a a); congruence.
Qed.
Lemma parse_unit n u : In (n, u) units -> ParseUnit n = Some u.
Proof.
  intros I. pose proof (names_plain n u I) as [NE _]. unfold ParseUnit. destruct n as [|a n]; [congruence|]. set (s := a :: n) in *.
  assert (E : List.find (fun v => str_eqb s (fst v)) units = Some (s, u)).
  { pose proof names_distinct as D. clearbody s. revert I D. induction units as [|[m v] l IH]; [intros []|]. intros I D. cbn [List.find fst]. unfold str_eqb at 1.
    cbn [map fst] in D. inversion D as [|? ? D1 D2]. destruct I as [I|I].
    - injection I as <- <-. destruct (list_eq_dec ascii_dec m m) as [_|K]; [reflexivity|congruence].
    - destruct (list_eq_dec ascii_dec s m) as [<-|]; [|apply IH; assumption]. exfalso. apply D1. apply (in_map fst _ _ I). }
  rewrite E. reflexivity.
Qed.
Lemma digit_digit d : (d <= 9)%nat -> digit (digit_char d) = Some (Z.of_nat d).
Proof. intros H. do 10 (destruct d as [|d]; [reflexivity|]). lia. Qed.
Lemma digit_char_plain d : (d <= 9)%nat -> digit_char d <> blank /\ digit_char d <> caret /\ digit_char d <> slash /\ digit_char d <> "+"%char /\ digit_char d <> "-"%char.
Proof. intros H. do 10 (destruct d as [|d]; [repeat split; discriminate|]). lia. Qed.
Lemma digits_spec ds : Forall (fun d => (d <= 9)%nat) ds -> forall v, digits (map digit_char ds) v = (v * 10 ^ Z.of_nat (List.length ds) + positional ds, List.length ds)%Z.
Proof.
  induction 1 as [|d ds D F IH]; intros v; cbn [map digits positional List.length].
  - rewrite Z.mul_1_r, Z.add_0_r. reflexivity.
  - rewrite digit_digit by exact D. rewrite IH. f_equal. rewrite Nat2Z.inj_succ, Z.pow_succ_r by lia. ring.
Qed.
Lemma positional_pos ds : (0 <= positional ds)%Z.
Proof. induction ds as [|d ds IH]; cbn [positional]; [lia|]. pose proof (Z.pow_nonneg 10 (Z.of_nat (List.length ds))). nia. Qed.
Lemma to_int_id v : (- 2 ^ 31 <= v < 2 ^ 31)%Z -> to_int v = v.
Proof. intros H. unfold to_int. rewrite Z.mod_small by lia. lia. Qed.
Lemma saturate_id v : (- 2 ^ 31 <= v < 2 ^ 31)%Z -> saturate v = v.
Proof. intros H. unfold saturate. assert (2 ^ 31 < 2 ^ 63)%Z by reflexivity. lia. Qed.
Lemma strtol_digits d ds : Forall (fun d => (d <= 9)%nat) (d :: ds) ->
  strtol (map digit_char (d :: ds)) = (saturate (1 * positional (d :: ds)), S (List.length ds))%Z.
Proof.
  intros F. pose proof (digits_spec _ F 0) as DS. inversion F as [|? ? D _]; subst. destruct (digit_char_plain d D) as (A & _ & _ & B & C).
  cbn [map strtol]. replace (is " "%char (digit_char d)) with false by (symmetry; apply is_false; unfold blank in A; congruence).
  replace (is "-"%char (digit_char d)) with false by (symmetry; apply is_false; congruence).
  replace (is "+"%char (digit_char d)) with false by (symmetry; apply is_false; congruence).
  cbn [map] in DS. rewrite DS, Z.mul_0_l, Z.add_0_l. cbn [List.length]. reflexivity.
Qed.
Lemma parse_exponent l : literal_ok l -> ParseExponent (print_literal l) = Some (literal_value l).
Proof.
  intros [F R]. unfold ParseExponent, print_literal, literal_value in *. destruct l as [s d ds]; cbn [sign_of first_digit other_digits] in *.
  pose proof (digits_spec _ F 0) as DS. rewrite Z.mul_0_l, Z.add_0_l in DS. destruct s; cbn [app].
  - rewrite strtol_digits by exact F. rewrite Z.mul_1_l, saturate_id, to_int_id by exact R. reflexivity.
  - cbn [strtol]. cbn [is Ascii.eqb Bool.eqb]. rewrite DS. cbn [List.length]. rewrite Z.mul_1_l, saturate_id, to_int_id by exact R. reflexivity.
  - cbn [strtol]. cbn [is Ascii.eqb Bool.eqb]. rewrite DS. cbn [List.length]. replace (-1 * positional (d :: ds))%Z with (- positional (d :: ds))%Z by lia.
    rewrite saturate_id, to_int_id by exact R. reflexivity.
Qed.
Lemma literal_plain l : Forall (fun d => (d <= 9)%nat) (first_digit l :: other_digits l) -> plain (print_literal l).
Proof.
  intros F. split; [destruct l as [[] ? ?]; discriminate|].
  assert (forall a, In a (print_literal l) -> a <> blank /\ a <> caret /\ a <> slash) as H.
  { unfold print_literal. intros a I. apply in_app_or in I. destruct I as [I|I].
    - destruct (sign_of l); [destruct I|destruct I as [<-|[]]; repeat split; discriminate|destruct I as [<-|[]]; repeat split; discriminate].
    - apply in_map_iff in I. destruct I as (d & <- & I). rewrite Forall_forall in F. destruct (digit_char_plain d (F d I)) as (? & ? & ? & _). auto. }
  repeat split; intros I; apply H in I; destruct I as (? & ? & ?); congruence.
Qed.
(** A nonempty string without blanks, by its last and first characters. *)
Lemma plain_last s : plain s -> exists t a, s = t ++ [a] /\ a <> blank /\ a <> caret /\ a <> slash.
Proof.
  intros (NE & A & B & C). destruct (exists_last NE) as (t & a & ->). exists t, a. split; [reflexivity|].
  repeat split; intros ->; [apply A|apply B|apply C]; apply in_or_app; right; now left.
Qed.
Lemma plain_first s : plain s -> exists t a, s = a :: t /\ a <> blank /\ a <> caret /\ a <> slash.
Proof.
  intros (NE & A & B & C). destruct s as [|a t]; [congruence|]. exists t, a. split; [reflexivity|].
  repeat split; intros ->; [apply A|apply B|apply C]; now left.
Qed.

(** * Factors *)
Lemma parse_factor f u : denote_factor f u -> ParseExponentiationUnit (print_factor f) = Some u.
Proof.
  intros [n v I|n v i j l I L]; pose proof (names_plain _ _ I) as P; cbn [print_factor]; unfold ParseExponentiationUnit.
  - assert (find caret n 0 = None) as ->.
    { unfold find. cbn [skipn]. rewrite index_none; [reflexivity|]. intros a A. apply is_false. intros <-. destruct P as (_ & _ & P & _). contradiction. }
    apply parse_unit, I.
  - destruct (plain_last n P) as (t & a & E & A1 & A2 & _). destruct (plain_first _ (literal_plain l (proj1 L))) as (lt & la & LE & LB & _ & _).
    assert (find caret (n ++ blanks i ++ [caret] ++ blanks j ++ print_literal l) 0 = Some (List.length t + 1 + i)%nat) as ->.
    { unfold find. cbn [skipn]. rewrite app_assoc. cbn [app]. rewrite index_app.
      - cbn [option_map]. rewrite app_length, blanks_length, E, app_length. cbn. f_equal.
      - intros b B. apply is_false. intros <-. apply in_app_or in B. destruct B as [B|B]; [destruct P as (_ & _ & P & _); contradiction|apply in_blanks in B; discriminate].
      - reflexivity. }
    rewrite E, LE.
    replace ((t ++ [a]) ++ blanks i ++ [caret] ++ blanks j ++ la :: lt) with (t ++ a :: blanks i ++ caret :: blanks j ++ la :: lt) by (rewrite <- app_assoc; reflexivity).
    rewrite last_nonblank_before by exact A1.
    replace (t ++ a :: blanks i ++ caret :: blanks j ++ la :: lt) with ((t ++ a :: blanks i) ++ caret :: blanks j ++ la :: lt) by (rewrite <- app_assoc; reflexivity).
    assert (LP : (List.length t + 1 + i)%nat = List.length (t ++ a :: blanks i)) by (rewrite app_length; cbn [List.length]; rewrite blanks_length; lia).
    rewrite LP, first_nonblank_after by exact LB.
    replace ((t ++ a :: blanks i) ++ caret :: blanks j ++ la :: lt) with ((t ++ [a]) ++ blanks i ++ caret :: blanks j ++ la :: lt) at 1 by (rewrite <- !app_assoc; reflexivity).
    rewrite firstn_exact by (rewrite app_length; cbn; lia). rewrite <- E, (parse_unit _ _ I).
    replace ((t ++ a :: blanks i) ++ caret :: blanks j ++ la :: lt) with ((t ++ a :: blanks i ++ caret :: blanks j) ++ la :: lt) by (rewrite <- !app_assoc; cbn; rewrite <- !app_assoc; reflexivity).
    rewrite skipn_exact.
    + rewrite <- LE, parse_exponent by exact L. reflexivity.
    + rewrite <- LP, !app_length. cbn [List.length]. rewrite app_length. cbn [List.length]. rewrite !blanks_length. lia.
Qed.

(** * Products *)
Lemma find_skip c pre seg post : no c seg -> find c (pre ++ seg ++ post) (List.length pre) = find c (pre ++ seg ++ post) (List.length (pre ++ seg)).
Proof.
  intros N. unfold find. rewrite skipn_exact by reflexivity. rewrite (app_assoc pre), skipn_exact, app_length by reflexivity.
  assert (index (is c) (seg ++ post) = option_map (Nat.add (List.length seg)) (index (is c) post)) as ->.
  { induction seg as [|a seg IH]; cbn [app index List.length].
    - destruct (index _ post); reflexivity.
    - replace (is c a) with false by (symmetry; apply is_false; intros <-; apply N; now left). rewrite IH by (intros I; apply N; now right). destruct (index _ post); reflexivity. }
  destruct (index _ post); cbn [option_map]; [f_equal; lia|reflexivity].
Qed.
Lemma find_here c pre post : find c (pre ++ c :: post) (List.length pre) = Some (List.length pre).
Proof. unfold find. rewrite skipn_exact by reflexivity. cbn [index]. replace (is c c) with true by (symmetry; apply is_spec; reflexivity). cbn. f_equal. lia. Qed.
Lemma find_absent c pre post : no c post -> find c (pre ++ post) (List.length pre) = None.
Proof. intros N. unfold find. rewrite skipn_exact by reflexivity. rewrite index_none; [reflexivity|]. intros a A. apply is_false. intros <-. contradiction. Qed.
Lemma is_at_app c pre a post n : n = List.length pre -> is_at c (pre ++ a :: post) (Some n) = is c a.
Proof. intros ->. unfold is_at. rewrite nth_error_app2, Nat.sub_diag by lia. reflexivity. Qed.
Lemma pb_skip fuel pre seg post : no blank seg -> product_blank (S fuel) (pre ++ seg ++ post) (List.length pre) = product_blank (S fuel) (pre ++ seg ++ post) (List.length (pre ++ seg)).
Proof. intros N. cbn [product_blank]. rewrite find_skip by exact N. reflexivity. Qed.
Lemma pb_end fuel pre post : no blank post -> product_blank fuel (pre ++ post) (List.length pre) = None.
Proof. intros N. destruct fuel; cbn [product_blank]; [reflexivity|]. rewrite find_absent by exact N. reflexivity. Qed.
Lemma pb_before_caret fuel i : forall pre post, product_blank (i + fuel) (pre ++ blanks i ++ caret :: post) (List.length pre) = product_blank fuel (pre ++ blanks i ++ caret :: post) (List.length pre + i).
Proof.
  induction i as [|i IH]; intros pre post; [rewrite Nat.add_0_r; reflexivity|].
  cbn [blanks repeat Nat.add product_blank app]. fold (blanks i). rewrite find_here, first_nonblank_after by discriminate.
  replace (pre ++ blank :: blanks i ++ caret :: post) with ((pre ++ blank :: blanks i) ++ caret :: post) at 1 by (rewrite <- app_assoc; reflexivity).
  rewrite is_at_app by (rewrite app_length; cbn [List.length]; rewrite blanks_length; lia).
  replace (is caret caret) with true by reflexivity. cbn [negb andb].
  specialize (IH (pre ++ [blank]) post). rewrite app_length in IH. cbn [List.length] in IH. rewrite <- app_assoc in IH. cbn [app] in IH. rewrite IH. f_equal. lia.
Qed.
Lemma blanks_snoc j : blanks (S j) = blanks j ++ [blank].
Proof. unfold blanks. change [blank] with (repeat blank 1). rewrite <- repeat_app. f_equal. lia. Qed.
Lemma pb_after_caret fuel j : forall pre done post, product_blank (j + fuel) (pre ++ caret :: blanks done ++ blanks j ++ post) (List.length pre + 1 + done) =
  product_blank fuel (pre ++ caret :: blanks done ++ blanks j ++ post) (List.length pre + 1 + done + j).
Proof.
  induction j as [|j IH]; intros pre done post; [rewrite !Nat.add_0_r; reflexivity|].
  cbn [Nat.add product_blank].
  assert (E : pre ++ caret :: blanks done ++ blanks (S j) ++ post = pre ++ caret :: blanks done ++ blank :: blanks j ++ post) by reflexivity.
  rewrite E. clear E.
  assert (F : find blank (pre ++ caret :: blanks done ++ blank :: blanks j ++ post) (List.length pre + 1 + done) = Some (List.length pre + 1 + done)%nat).
  { replace (pre ++ caret :: blanks done ++ blank :: blanks j ++ post) with ((pre ++ caret :: blanks done) ++ blank :: blanks j ++ post) by (rewrite <- app_assoc; reflexivity).
    replace (List.length pre + 1 + done)%nat with (List.length (pre ++ caret :: blanks done)) by (rewrite app_length; cbn [List.length]; rewrite blanks_length; lia). apply find_here. }
  rewrite F, last_nonblank_before by discriminate. rewrite (is_at_app caret pre caret) by reflexivity. replace (is caret caret) with true by reflexivity. cbn [negb]. rewrite andb_false_r.
  specialize (IH pre (S done) post). rewrite blanks_snoc, <- app_assoc in IH. cbn [app] in IH. replace (List.length pre + 1 + S done)%nat with (List.length pre + 1 + done + 1)%nat in IH by lia.
  rewrite IH. f_equal. lia.
Qed.
Lemma pb_stop fuel pre a k b post : a <> blank -> a <> caret -> b <> blank -> b <> caret ->
  product_blank (S fuel) (pre ++ a :: blanks (S k) ++ b :: post) (List.length pre + 1) = Some (Some (List.length pre + 2 + k)%nat, Some (List.length pre)).
Proof.
  intros A1 A2 B1 B2. set (s := pre ++ a :: blanks (S k) ++ b :: post).
  assert (E1 : s = (pre ++ [a]) ++ blank :: blanks k ++ b :: post) by (unfold s; rewrite <- app_assoc; reflexivity).
  assert (E2 : s = pre ++ a :: blanks 0 ++ blank :: blanks k ++ b :: post) by reflexivity.
  assert (E3 : s = (pre ++ a :: blank :: blanks k) ++ b :: post) by (unfold s; rewrite <- app_assoc; reflexivity).
  assert (LP : List.length (pre ++ [a]) = (List.length pre + 1)%nat) by (rewrite app_length; reflexivity).
  assert (F1 : find blank s (List.length pre + 1) = Some (List.length pre + 1)%nat) by (rewrite E1, <- LP; apply find_here).
  assert (F2 : find_first_not_of blank s (List.length pre + 1 + 1) = Some (List.length pre + 2 + k)%nat).
  { rewrite E1, <- LP. rewrite first_nonblank_after by exact B1. f_equal. lia. }
  assert (F3 : find_last_not_of blank s (before (List.length pre + 1)) = Some (List.length pre)).
  { rewrite E2. replace (List.length pre + 1)%nat with (List.length pre + 1 + 0)%nat by lia. apply last_nonblank_before, A1. }
  assert (F4 : is_at caret s (Some (List.length pre)) = false).
  { rewrite E2, is_at_app by reflexivity. apply is_false. congruence. }
  assert (F5 : is_at caret s (Some (List.length pre + 2 + k)%nat) = false).
  { rewrite E3, is_at_app by (rewrite app_length; cbn [List.length]; rewrite blanks_length; lia). apply is_false. congruence. }
  cbn [product_blank]. rewrite F1, F2, F3, F4, F5. reflexivity.
Qed.

(** The inner blanks of a factor are not products. *)
Lemma pb_factor f u rest : denote_factor f u -> exists n, (n <= List.length (print_factor f))%nat /\ forall fuel,
  product_blank (n + S fuel) (print_factor f ++ rest) 0 = product_blank (S fuel) (print_factor f ++ rest) (List.length (print_factor f)).
Proof.
  intros [n v I|n v i j l I L]; pose proof (names_plain _ _ I) as (_ & P & _); cbn [print_factor].
  - exists 0%nat. split; [lia|]. intros fuel. apply (pb_skip fuel [] n rest P).
  - exists (i + j)%nat. split; [rewrite !app_length, !blanks_length; lia|]. intros fuel.
    pose proof (literal_plain l (proj1 L)) as (_ & Q & _). set (ls := print_literal l) in *.
    assert (S1 : (n ++ blanks i ++ [caret] ++ blanks j ++ ls) ++ rest = n ++ blanks i ++ caret :: blanks j ++ ls ++ rest) by (rewrite <- !app_assoc; reflexivity).
    rewrite S1. replace (i + j + S fuel)%nat with (i + (j + S fuel))%nat by lia.
    destruct (i + (j + S fuel))%nat as [|m] eqn:M; [lia|].
    pose proof (pb_skip m [] n (blanks i ++ caret :: blanks j ++ ls ++ rest) P) as H. cbn [app List.length] in H. rewrite H. rewrite <- M.
    rewrite pb_before_caret.
    pose proof (pb_after_caret (S fuel) j (n ++ blanks i) 0 (ls ++ rest)) as H2. cbn [blanks repeat app] in H2. fold (blanks j) in H2. rewrite <- app_assoc in H2.
    rewrite app_length, blanks_length in H2.
    replace (product_blank (j + S fuel) (n ++ blanks i ++ caret :: blanks j ++ ls ++ rest) (List.length n + i)) with
      (product_blank (j + S fuel) (n ++ blanks i ++ caret :: blanks j ++ ls ++ rest) (List.length n + i + 1 + 0)).
    + rewrite H2.
      pose proof (pb_skip fuel (n ++ blanks i ++ caret :: blanks j) ls rest Q) as H3. rewrite <- !app_assoc in H3. cbn [app] in H3.
      replace ((n ++ blanks i ++ caret :: blanks j) ++ ls) with (n ++ blanks i ++ [caret] ++ blanks j ++ ls) in H3 by (rewrite <- !app_assoc; reflexivity).
      etransitivity; [|etransitivity; [exact H3|reflexivity]]. f_equal. rewrite !app_length. cbn [List.length]. rewrite !blanks_length. lia.
    + destruct (j + S fuel)%nat as [|k] eqn:K; [lia|].
      pose proof (pb_skip k (n ++ blanks i) [caret] (blanks j ++ ls ++ rest)) as H4. rewrite <- !app_assoc in H4. cbn [app] in H4.
      rewrite !app_length, blanks_length in H4. cbn [List.length] in H4. rewrite Nat.add_0_r, <- Nat.add_assoc in *. symmetry. rewrite H4; [f_equal; lia|]. intros [K'|[]]. discriminate.
Qed.
Lemma factor_ends f u : denote_factor f u -> (exists t a, print_factor f = t ++ [a] /\ a <> blank /\ a <> caret) /\ (exists t a, print_factor f = a :: t /\ a <> blank /\ a <> caret /\ a <> slash) /\ no slash (print_factor f).
Proof.
  intros [n v I|n v i j l I L]; pose proof (names_plain _ _ I) as P; cbn [print_factor].
  - destruct (plain_last n P) as (t & a & -> & A & B & C). destruct (plain_first _ P) as (t' & a' & E & A' & B' & C').
    split; [eauto|]. split; [|apply P]. rewrite E. eauto 6.
  - pose proof (literal_plain l (proj1 L)) as Q. destruct (plain_last _ Q) as (t & a & E & A & B & C). destruct (plain_first _ P) as (t' & a' & E' & A' & B' & C').
    split; [rewrite E, !app_assoc; eauto|]. split; [rewrite E'; cbn [app]; eauto 8|].
    intros K. apply in_app_or in K. destruct K as [K|K]; [apply P; exact K|]. apply in_app_or in K. destruct K as [K|K]; [apply in_blanks in K; discriminate|].
    cbn [app] in K. destruct K as [K|K]; [discriminate|]. apply in_app_or in K. destruct K as [K|K]; [apply in_blanks in K; discriminate|]. apply Q. exact K.
Qed.
Lemma product_ends p u : denote_product p u -> (exists t a, print_product p = t ++ [a] /\ a <> blank /\ a <> caret) /\ (exists t a, print_product p = a :: t /\ a <> blank /\ a <> caret /\ a <> slash) /\ no slash (print_product p).
Proof.
  induction 1 as [f u F|f n p u v F P IH]; cbn [print_product]; [exact (factor_ends f u F)|].
  destruct IH as ((t & a & E & A & B) & _ & N). destruct (factor_ends f u F) as (_ & (t' & a' & E' & A' & B' & C') & N').
  split; [rewrite E, !app_assoc; eauto|]. split; [rewrite E'; cbn [app]; eauto 8|].
  intros K. apply in_app_or in K. destruct K as [K|K]; [contradiction|]. apply in_app_or in K. destruct K as [K|K]; [apply in_blanks in K; discriminate|contradiction].
Qed.
Lemma parse_product p u : denote_product p u -> forall fuel, (List.length (print_product p) < fuel)%nat -> ParseProductUnit fuel (print_product p) = Some u.
Proof.
  induction 1 as [f u F|f n p u v F P IH]; intros fuel L; (destruct fuel as [|fuel]; [lia|]); cbn [print_product ParseProductUnit] in *.
  - destruct (pb_factor f u [] F) as (m & M & H). rewrite app_nil_r in H.
    replace (S (List.length (print_factor f))) with (m + S (List.length (print_factor f) - m))%nat by lia. rewrite H.
    pose proof (pb_end (S (List.length (print_factor f) - m)) (print_factor f) [] ltac:(intros [])) as E. rewrite app_nil_r in E. rewrite E.
    apply parse_factor, F.
  - destruct (factor_ends f u F) as ((t & a & E & A1 & A2) & _). destruct (product_ends p v P) as (_ & (t' & b & E' & B1 & B2 & _) & _).
    set (s := print_factor f ++ blanks (S n) ++ print_product p) in *.
    assert (LS : List.length s = (List.length (print_factor f) + S n + List.length (print_product p))%nat) by (unfold s; rewrite !app_length, blanks_length; lia).
    assert (PB : product_blank (S (List.length s)) s 0 = Some (Some (List.length t + 2 + n)%nat, Some (List.length t))).
    { unfold s at 2. destruct (pb_factor f u (blanks (S n) ++ print_product p) F) as (m & M & H).
      replace (S (List.length s)) with (m + S (List.length s - m))%nat by lia. rewrite H, E, E'.
      replace ((t ++ [a]) ++ blanks (S n) ++ b :: t') with (t ++ a :: blanks (S n) ++ b :: t') by (rewrite <- app_assoc; reflexivity).
      replace (List.length (t ++ [a])) with (List.length t + 1)%nat by (rewrite app_length; reflexivity). apply pb_stop; assumption. }
    rewrite PB. cbn [through].
    assert (LF : List.length (print_factor f) = S (List.length t)) by (rewrite E, app_length; cbn; lia).
    assert (firstn (S (List.length t)) s = print_factor f) as -> by (unfold s; apply firstn_exact; lia).
    assert (skipn (List.length t + 2 + n) s = print_product p) as ->.
    { unfold s. rewrite app_assoc. apply skipn_exact. rewrite app_length, blanks_length. lia. }
    rewrite (parse_factor f u F), IH by lia. reflexivity.
Qed.

(** * Quotients *)
Lemma quotient_ends q u : denote q u -> print_quotient q = [] \/ (exists t a, print_quotient q = t ++ [a] /\ a <> blank) /\ (exists t a, print_quotient q = a :: t /\ a <> blank).
Proof.
  intros [|p v P|q' i j f v w Q F]; cbn [print_quotient].
  - left. reflexivity.
  - right. destruct (product_ends p v P) as ((t & a & E & A & _) & (t' & b & E' & B & _) & _). split; [eauto|]. rewrite E'. eauto.
  - right. destruct (factor_ends f w F) as ((t & a & E & A & _) & _). split; [rewrite E, !app_assoc; eauto|].
    assert (forall z, (exists t a, z = a :: t /\ a <> blank) -> exists t a, match z with [] => [] | _ => z ++ blanks i end ++ [slash] ++ blanks j ++ print_factor f = a :: t /\ a <> blank) as H.
    { intros z (t' & b & -> & B). cbn [app]. eauto. }
    destruct (print_quotient q') as [|b z] eqn:Z; [cbn [app]; do 2 eexists; split; [reflexivity|discriminate]|].
    cbn [app]. do 2 eexists. split; [reflexivity|].
    clear H. revert b z Z. induction Q as [|p' v' P'|q'' i' j' f' v' w' Q IH F']; cbn [print_quotient]; intros b z Z; [discriminate| |].
    + destruct (product_ends p' v' P') as (_ & (t' & c & E' & B & _) & _). rewrite E' in Z. congruence.
    + destruct (print_quotient q'') as [|c y] eqn:Y; cbn [app] in Z; [injection Z as <- _; discriminate|]. injection Z as -> _. eapply IH; reflexivity.
Qed.
Lemma parse_quotient q u : denote q u -> forall fuel, (List.length (print_quotient q) < fuel)%nat -> ParseQuotientUnit fuel (print_quotient q) = Some u.
Proof.
  induction 1 as [|p u P|q i j f u v Q IH F]; intros fuel L; (destruct fuel as [|fuel]; [lia|]).
  - reflexivity.
  - cbn [print_quotient ParseQuotientUnit] in *. destruct (product_ends p u P) as (_ & _ & N).
    unfold rfind. rewrite last_index_none by (intros a A; apply is_false; intros <-; contradiction). apply (parse_product p u P). lia.
  - destruct (factor_ends f v F) as (_ & (t & a & E & A & _) & N).
    cbn [print_quotient] in *. set (lhs := match print_quotient q with [] => [] | (_ :: _) as s => s ++ blanks i end) in *.
    assert (SS : lhs ++ [slash] ++ blanks j ++ print_factor f = lhs ++ slash :: blanks j ++ a :: t) by (rewrite E; reflexivity).
    rewrite SS in *. cbn [ParseQuotientUnit].
    assert (rfind slash (lhs ++ slash :: blanks j ++ a :: t) = Some (List.length lhs)) as ->.
    { unfold rfind. apply last_index_app; [reflexivity|]. intros b B. apply is_false. intros <-. apply in_app_or in B. destruct B as [B|B]; [apply in_blanks in B; discriminate|]. rewrite <- E in B. contradiction. }
    rewrite first_nonblank_after by exact A.
    assert (skipn (List.length lhs + 1 + j) (lhs ++ slash :: blanks j ++ a :: t) = print_factor f) as ->.
    { replace (lhs ++ slash :: blanks j ++ a :: t) with ((lhs ++ slash :: blanks j) ++ a :: t) by (rewrite <- app_assoc; reflexivity).
      rewrite E. apply skipn_exact. rewrite app_length. cbn [List.length]. rewrite blanks_length. lia. }
    rewrite (parse_factor f v F).
    destruct (quotient_ends q u Q) as [Z|((t' & b & E' & B) & _)].
    + assert (lhs = []) as -> by (unfold lhs; rewrite Z; reflexivity). cbn [List.length app].
      assert (u = one) as ->; [|reflexivity].
      { inversion Q as [|p w P|q' i' j' f' w x Q' F']; subst; [reflexivity| |].
        - cbn [print_quotient] in Z. destruct (product_ends p u P) as (_ & (t1 & c & E1 & _) & _). rewrite E1 in Z. discriminate.
        - cbn [print_quotient] in Z. destruct (print_quotient q'); discriminate. }
    + assert (lhs = t' ++ b :: blanks i) as LH.
      { unfold lhs. destruct (print_quotient q) as [|c z] eqn:Z; [destruct t'; discriminate|]. rewrite E', <- app_assoc. reflexivity. }
      assert (LL : List.length lhs = (List.length t' + 1 + i)%nat) by (rewrite LH, app_length; cbn [List.length]; rewrite blanks_length; lia).
      rewrite LL. replace (List.length t' + 1 + i)%nat with (S (List.length t' + i)) by lia.
      assert (find_last_not_of blank (lhs ++ slash :: blanks j ++ a :: t) (Some (List.length t' + i)%nat) = Some (List.length t')) as ->.
      { pose proof (last_nonblank_before t' b i slash (blanks j ++ a :: t) B) as H. replace (List.length t' + 1 + i)%nat with (S (List.length t' + i)) in H by lia. cbn [before] in H.
        rewrite LH, <- app_assoc. exact H. }
      assert (firstn (S (List.length t')) (lhs ++ slash :: blanks j ++ a :: t) = print_quotient q) as ->.
      { rewrite LH. replace ((t' ++ b :: blanks i) ++ slash :: blanks j ++ a :: t) with ((t' ++ [b]) ++ blanks i ++ slash :: blanks j ++ a :: t) by (rewrite <- !app_assoc; reflexivity).
        rewrite firstn_exact by (rewrite app_length; cbn; lia). symmetry. exact E'. }
      rewrite IH; [reflexivity|]. rewrite !app_length in L. cbn [List.length] in L. rewrite E', app_length. cbn [List.length]. lia.
Qed.

(** * Quantities *)
Lemma parse_quantity strtod expected number m i q u j :
  let s := number ++ blanks i ++ print_quotient q ++ blanks j in
  number <> [] -> Forall (fun a => a <> blank) number -> strtod s = (m, List.length number) -> denote q u ->
  ParseQuantity strtod expected s = if list_eq_dec Z.eq_dec expected (dimensions u) then Some (m * scale u)%R else None.
Proof.
  intros s NE NB ST D. unfold ParseQuantity. rewrite ST. destruct (List.length number) as [|k] eqn:K; [destruct number; [congruence|discriminate]|].
  set (us := match find_first_not_of blank s (S k), find_last_not_of blank s None with Some f, Some l => firstn (l - f + 1) (skipn f s) | _, _ => [] end).
  assert (us = print_quotient q) as ->.
  { unfold us. destruct (quotient_ends q u D) as [Z|((t & a & E & A) & (t' & b & E' & B))].
    - rewrite Z. unfold find_first_not_of, s. rewrite Z. cbn [app]. rewrite skipn_exact by (symmetry; exact K).
      rewrite index_none; [reflexivity|]. intros c C. apply not_blank_false. apply in_app_or in C. destruct C as [C|C]; apply (in_blanks _ _ C).
    - assert (find_first_not_of blank s (S k) = Some (S k + i)%nat) as ->.
      { unfold find_first_not_of, s. rewrite skipn_exact by (symmetry; exact K). rewrite E'. cbn [app].
        rewrite index_app; [cbn [option_map]; rewrite blanks_length; reflexivity| |apply not_blank_true, B]. intros c C. apply not_blank_false, (in_blanks _ _ C). }
      assert (find_last_not_of blank s None = Some (S k + i + List.length t)%nat) as ->.
      { unfold find_last_not_of, s. rewrite E. replace (number ++ blanks i ++ (t ++ [a]) ++ blanks j) with ((number ++ blanks i ++ t) ++ a :: blanks j) by (rewrite <- !app_assoc; reflexivity).
        rewrite last_index_app; [rewrite !app_length, blanks_length, K; f_equal; lia|apply not_blank_true, A|]. intros c C. apply not_blank_false, (in_blanks _ _ C). }
      unfold s. rewrite (app_assoc number), skipn_exact by (rewrite app_length, blanks_length, K; reflexivity).
      apply firstn_exact. rewrite E, app_length. cbn [List.length]. lia. }
  rewrite (parse_quotient q u D) by lia. reflexivity.
Qed.

(** * What is not an expression *)
Lemma parse_unknown s : s <> [] -> ~ In s (map fst units) -> ParseUnit s = None.
Proof.
  intros NE N. unfold ParseUnit. destruct s as [|a s]; [congruence|]. destruct (List.find _ units) as [u|] eqn:F; [|reflexivity].
  apply find_some in F. destruct F as [I E]. unfold str_eqb in E. destruct (list_eq_dec ascii_dec (a :: s) (fst u)) as [K|]; [|discriminate]. exfalso. apply N. rewrite K. apply in_map, I.
Qed.
Lemma digits_garbage ds g : Forall (fun d => (d <= 9)%nat) ds -> match g with [] => True | a :: _ => digit a = None end ->
  forall v, digits (map digit_char ds ++ g) v = (v * 10 ^ Z.of_nat (List.length ds) + positional ds, List.length ds)%Z.
Proof.
  intros F G. induction F as [|d ds D F IH]; intros v; cbn [map digits positional List.length app].
  - rewrite Z.mul_1_r, Z.add_0_r. destruct g as [|a g]; [reflexivity|]. cbn [digits]. rewrite G. reflexivity.
  - rewrite digit_digit by exact D. rewrite IH. f_equal. rewrite Nat2Z.inj_succ, Z.pow_succ_r by lia. ring.
Qed.
Lemma exponent_garbage d ds g : Forall (fun d => (d <= 9)%nat) (d :: ds) -> match g with [] => True | a :: _ => digit a = None end ->
  ParseExponent (map digit_char (d :: ds) ++ g) = Some (to_int (Z.min (2 ^ 63 - 1) (positional (d :: ds)))).
Proof.
  intros F G. unfold ParseExponent. pose proof (digits_garbage _ g F G 0) as DS. inversion F as [|? ? D _]; subst. destruct (digit_char_plain d D) as (A & _ & _ & B & C).
  cbn [map app strtol]. replace (is " "%char (digit_char d)) with false by (symmetry; apply is_false; unfold blank in A; congruence).
  replace (is "-"%char (digit_char d)) with false by (symmetry; apply is_false; congruence).
  replace (is "+"%char (digit_char d)) with false by (symmetry; apply is_false; congruence).
  cbn [map app] in DS. rewrite DS, Z.mul_0_l, Z.add_0_l. cbn [List.length]. rewrite Z.mul_1_l. unfold saturate.
  pose proof (positional_pos (d :: ds)). do 2 f_equal. lia.
Qed.
(** Blanks, a sign or none, then something that does not start with a digit: not an exponent. *)
Definition starts_with_digit (s : str) : Prop := match s with [] => False | a :: _ => exists d, (d <= 9)%nat /\ a = digit_char d end.
Lemma no_digit a : ~ (exists d, (d <= 9)%nat /\ a = digit_char d) -> digit a = None.
Proof.
  intros H. unfold digit. destruct (Z.leb 0 (Z.of_nat (nat_of_ascii a) - 48) && Z.leb (Z.of_nat (nat_of_ascii a) - 48) 9)%bool eqn:E; [|reflexivity].
  exfalso. apply H. rewrite andb_true_iff, !Z.leb_le in E. exists (nat_of_ascii a - 48)%nat. split; [lia|].
  unfold digit_char. rewrite <- (ascii_nat_embedding a) at 1. f_equal. lia.
Qed.
Lemma no_exponent n sg g : ~ starts_with_digit g ->
  match sg, g with No_sign, a :: _ => a <> blank /\ a <> "+"%char /\ a <> "-"%char | _, _ => True end ->
  ParseExponent (repeat blank n ++ match sg with No_sign => [] | Plus => ["+"%char] | Minus => ["-"%char] end ++ g) = None.
Proof.
  intros G F. unfold ParseExponent.
  assert (DG : forall v, digits g v = (v, O)).
  { intros v. destruct g as [|a g]; [reflexivity|]. cbn [digits]. rewrite no_digit by exact G. reflexivity. }
  assert (H : snd (strtol (repeat blank n ++ match sg with No_sign => [] | Plus => ["+"%char] | Minus => ["-"%char] end ++ g)) = O).
  { induction n as [|n IH].
    - cbn [repeat app]. destruct sg; cbn [app].
      + destruct g as [|a g]; [reflexivity|]. destruct F as (A & B & C). cbn [strtol].
        replace (is " "%char a) with false by (symmetry; apply is_false; unfold blank in A; congruence).
        replace (is "-"%char a) with false by (symmetry; apply is_false; congruence).
        replace (is "+"%char a) with false by (symmetry; apply is_false; congruence). rewrite DG. reflexivity.
      + cbn [strtol is Ascii.eqb Bool.eqb]. rewrite DG. reflexivity.
      + cbn [strtol is Ascii.eqb Bool.eqb]. rewrite DG. reflexivity.
    - cbn [repeat app]. set (s := repeat blank n ++ _) in *. change (strtol (blank :: s)) with (let '(v, n) := strtol s in match n with O => (v, O) | _ => (v, S n) end).
      destruct (strtol s) as [v k]. cbn [snd] in IH. subst k. reflexivity. }
  destruct (strtol _) as [v k]. cbn [snd] in H. subst k. reflexivity.
Qed.
