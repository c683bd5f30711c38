(** C52: parsing of quantities. *)
From Coq Require Import Bool List Ascii String ZArith Reals Lra Lia.
From Verif Require Import Parser_Model Parser_Proofs.
Import ListNotations.
Open Scope list_scope.

(** A string that is a unit expression, with any number of blanks, is parsed to what the expression denotes: quotients associate to the left. *)
Theorem C52_expression q u : denote q u -> ParseQuotientUnit (S (List.length (print_quotient q))) (print_quotient q) = Some u.
Proof. exact (fun D => parse_quotient q u D _ (Nat.lt_succ_diag_r _)). Qed.
Print Assumptions C52_expression.

(** A number followed by a unit expression is the product if the dimensions are the expected ones, and otherwise the program dies. *)
Theorem C52_quantity strtod expected number m i q u j :
  let s := number ++ blanks i ++ print_quotient q ++ blanks j in
  number <> [] -> Forall (fun a => a <> blank) number -> strtod s = (m, List.length number) -> denote q u ->
  ParseQuantity strtod expected s = if list_eq_dec Z.eq_dec expected (dimensions u) then Some (m * scale u)%R else None.
Proof. exact (parse_quantity strtod expected number m i q u j). Qed.
Print Assumptions C52_quantity.

(** The names of the units are distinct, and no other name is accepted. *)
Theorem C52_names : NoDup (map fst units) /\ (forall n u, In (n, u) units -> ParseUnit n = Some u) /\ (forall s, s <> [] -> ~ In s (map fst units) -> ParseUnit s = None).
Proof. exact (conj names_distinct (conj parse_unit parse_unknown)). Qed.
Print Assumptions C52_names.

(** Not everything that is accepted is an expression: what follows the digits of an exponent is ignored, and an exponent that is not an int is reduced. *)
Theorem C52_exponent_refuted d ds g : Forall (fun d => (d <= 9)%nat) (d :: ds) -> match g with [] => True | a :: _ => digit a = None end ->
  ParseExponent (map digit_char (d :: ds) ++ g) = Some (to_int (Z.min (2 ^ 63 - 1) (positional (d :: ds)))).
Proof. exact (exponent_garbage d ds g). Qed.
Print Assumptions C52_exponent_refuted.

(** An exponent without digits is rejected. *)
Theorem C52_no_exponent n sg g : ~ starts_with_digit g ->
  match sg, g with No_sign, a :: _ => a <> blank /\ a <> "+"%char /\ a <> "-"%char | _, _ => True end ->
  ParseExponent (repeat blank n ++ match sg with No_sign => [] | Plus => ["+"%char] | Minus => ["-"%char] end ++ g) = None.
Proof. exact (no_exponent n sg g). Qed.
Print Assumptions C52_no_exponent.

Definition s_ := list_ascii_of_string.
(** kg  m ^ 2 / s^3 / au, where the quotients associate to the left. *)
Example C52_example :
  let q := Quotient (Quotient (Product (Times (Name (s_ "kg")) 1 (Last (Power (s_ "m") 1 1 (Literal No_sign 2 []))))) 1 1 (Power (s_ "s") 0 0 (Literal No_sign 3 []))) 1 1 (Name (s_ "au")) in
  print_quotient q = s_ "kg  m ^ 2 / s^3 / au" /\ option_map dimensions (ParseQuotientUnit 100 (print_quotient q)) = Some [1; 1; -3; 0; 0; 0; 0; 0]%Z.
Proof. split; reflexivity. Qed.
Example C52_denotes : exists u, denote (Quotient Nothing 0 1 (Power (s_ "km") 0 0 (Literal Minus 2 []))) u /\ dimensions u = [2; 0; 0; 0; 0; 0; 0; 0]%Z /\ (scale u = 1000000)%R.
Proof.
  eexists. split.
  - apply denote_quotient; [apply denote_nothing|]. apply denote_power with (u := length_unit (10 ^ 3)).
    + unfold units. cbn. do 5 right. left. reflexivity.
    + split; [repeat constructor|]. cbn. lia.
  - split; [reflexivity|]. change (1 / / (10 ^ 3) ^ 2 = 1000000)%R. unfold Rdiv. rewrite Rinv_inv, Rmult_1_l. lra.
Qed.
(** Accepted: m^2x, m^2^3 and m^4294967298 are all m^2.  Rejected: a product in a denominator. *)
Example C52_accepted : option_map dimensions (ParseQuotientUnit 100 (s_ "m^2x")) = Some [2; 0; 0; 0; 0; 0; 0; 0]%Z /\
  option_map dimensions (ParseQuotientUnit 100 (s_ "m^2^3")) = Some [2; 0; 0; 0; 0; 0; 0; 0]%Z /\
  option_map dimensions (ParseQuotientUnit 100 (s_ "m^4294967298")) = Some [2; 0; 0; 0; 0; 0; 0; 0]%Z /\
  ParseQuotientUnit 100 (s_ "m / kg s") = None.
Proof. repeat split; reflexivity. Qed.
