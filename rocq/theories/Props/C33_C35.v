(** Properties C33 and C35: operator precedence and associativity; integer literals.
    Specifications: Spec/GrammarSpec.v (the grammar by levels), Spec/PrintSpec.v (writing with the fewest
    parentheses), Spec/ParseSpec.v (the value of a numeral). *)
From Coq Require Import ZArith.
From Verif.Model Require Import Parser.
From Verif.Spec Require Import LexSpec ParseSpec GrammarSpec PrintSpec.
From Verif.Proofs Require Import SourceTextP RoundTripP PrintP.

(** C33.  Every tree, of any depth, written with the fewest parentheses, is read back. *)
Theorem C33_written_trees_are_read_back : forall e, writable e -> parse (text_of e) = Ok (EBlock [] (Some e)).
Proof. exact print_parse. Qed.
Print Assumptions C33_written_trees_are_read_back.
(** However it is written (redundant parentheses, other blanks, comments): a text whose tokens write [e]
    by the grammar is read as [e]. *)
Theorem C33_grammar_is_inverted : forall t e ts, tokens_of 0 t ts -> writes 1 e ts -> parse t = Ok (EBlock [] (Some e)).
Proof. exact source_inverted. Qed.
Print Assumptions C33_grammar_is_inverted.
Theorem C33_grammar_is_unambiguous : forall e e' ts, writes 1 e ts -> writes 1 e' ts -> e = e'.
Proof. exact grammar_unambiguous. Qed.
Print Assumptions C33_grammar_is_unambiguous.
(** A tree whose text needs two pairs of parentheses, and its text. *)
Example C33_nonvacuous :
  writable sample_tree /\ utf8 (text_of sample_tree) = "a - ( b - c ) * - d ?? ( | x | x . f ( 1 , [ ] ) ? ) "%string.
Proof. split; [exact sample_tree_writable|vm_compute; reflexivity]. Qed.
(** Operators of one level associate to the left. *)
Example C33_left_associative :
  parse (chars "a-b - c") = parse (chars "(a - b) - c") /\ parse (chars "a - b - c") <> parse (chars "a - (b - c)").
Proof. vm_compute. split; [reflexivity|discriminate]. Qed.

(** C35.  A literal denotes its value up to 2^63 - 1 and is an error above. *)
Theorem C35_integer_literals : forall d, d <> [] -> all digit_char d ->
  parse d = if (numeral_value d <? 2 ^ 63)%Z then Ok (EBlock [] (Some (ELitInt (numeral_value d)))) else Err INVALID_INTEGER_VALUE.
Proof. exact parse_integer_lt. Qed.
Print Assumptions C35_integer_literals.
(** [numeral_value] is the usual value: every non-negative number has its decimal numeral. *)
Theorem C35_numerals_are_decimal : forall n z, (0 <= z < 10 ^ Z.of_nat n)%Z -> n <> 0 ->
  digits n z <> [] /\ all digit_char (digits n z) /\ numeral_value (digits n z) = z.
Proof. exact digits_ok. Qed.
Print Assumptions C35_numerals_are_decimal.
Example C35_nonvacuous :
  parse (chars "0009223372036854775807") = Ok (EBlock [] (Some (ELitInt 9223372036854775807))) /\
  parse (chars "9223372036854775808") = Err INVALID_INTEGER_VALUE.
Proof. vm_compute. split; reflexivity. Qed.
(** A finding: the smallest integer cannot be written as a literal with a minus sign. *)
Example C35_smallest_integer_not_writable : parse (chars "-9223372036854775808") = Err INVALID_INTEGER_VALUE.
Proof. vm_compute. reflexivity. Qed.
