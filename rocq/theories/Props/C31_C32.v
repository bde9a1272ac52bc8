(** Properties C31 and C32: the lexer loses nothing; classification of tokens.  Specification: Spec/LexSpec.v. *)
From Verif.Model Require Import Lexer.
From Verif.Spec Require Import LexSpec.
From Verif.Proofs Require Import LexerP.

(** C31.  The text is made of the tokens' slices, in order, with only white space and comments before,
    between and after them. *)
Theorem C31_text_is_tokens_and_blanks : forall t, tokens_of 0 t (tokenize t).
Proof. exact tokenize_ok. Qed.
Print Assumptions C31_text_is_tokens_and_blanks.
(** Every token is a non-empty piece of the text at the position of its span. *)
Theorem C31_tokens_are_pieces : forall t tk, In tk (tokenize t) ->
  exists before after, t = before ++ tk_slice tk ++ after /\ tk_slice tk <> [] /\ tk_start tk = text_len before.
Proof. exact (fun t tk H => tokens_of_slices 0 t (tokenize t) (tokenize_ok t) tk H). Qed.
Print Assumptions C31_tokens_are_pieces.
Theorem C31_tokens_in_order : forall t l a m b r, tokenize t = l ++ a :: m ++ b :: r ->
  sp_end (tk_span a) <= sp_start (tk_span b).
Proof. exact (fun t => tokens_of_ordered 0 t (tokenize t) (tokenize_ok t)). Qed.
Print Assumptions C31_tokens_in_order.
(** A comment, an operator made of two characters, a string with an escape, an unknown character. *)
Example C31_nonvacuous :
  map (fun k => (tk_kind k, tk_start k, utf8 (tk_slice k)))
    (tokenize (chars "x1 ?? 2.5// c" ++ [10%N] ++ chars " ""a\n"" ~ if")) =
  [(TIdentifier, 0, "x1"); (TCoalesce, 3, "??"); (TFloat, 6, "2.5"); (TString, 15, """a\n"""); (TError, 21, "~"); (TIf, 23, "if")]%string.
Proof. vm_compute. reflexivity. Qed.

(** C32.  The tokens are the ones the rules allow and no others. *)
Theorem C32_tokens_are_determined : forall t ts, tokens_of 0 t ts <-> tokenize t = ts.
Proof. exact tokenize_iff. Qed.
Print Assumptions C32_tokens_are_determined.
(** A maximal run of word characters that starts with a letter: a keyword (or reserved word) when it
    spells one, an identifier when it spells none. *)
Theorem C32_keywords : forall k w rest, In (utf8 w) (keyword k) -> starts letter w -> all word_char w -> ~ starts word_char rest ->
  hd_error (tokenize (w ++ rest)) = Some (Tok k 0 w None).
Proof. exact keyword_token. Qed.
Print Assumptions C32_keywords.
Theorem C32_identifiers : forall w rest, (forall k, ~ In (utf8 w) (keyword k)) -> starts letter w -> all word_char w -> ~ starts word_char rest ->
  hd_error (tokenize (w ++ rest)) = Some (Tok TIdentifier 0 w None).
Proof. exact identifier_token. Qed.
Print Assumptions C32_identifiers.
(** A run of digits is an integer unless a dot and a digit follow. *)
Theorem C32_integers : forall d rest, d <> [] -> all digit_char d -> ~ starts digit_char rest ->
  ~ (exists r, rest = chars "." ++ r /\ starts digit_char r) ->
  hd_error (tokenize (d ++ rest)) = Some (Tok TInteger 0 d None).
Proof. exact integer_token. Qed.
Print Assumptions C32_integers.
Theorem C32_floats : forall d f rest, d <> [] -> f <> [] -> all digit_char d -> all digit_char f -> ~ starts digit_char rest ->
  hd_error (tokenize (d ++ chars "." ++ f ++ rest)) = Some (Tok TFloat 0 (d ++ chars "." ++ f) None).
Proof. exact float_token. Qed.
Print Assumptions C32_floats.
(** The longest operator that the text starts with. *)
Theorem C32_longest_operator : forall k s rest, symbol k = Some s -> ~ comment_starts (chars s ++ rest) ->
  (forall k' s' r, symbol k' = Some s' -> chars s ++ rest = chars s' ++ r -> String.length s' <= String.length s) ->
  hd_error (tokenize (chars s ++ rest)) = Some (Tok k 0 (chars s) None).
Proof. exact symbol_token. Qed.
Print Assumptions C32_longest_operator.
(** A finding: two slashes with nothing after them on the line are no comment but two operators. *)
Theorem C32_empty_comment_is_two_operators : forall rest, rest = [] \/ starts line_end rest ->
  exists ts, tokenize (chars "//" ++ rest) = Tok TSlash 0 (chars "/") None :: Tok TSlash 1 (chars "/") None :: ts.
Proof. exact empty_comment_tokens. Qed.
Print Assumptions C32_empty_comment_is_two_operators.
(** "iff" is an identifier, "1..2" an integer and a range, "..=" one operator, "await" reserved. *)
Example C32_nonvacuous :
  map (fun k => (tk_kind k, utf8 (tk_slice k))) (tokenize (chars "if iff await 1..2 ..=.5 =>= //")) =
  [(TIf, "if"); (TIdentifier, "iff"); (TReserved, "await"); (TInteger, "1"); (TRangeExclusive, ".."); (TInteger, "2");
   (TRangeInclusive, "..="); (TDot, "."); (TInteger, "5"); (TWideArrow, "=>"); (TAssign, "="); (TSlash, "/"); (TSlash, "/")]%string.
Proof. vm_compute. reflexivity. Qed.
