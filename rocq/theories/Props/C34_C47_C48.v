(** Properties C34, C47 and C48: parsing terminates; when it panics; what it leaves unread. *)
From Verif.Model Require Import Parser.
From Verif.Spec Require Import LexSpec ParseSpec GrammarSpec.
From Verif.Proofs Require Import ParserP ParserFuelP ParserDepthP SourceTextP RoundTripP PrintP ParserCleanP.

(** C34.  Parsing ends: the nesting depth of the recursion needs at most 2 + 2 n levels for n tokens ... *)
Theorem C34_parsing_terminates : forall t, parse t <> NoFuel.
Proof. exact parse_total. Qed.
Print Assumptions C34_parsing_terminates.
(** ... more room changes nothing ... *)
Theorem C34_no_bound_matters : forall d ts, 2 + 2 * List.length ts <= d -> p_seq (parser d) ts = parse_tokens ts.
Proof. exact enough_fuel. Qed.
Print Assumptions C34_no_bound_matters.
(** ... and what is left unread is the end of the input. *)
Theorem C34_reads_from_the_left : forall ts e rest, parse_tokens ts = Ok (e, rest) -> exists used, ts = used ++ rest.
Proof. exact (fun ts e rest E => match parse_tokens_prefix ts e rest E with ex_intro _ u (conj H _) => ex_intro _ u H end). Qed.
Print Assumptions C34_reads_from_the_left.
Example C34_nonvacuous :
  parse (chars "((((1") = Err UNEXPECTED_TOKEN /\ omap (fun _ => tt) (parse (chars "fn f(x) { if x { [1, |y| y] } else { #{a: 2} } } f")) = Ok tt.
Proof. vm_compute. split; reflexivity. Qed.

(** C47, refuted: a program that starts with a token that no rule mentions panics ... *)
Theorem C47_parsing_never_panics_refuted : forall t tk r, tokenize t = tk :: r -> tk_error tk = None ->
  In (tk_kind tk) [TArrow; TWideArrow; TElse; TMut; TIn; TAs; TFrom; TReserved; TError] -> parse t = Panic.
Proof. exact no_rule_text. Qed.
Print Assumptions C47_parsing_never_panics_refuted.
(** ... and these tokens are the only way to a panic. *)
Theorem C47_only_unruled_tokens_panic : forall t, parse t = Panic ->
  exists tk, In tk (tokenize t) /\ tk_error tk = None /\
    In (tk_kind tk) [TArrow; TWideArrow; TElse; TMut; TIn; TAs; TFrom; TReserved; TError].
Proof. exact parse_panic. Qed.
Print Assumptions C47_only_unruled_tokens_panic.
(** An unknown character, an unterminated string, a reserved word, "else" without "if", "x => 1". *)
Example C47_nonvacuous :
  map (fun s => parse (chars s)) ["~"; """abc"; "await x"; "else"; "x => 1"]%string = [Panic; Panic; Panic; Panic; Panic] /\
  parse (chars """\q""") = Err INVALID_ESCAPE_SEQUENCE.
Proof. vm_compute. split; reflexivity. Qed.

(** C48, refuted: after an expression and a closing brace, whatever follows is ignored. *)
Theorem C48_whole_source_parsed_refuted : forall e ts c rest, writes 1 e ts -> is_symbol TRightCurly c ->
  parse_tokens (ts ++ c :: rest) = Ok (EBlock [] (Some e), c :: rest).
Proof. exact stray_brace. Qed.
Print Assumptions C48_whole_source_parsed_refuted.
(** What holds: the tokens read have as many closing as opening braces, and when every closing brace
    closes an earlier opening one the whole source is read. *)
Theorem C48_read_part_is_balanced : forall ts e rest, parse_tokens ts = Ok (e, rest) -> exists used, ts = used ++ rest /\ depth used = 0%Z.
Proof. exact parse_tokens_prefix. Qed.
Print Assumptions C48_read_part_is_balanced.
Theorem C48_balanced_source_is_read : forall t e rest, braces_match (tokenize t) -> parse_tokens (tokenize t) = Ok (e, rest) -> rest = [].
Proof. exact parse_uses_all. Qed.
Print Assumptions C48_balanced_source_is_read.
(** Nothing that is not part of the language is read: no text the lexer does not know or refuses, no
    reserved word, no wide arrow. *)
Theorem C48_read_part_is_clean : forall ts e rest, parse_tokens ts = Ok (e, rest) ->
  exists used, ts = used ++ rest /\ Forall (fun t => tk_error t = None /\ ~ In (tk_kind t) [TWideArrow; TReserved; TError]) used.
Proof. exact parse_tokens_clean. Qed.
Print Assumptions C48_read_part_is_clean.
Example C48_nonvacuous :
  parse (chars "1 } ) ~ await") = parse (chars "1") /\
  omap (fun r => List.length (snd r)) (parse_tokens (tokenize (chars "{ 1 } { 2 }"))) = Ok 0.
Proof. vm_compute. split; reflexivity. Qed.
