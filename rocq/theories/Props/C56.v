(** Property C56: a program is read as the sequence of its statements.
    Specification: Spec/GrammarSpec.v (statements, blocks, declarations and expressions by tokens),
    Spec/LexSpec.v (the tokens of a text). *)
From Verif.Model Require Import Parser.
From Verif.Spec Require Import LexSpec ParseSpec GrammarSpec.
From Verif.Proofs Require Import RoundTripP ProgramSampleP PrintP.

(** C56.  However a program is laid out, of whatever length and nesting: when the tokens of a text write
    the statements [es] and then [t], the text is read as exactly these. *)
Theorem C56_programs_are_read_as_written : forall text es t ts,
  tokens_of 0 text ts -> writes_seq false es t ts -> parse text = Ok (EBlock es t).
Proof. exact program_source_inverted. Qed.
Print Assumptions C56_programs_are_read_as_written.
(** No token sequence writes two programs. *)
Theorem C56_programs_are_unambiguous : forall es t es' t' ts,
  writes_seq false es t ts -> writes_seq false es' t' ts -> es = es' /\ t = t'.
Proof. exact program_unambiguous. Qed.
Print Assumptions C56_programs_are_unambiguous.
(** An import, a class with a method and an operator, an exported function with an else-if chain, a
    destructuring declaration, loops, an exported name, and an [or] expression. *)
Example C56_nonvacuous : exists ts, tokens_of 0 sample_text ts /\ writes_seq false sample_statements (Some sample_last) ts.
Proof. exact sample_written. Qed.
(** A finding: a line end does not end a statement; two texts that are each a statement need not be two
    statements when they stand on two lines. *)
Theorem C56_line_ends_separate_statements_refuted :
  ~ (forall a b e f, parse a = Ok (EBlock [] (Some e)) -> parse b = Ok (EBlock [] (Some f)) ->
       parse (a ++ chars "
" ++ b) = Ok (EBlock [e] (Some f))).
Proof. exact lines_refuted. Qed.
Print Assumptions C56_line_ends_separate_statements_refuted.
Example C56_lines_joined :
  parse (chars "let x = a
(b)") = parse (chars "let x = a(b)") /\
  parse (chars "x
-y") = parse (chars "x - y").
Proof. vm_compute. split; reflexivity. Qed.
(** A finding: an [else] that is followed by neither a block nor an [if] is dropped, and what follows it
    becomes the next statement, which runs in either case. *)
Theorem C56_else_without_block_refuted :
  parse (chars "if a { b } else c") =
    Ok (EBlock [EIf (ELitIdent "a") (EBlock [] (Some (ELitIdent "b"))) None] (Some (ELitIdent "c"))).
Proof. exact else_dropped. Qed.
Print Assumptions C56_else_without_block_refuted.
