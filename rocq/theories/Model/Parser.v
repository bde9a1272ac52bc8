(** The parser: dice-syntax/src/parser/rules.rs and parser/mod.rs.
    Spans of nodes and the texts of error messages are not modelled; the arena is replaced by trees
    (see Ast.v).  Loops and recursive calls carry fuel; C34 shows that it never runs out. *)
From Verif.Model Require Export Lexer Ast Float.

Declare Scope parser_scope.
Notation "x <- m ;; k" := (pbind m (fun x => k)) (at level 61, m at next level, right associativity) : parser_scope.
Notation "m ;;; k" := (pbind m (fun _ => k)) (at level 61, right associativity) : parser_scope.
#[local] Open Scope parser_scope.

(** Precedence: rules.rs:275-292; derive(PartialOrd) orders variants as listed; increment, 294-313. *)
Inductive precedence :=
| PNone | PAssignment | PPipeline | PCoalesce | PRange | POr | PAnd | PComparison | PTerm | PFactor
| PUnary | PPropagate | PCall | PObject | PPrimary.
Definition rank (p : precedence) : nat :=
  match p with
  | PNone => 0 | PAssignment => 1 | PPipeline => 2 | PCoalesce => 3 | PRange => 4 | POr => 5 | PAnd => 6
  | PComparison => 7 | PTerm => 8 | PFactor => 9 | PUnary => 10 | PPropagate => 11 | PCall => 12
  | PObject => 13 | PPrimary => 14
  end.
Definition prec_gt (a b : precedence) : bool := rank b <? rank a.
Definition increment (p : precedence) : precedence :=
  match p with
  | PNone => PAssignment | PAssignment => PPipeline | PPipeline => PCoalesce | PCoalesce => PRange
  | PRange => POr | POr => PAnd | PAnd => PComparison | PComparison => PTerm | PTerm => PFactor
  | PFactor => PUnary | PUnary => PPropagate | PPropagate => PCall | PCall => PObject
  | PObject => PPrimary | PPrimary => PPrimary
  end.

(** The parser functions named in the rule table, and Rule: rules.rs:246-273. *)
Inductive prefix_fn :=
  FLiteral | FVariable | FIf | FObject | FList | FSuper | FGrouping | FBlock | FAnonymousFn | FPrefix.
Inductive infix_fn := FIndex | FField | FCall | FBinary | FErrorCoalesce | FIs.
Inductive postfix_fn := FNullPropagate | FErrorPropagate.
Record rule := Rule {
  r_prefix : option (prefix_fn * precedence);
  r_infix : option (infix_fn * precedence);
  r_postfix : option (postfix_fn * precedence) }.
Definition no_rule := Rule None None None.
Definition prefix f p := Rule (Some (f, p)) None None.
Definition infix f p := Rule None (Some (f, p)) None.
Definition postfix f p := Rule None None (Some (f, p)).

(** ParserRules::new: rules.rs:22-225. [None]: the table has no entry. *)
Definition rule_for (k : token_kind) : option rule :=
  match k with
  | TRightSquare | TRightParen | TRightCurly | TComma | TColon
  | TAssign | TMulAssign | TDivAssign | TAddAssign | TSubAssign
  | TWhile | TLoop | TFor | TLet | TFunction | TOperator | TClass | TImport | TExport
  | TReturn | TBreak | TContinue => Some no_rule                                       (* 27-48 *)
  | TInteger | TFloat | TString | TNull | TFalse | TTrue => Some (prefix FLiteral PPrimary)   (* 51-74 *)
  | TIdentifier => Some (prefix FVariable PPrimary)                                    (* 75-78 *)
  | TIf => Some (prefix FIf PNone)                                                     (* 80-83 *)
  | TObject => Some (prefix FObject PPrimary)                                          (* 86-89 *)
  | TLeftSquare => Some (Rule (Some (FList, PPrimary)) (Some (FIndex, PCall)) None)    (* 91-96 *)
  | TDot => Some (infix FField PCall)                                                  (* 97-100 *)
  | TSuper => Some (prefix FSuper PCall)                                               (* 101-104 *)
  | TLeftParen => Some (Rule (Some (FGrouping, PPrimary)) (Some (FCall, PCall)) None)  (* 107-112 *)
  | TBackslashArg => Some (infix FCall PCall)                                          (* 113-116 *)
  | TLeftCurly => Some (prefix FBlock PNone)                                           (* 117-120 *)
  | TPipeline => Some (infix FBinary PPipeline)                                        (* 123-126 *)
  | TCoalesce => Some (infix FBinary PCoalesce)                                        (* 127-130 *)
  | TErrorCoalesce => Some (infix FErrorCoalesce PCoalesce)                            (* 131-134 *)
  | TRangeExclusive | TRangeInclusive => Some (infix FBinary PRange)                   (* 135-142 *)
  | TLazyAnd => Some (infix FBinary PAnd)                                              (* 143-146 *)
  | TPipe => Some (Rule (Some (FAnonymousFn, PPrimary)) (Some (FBinary, POr)) None)    (* 147-152 *)
  | TEqual | TNotEqual | TGreater | TGreaterEqual | TLess | TLessEqual => Some (infix FBinary PComparison)  (* 153-176 *)
  | TIs => Some (infix FIs PComparison)                                                (* 177-180 *)
  | TStar | TSlash | TRemainder => Some (infix FBinary PFactor)                        (* 181-192 *)
  | TPlus => Some (infix FBinary PTerm)                                                (* 193-196 *)
  | TMinus => Some (Rule (Some (FPrefix, PUnary)) (Some (FBinary, PTerm)) None)        (* 197-202 *)
  | TNot => Some (prefix FPrefix PUnary)                                               (* 203-206 *)
  | TQuestionMark => Some (postfix FNullPropagate PPropagate)                          (* 207-210 *)
  | TErrorPropagate => Some (postfix FErrorPropagate PPropagate)                       (* 211-214 *)
  | TEndOfInput => Some no_rule                                                        (* 217 *)
  | TArrow | TWideArrow | TElse | TMut | TIn | TAs | TFrom | TReserved | TError => None
  end.
(** for_token: rules.rs:227-240; a missing rule reaches todo!(). *)
Definition for_token (t : token) : P rule :=
  match rule_for (tk_kind t) with Some r => pret r | None => ppanic end.

Definition peek_kind : P token_kind := t <- peek ;; pret (tk_kind t).
Definition is_kind (k : token_kind) : P bool := k' <- peek_kind ;; pret (kind_eqb k' k).

(** process_string: parser/mod.rs:1132-1136, input[1..input.len() - 1]. *)
Definition process_string (s : string) : P string :=
  let n := String.length s in
  if n <? 2 then ppanic else pret (String.substring 1 (n - 2) s).

(** str::parse::<i64> on a slice of digits (parser/mod.rs:1015): digit by digit with checked
    multiplication and addition. *)
Definition digit (c : char) : Z := (Z.of_N c - 48)%Z.
Fixpoint parse_digits (acc : Z) (t : list char) : outcome Z :=
  match t with
  | [] => Ok acc
  | c :: r =>
      if is_digit c then
        let m := (acc * 10)%Z in
        if (i64_max <? m)%Z then Err INVALID_INTEGER_VALUE
        else if (i64_max <? m + digit c)%Z then Err INVALID_INTEGER_VALUE
        else parse_digits (m + digit c) r
      else Err INVALID_INTEGER_VALUE
  end.
Definition parse_i64 (t : list char) : outcome Z :=
  match t with [] => Err INVALID_INTEGER_VALUE | _ => parse_digits 0 t end.

(** str::parse::<f64> on digits '.' digits (parser/mod.rs:1026): the nearest f64, ties to even.  The
    value is m / 10^k; it is scaled to an integer of more than 64 bits, whose last bit is set when
    the scaling was inexact, and rounded once. *)
Fixpoint digits_value (acc : Z) (t : list char) : Z :=
  match t with [] => acc | c :: r => digits_value (acc * 10 + digit c) r end.
Definition f64_of_decimal (m : Z) (k : nat) : f64 :=
  if (m =? 0)%Z then f64_zero
  else
    let d := (10 ^ Z.of_nat k)%Z in
    let s := Z.max 0 (70 + Z.log2 d - Z.log2 m) in
    let q := (m * 2 ^ s / d)%Z in
    let r := (m * 2 ^ s mod d)%Z in
    binary_normalize prec64 emax64 (2 * q + (if r =? 0 then 0 else 1))%Z (- s - 1) false.
Definition parse_f64 (t : list char) : f64 :=
  let n := span_of is_digit t in
  let frac := skipn (S n) t in
  f64_of_decimal (digits_value 0 (firstn n t ++ frac)) (List.length frac).

(** Operators of binary_operator (parser/mod.rs:619-641), prefix_operator (671-675), op_decl (435-468),
    parse_assignment (1088-1095). *)
Definition binop_of (k : token_kind) : option binop :=
  match k with
  | TPipeline => Some BPipeline | TCoalesce => Some BCoalesce
  | TRangeExclusive => Some BRangeExclusive | TRangeInclusive => Some BRangeInclusive
  | TLazyAnd => Some BLogicalAnd | TPipe => Some BLogicalOr
  | TEqual => Some BEquals | TNotEqual => Some BNotEquals
  | TGreater => Some BGreaterThan | TGreaterEqual => Some BGreaterThanEquals
  | TLess => Some BLessThan | TLessEqual => Some BLessThanEquals
  | TPlus => Some BAdd | TMinus => Some BSubtract | TStar => Some BMultiply | TSlash => Some BDivide
  | TRemainder => Some BRemainder
  | _ => None
  end.
Definition overop_of (k : token_kind) : option overop :=
  match k with
  | TStar => Some OMultiply | TSlash => Some ODivide | TRemainder => Some ORemainder | TPlus => Some OAdd
  | TMinus => Some OSubtract | TGreater => Some OGreaterThan | TGreaterEqual => Some OGreaterThanEquals
  | TLess => Some OLessThan | TLessEqual => Some OLessThanEquals | TEqual => Some OEquals
  | TNotEqual => Some ONotEquals | TRangeExclusive => Some ORangeExclusive | TRangeInclusive => Some ORangeInclusive
  | _ => None
  end.
Definition assignop_of (k : token_kind) : option assignop :=
  match k with
  | TAssign => Some AAssign | TMulAssign => Some AMul | TDivAssign => Some ADiv
  | TAddAssign => Some AAdd | TSubAssign => Some ASub
  | _ => None
  end.

(** Comma separated items up to a closing token, the loop shared by parse_args (parser/mod.rs:497-521),
    parse_fields (553-565), fn_call (865-877), super_call (895-907), object (948-971), list (986-999). *)
Fixpoint items_until {A} (close : token_kind) (it : P A) (fuel : nat) : P (list A) :=
  match fuel with
  | 0 => fun _ => NoFuel
  | S f =>
      k <- peek_kind ;;
      if kind_eqb k close then pret []
      else
        x <- it ;;
        k' <- peek_kind ;;
        (if kind_eqb k' TComma then next ;;; pret tt
         else if kind_eqb k' close then pret tt
         else perr UNEXPECTED_TOKEN) ;;;
        rest <- items_until close it f ;;
        pret (x :: rest)
  end.
Definition comma_list {A} (close : token_kind) (it : P A) : P (list A) :=
  fun ts => (l <- items_until close it (S (List.length ts)) ;; consume close ;;; pret l) ts.

(** parse_type_annotation: parser/mod.rs:525-546. *)
Definition parse_type_annotation (delimiter : token_kind) : P type_ann :=
  consume delimiter ;;;
  name <- consume_ident ;;
  q <- is_kind TQuestionMark ;;
  (if q then next ;;; pret tt else pret tt) ;;;
  pret (TypeAnn name q).
(** parse_return: parser/mod.rs:484-490. *)
Definition parse_return : P (option type_ann) :=
  b <- is_kind TArrow ;;
  if b then (t <- parse_type_annotation TArrow ;; pret (Some t)) else pret None.
(** parse_args: parser/mod.rs:492-523. *)
Definition parse_arg : P fn_arg :=
  name <- consume_ident ;;
  b <- is_kind TColon ;;
  t <- (if b then (t <- parse_type_annotation TColon ;; pret (Some t)) else pret None) ;;
  pret (FnArg name t).
Definition parse_args (open close : token_kind) : P (list fn_arg) :=
  consume open ;;; comma_list close parse_arg.
(** parse_fields: parser/mod.rs:548-567. *)
Definition parse_fields (open close : token_kind) : P (list string) :=
  consume open ;;; comma_list close consume_ident.
(** args.len() > u8::MAX: parser/mod.rs:387-391 and 412-416. *)
Definition check_args (args : list fn_arg) : P unit :=
  if 255 <? List.length args then perr FUNCTION_HAS_TOO_MANY_ARGUMENTS else pret tt.

Section Rules.
(** The recursive calls parse_precedence and expression_sequence. *)
Variable parse_precedence : precedence -> P expr.
Variable expression_sequence : P expr.

(** parser/mod.rs:101-103. *)
Definition expression : P expr := parse_precedence PAssignment.
(** parser/mod.rs:244-250. *)
Definition block_expression : P expr :=
  consume TLeftCurly ;;; e <- expression_sequence ;; consume TRightCurly ;;; pret e.
(** parser/mod.rs:1062-1106. *)
Definition parse_assignment (lhs : expr) (can_assign : bool) : P expr :=
  k <- peek_kind ;;
  match assignop_of k with
  | Some op => if can_assign then (next ;;; rhs <- expression ;; pret (EAssignment op lhs rhs)) else pret lhs
  | None => pret lhs
  end.
(** parser/mod.rs:146-170; the recursion of "else if" is a loop here. *)
Fixpoint if_chain (fuel : nat) : P expr :=
  match fuel with
  | 0 => fun _ => NoFuel
  | S f =>
      consume TIf ;;;
      condition <- expression ;;
      primary <- block_expression ;;
      b <- is_kind TElse ;;
      if b then
        next ;;;
        k <- peek_kind ;;
        match k with
        | TIf => s <- if_chain f ;; pret (EIf condition primary (Some s))
        | TLeftCurly => s <- block_expression ;; pret (EIf condition primary (Some s))
        | _ => pret (EIf condition primary None)
        end
      else pret (EIf condition primary None)
  end.
Definition if_expression : P expr := fun ts => if_chain (S (List.length ts)) ts.
(** parser/mod.rs:172-182, 184-196, 198-213. *)
Definition loop_statement : P expr := consume TLoop ;;; b <- block_expression ;; pret (ELoop b).
Definition while_statement : P expr :=
  consume TWhile ;;; c <- expression ;; b <- block_expression ;; pret (EWhile c b).
Definition for_statement : P expr :=
  consume TFor ;;; x <- consume_ident ;; consume TIn ;;; s <- expression ;; b <- block_expression ;; pret (EFor x s b).
(** parser/mod.rs:215-242. *)
Definition control_flow : P expr :=
  t <- next ;;
  match tk_kind t with
  | TBreak => pret EBreak
  | TContinue => pret EContinue
  | TReturn =>
      b <- is_kind TRightCurly ;;
      if b then pret (EReturn None) else (e <- expression ;; pret (EReturn (Some e)))
  | _ => perr UNEXPECTED_TOKEN
  end.
(** parser/mod.rs:252-263. *)
Definition variable (can_assign : bool) : P expr :=
  t <- next ;;
  match tk_kind t with
  | TIdentifier => parse_assignment (ELitIdent (utf8 (tk_slice t))) can_assign
  | _ => perr UNEXPECTED_TOKEN
  end.
(** parser/mod.rs:265-313. *)
Definition import_decl : P expr :=
  consume TImport ;;;
  star <- is_kind TStar ;;
  m <- (if star then
          next ;;; consume TAs ;;; x <- consume_ident ;;
          c <- is_kind TComma ;;
          (if c then next ;;; pret tt else pret tt) ;;;
          pret (Some x)
        else pret None) ;;
  open <- is_kind TLeftCurly ;;
  items <- (if open then parse_fields TLeftCurly TRightCurly else pret []) ;;
  match m, items with
  | None, [] => perr INVALID_IMPORT_USAGE
  | _, _ => consume TFrom ;;; s <- consume_string ;; path <- process_string s ;; pret (EImportDecl m items path)
  end.
(** parser/mod.rs:347-381. *)
Definition var_decl : P expr :=
  consume TLet ;;;
  m <- is_kind TMut ;;
  (if m then next ;;; pret tt else pret tt) ;;;
  t <- peek ;;
  kind <- match tk_kind t with
          | TIdentifier => next ;;; pret (Singular (utf8 (tk_slice t)))
          | TLeftCurly => l <- parse_fields TLeftCurly TRightCurly ;; pret (Destructured l)
          | _ => perr UNEXPECTED_TOKEN
          end ;;
  consume TAssign ;;;
  e <- expression ;;
  pret (EVarDecl kind m e None).
(** parser/mod.rs:383-404. *)
Definition anonymous_fn : P expr :=
  args <- parse_args TPipe TPipe ;;
  check_args args ;;;
  b <- expression ;;
  pret (ELitAnonymousFn args None b).
(** parser/mod.rs:406-430. *)
Definition fn_decl : P expr :=
  consume TFunction ;;;
  name <- consume_ident ;;
  args <- parse_args TLeftParen TRightParen ;;
  check_args args ;;;
  r <- parse_return ;;
  b <- block_expression ;;
  pret (EFnDecl name args r b).
(** parser/mod.rs:432-482. *)
Definition op_decl : P expr :=
  consume TOperator ;;;
  t <- next ;;
  match overop_of (tk_kind t) with
  | None => perr UNEXPECTED_TOKEN
  | Some o =>
      args <- parse_args TLeftParen TRightParen ;;
      r <- parse_return ;;
      b <- block_expression ;;
      pret (EOpDecl o args r b)
  end.
(** parser/mod.rs:569-615. *)
Fixpoint class_items (fuel : nat) : P (list expr) :=
  match fuel with
  | 0 => fun _ => NoFuel
  | S f =>
      k <- peek_kind ;;
      match k with
      | TRightCurly => pret []
      | TFunction => x <- fn_decl ;; r <- class_items f ;; pret (x :: r)
      | TOperator => x <- op_decl ;; r <- class_items f ;; pret (x :: r)
      | _ => perr UNEXPECTED_TOKEN
      end
  end.
Definition class_decl : P expr :=
  consume TClass ;;;
  name <- consume_ident ;;
  b <- is_kind TColon ;;
  base <- (if b then (next ;;; e <- expression ;; pret (Some e)) else pret None) ;;
  consume TLeftCurly ;;;
  items <- (fun ts => class_items (S (List.length ts)) ts) ;;
  consume TRightCurly ;;;
  pret (EClassDecl name items base).
(** parser/mod.rs:315-345; an exported identifier is looked at but not taken (line 323). *)
Definition export_decl : P expr :=
  consume TExport ;;;
  t <- peek ;;
  e <- match tk_kind t with
       | TLet => var_decl
       | TFunction => fn_decl
       | TClass => class_decl
       | TIdentifier => pret (ELitIdent (utf8 (tk_slice t)))
       | _ => perr UNEXPECTED_TOKEN
       end ;;
  pret (EExportDecl e).

(** parser/mod.rs:617-655. *)
Definition binary_operator (lhs : expr) : P expr :=
  t <- next ;;
  match binop_of (tk_kind t) with
  | None => ppanic
  | Some op =>
      (if kind_eqb (tk_kind t) TPipe then consume TPipe ;;; pret tt else pret tt) ;;;
      r <- for_token t ;;
      match r_infix r with
      | None => ppanic
      | Some (_, p) => rhs <- parse_precedence (increment p) ;; pret (EBinary op lhs rhs)
      end
  end.
(** parser/mod.rs:657-666. *)
Definition is_operator (lhs : expr) : P expr := t <- parse_type_annotation TIs ;; pret (EIs lhs t).
(** parser/mod.rs:668-683. *)
Definition prefix_operator : P expr :=
  t <- next ;;
  e <- parse_precedence PUnary ;;
  match tk_kind t with
  | TMinus => pret (EPrefix Negate e)
  | TNot => pret (EPrefix Not e)
  | _ => ppanic
  end.
(** parser/mod.rs:686-694, 696-704. *)
Definition null_propagate (e : expr) : P expr := consume TQuestionMark ;;; pret (ENullPropagate e).
Definition error_propagate (e : expr) : P expr := consume TErrorPropagate ;;; pret (EErrorPropagate e).
(** parser/mod.rs:706-781. *)
Definition error_coalesce (e : expr) : P expr :=
  consume TErrorCoalesce ;;;
  name <- consume_ident ;;
  block <- block_expression ;;
  let result := "#result"%string in
  let access := EFieldAccess (ELitIdent result) "result"%string in
  pret (EBlock [EVarDecl (Singular result) false e (Some (TypeAnn "Result"%string false))]
          (Some (EIf (EFieldAccess (ELitIdent result) "is_ok"%string) access
                   (Some (EBlock [EVarDecl (Singular name) false access None] (Some block)))))).
(** parser/mod.rs:783-796, 798-811. *)
Definition index_access (e : expr) (can_assign : bool) : P expr :=
  consume TLeftSquare ;;; i <- expression ;; consume TRightSquare ;;; parse_assignment (EIndex e i) can_assign.
Definition field_access (e : expr) (can_assign : bool) : P expr :=
  consume TDot ;;; f <- consume_ident ;; parse_assignment (EFieldAccess e f) can_assign.
(** parser/mod.rs:828-844. *)
Definition grouping : P expr :=
  consume TLeftParen ;;;
  b <- is_kind TRightParen ;;
  if b then (next ;;; pret ELitUnit) else (e <- expression ;; consume TRightParen ;;; pret e).
(** parser/mod.rs:846-888. *)
Definition fn_call (f : expr) : P expr :=
  b <- is_kind TBackslashArg ;;
  if b then
    t <- next ;; s <- process_string (utf8 (tk_slice t)) ;; pret (EFnCall f [ELitString s])
  else
    consume TLeftParen ;;; args <- comma_list TRightParen expression ;; pret (EFnCall f args).
(** parser/mod.rs:890-914, 916-940, 813-826. *)
Definition super_call : P expr := consume TLeftParen ;;; args <- comma_list TRightParen expression ;; pret (ESuperCall args).
Definition super_method_access : P expr :=
  b <- is_kind TLeftSquare ;;
  c <- (if b then (next ;;; x <- consume_ident ;; consume TRightSquare ;;; pret (Some x)) else pret None) ;;
  consume TDot ;;;
  f <- consume_ident ;;
  pret (ESuperAccess f c).
Definition super_access : P expr :=
  consume TSuper ;;;
  k <- peek_kind ;;
  match k with
  | TDot | TLeftSquare => super_method_access
  | TLeftParen => super_call
  | _ => perr UNEXPECTED_TOKEN
  end.
(** parser/mod.rs:942-979; a key is the slice of its token, quotes included (line 951). *)
Definition property : P (string * expr) :=
  t <- consume_one_of [TString; TInteger; TIdentifier] ;;
  consume TColon ;;;
  e <- expression ;;
  pret (utf8 (tk_slice t), e).
Definition object : P expr :=
  consume TObject ;;; consume TLeftCurly ;;; l <- comma_list TRightCurly property ;; pret (ELitObject l).
(** parser/mod.rs:981-1007. *)
Definition list_literal : P expr := consume TLeftSquare ;;; l <- comma_list TRightSquare expression ;; pret (ELitList l).
(** parser/mod.rs:1009-1060. *)
Definition literal : P expr :=
  t <- next ;;
  match tk_kind t with
  | TInteger => z <- (fun ts => omap (fun z => (z, ts)) (parse_i64 (tk_slice t))) ;; pret (ELitInt z)
  | TFloat => pret (ELitFloat (parse_f64 (tk_slice t)))
  | TString => s <- process_string (utf8 (tk_slice t)) ;; pret (ELitString s)
  | TFalse => pret (ELitBool false)
  | TTrue => pret (ELitBool true)
  | TNull => pret ELitNull
  | _ => perr UNEXPECTED_TOKEN
  end.

Definition run_prefix (f : prefix_fn) (can_assign : bool) : P expr :=
  match f with
  | FLiteral => literal | FVariable => variable can_assign | FIf => if_expression | FObject => object
  | FList => list_literal | FSuper => super_access | FGrouping => grouping | FBlock => block_expression
  | FAnonymousFn => anonymous_fn | FPrefix => prefix_operator
  end.
Definition run_infix (f : infix_fn) (lhs : expr) (can_assign : bool) : P expr :=
  match f with
  | FIndex => index_access lhs can_assign | FField => field_access lhs can_assign | FCall => fn_call lhs
  | FBinary => binary_operator lhs | FErrorCoalesce => error_coalesce lhs | FIs => is_operator lhs
  end.
Definition run_postfix (f : postfix_fn) (e : expr) : P expr :=
  match f with FNullPropagate => null_propagate e | FErrorPropagate => error_propagate e end.

(** The loop of parse_precedence: parser/mod.rs:117-141. *)
Fixpoint operators_loop (prec : precedence) (node : expr) (fuel : nat) : P expr :=
  match fuel with
  | 0 => fun _ => NoFuel
  | S f =>
      t <- peek ;;
      r <- for_token t ;;
      let can_assign := negb (prec_gt prec PAssignment) in
      match r_postfix r, r_infix r with
      | Some (p, q), _ =>
          if prec_gt prec q then pret node
          else (n <- run_postfix p node ;; operators_loop prec n f)
      | None, Some (i, q) =>
          if prec_gt prec q then pret node
          else (n <- run_infix i node can_assign ;; operators_loop prec n f)
      | None, None => pret node
      end
  end.
(** parse_precedence: parser/mod.rs:105-144. *)
Definition parse_precedence_body (prec : precedence) : P expr :=
  t <- peek ;;
  r <- for_token t ;;
  node <- match r_prefix r with
          | Some (p, _) => run_prefix p (negb (prec_gt prec PAssignment))
          | None => perr UNEXPECTED_TOKEN
          end ;;
  (fun ts => operators_loop prec node (S (List.length ts)) ts).

(** The statement dispatch of expression_sequence: parser/mod.rs:67-79. *)
Definition statement (k : token_kind) : P expr :=
  match k with
  | TLoop => loop_statement | TWhile => while_statement | TFor => for_statement | TLet => var_decl
  | TFunction => fn_decl | TOperator => op_decl | TClass => class_decl | TImport => import_decl
  | TExport => export_decl | TReturn | TBreak | TContinue => control_flow
  | _ => expression
  end.
Definition ends_block (k : token_kind) : bool := match k with TEndOfInput | TRightCurly => true | _ => false end.
(** expression_sequence: parser/mod.rs:60-99; answers the statements and the trailing expression. *)
Fixpoint statements (fuel : nat) : P (list expr * option expr) :=
  match fuel with
  | 0 => fun _ => NoFuel
  | S f =>
      k <- peek_kind ;;
      if ends_block k then pret ([], None)
      else
        e <- statement k ;;
        k' <- peek_kind ;;
        if ends_block k' then pret ([], Some e)
        else (r <- statements f ;; pret (e :: fst r, snd r))
  end.
Definition expression_sequence_body : P expr :=
  r <- (fun ts => statements (S (List.length ts)) ts) ;; pret (EBlock (fst r) (snd r)).
End Rules.

(** The recursion between parse_precedence and expression_sequence. *)
Record parsers := Parsers { p_prec : precedence -> P expr; p_seq : P expr }.
Fixpoint parser (fuel : nat) : parsers :=
  match fuel with
  | 0 => Parsers (fun _ _ => NoFuel) (fun _ => NoFuel)
  | S f =>
      let r := parser f in
      Parsers (parse_precedence_body (p_prec r) (p_seq r)) (expression_sequence_body (p_prec r) (p_seq r))
  end.

(** Parser::parse: parser/mod.rs:54-58, with the tokens it leaves unread. *)
Definition parse_tokens (ts : list token) : outcome (expr * list token) :=
  p_seq (parser (2 + 2 * List.length ts)) ts.
Definition parse (t : list char) : outcome expr := omap fst (parse_tokens (tokenize t)).
