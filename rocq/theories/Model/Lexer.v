(** Tokens: dice-syntax/src/lexer/token.rs, lexer_result.rs and lexer/mod.rs.
    token.rs derives its scanner with the logos crate, which is not part of the repository: modelled
    is logos' documented meaning of the rules in token.rs:78-227.  The longest match wins; between
    matches of one length the spelled-out token (#[token]) and the keyword alternatives win against
    the identifier pattern; where no rule matches, one character becomes an Error token.  A callback
    that returns false turns the match of its rule (here always one character) into an Error token. *)
From Coq Require Export Ascii.
From Verif.Model Require Export Source Bytecode.

(** TokenKind: token.rs:81-227. *)
Inductive token_kind :=
| TEndOfInput
| TLeftParen | TRightParen | TLeftCurly | TRightCurly | TLeftSquare | TRightSquare | TColon | TComma | TPipe
| TRangeExclusive | TRangeInclusive | TArrow | TWideArrow | TDot | TQuestionMark | TErrorPropagate | TCoalesce
| TErrorCoalesce | TMinus | TPlus | TRemainder | TStar | TSlash | TNot | TNotEqual | TEqual | TGreater
| TGreaterEqual | TLess | TLessEqual | TAssign | TMulAssign | TDivAssign | TAddAssign | TSubAssign
| TLazyAnd | TPipeline
| TObject | TFalse | TTrue | TNull | TIf | TElse | TWhile | TLoop | TFor | TBreak | TContinue | TReturn
| TFunction | TLet | TMut | TIn | TOperator | TClass | TIs | TImport | TAs | TFrom | TExport | TSuper
| TReserved
| TIdentifier | TInteger | TFloat | TString | TBackslashArg
| TError.

Definition kind_eqb (a b : token_kind) : bool.
Proof. refine (if _ : {a = b} + {a <> b} then true else false). decide equality. Defined.

(** Token: token.rs:20-25.  The span starts at [tk_start] and ends after the bytes of the slice.
    [tk_error]: TokenIter::next (token.rs:62-75) yields Err with this code in place of the token, which
    happens when the callback stored an error in the extras (lexer_result.rs:5-16). *)
Record token := Tok { tk_kind : token_kind; tk_start : nat; tk_slice : list char; tk_error : option errcode }.
Definition tk_span (t : token) : span := Span (tk_start t) (tk_start t + text_len (tk_slice t)).

(** A text spelled with one-byte characters; the bytes of a text. *)
Fixpoint chars (s : string) : list char :=
  match s with EmptyString => [] | String a r => N_of_ascii a :: chars r end.
Definition utf8_byte (n : N) (s : string) : string := String (ascii_of_N n) s.
Definition utf8_char (c : char) (s : string) : string :=
  (if c <? 128 then utf8_byte c s
   else if c <? 2048 then utf8_byte (192 + c / 64) (utf8_byte (128 + c mod 64) s)
   else if c <? 65536 then utf8_byte (224 + c / 4096) (utf8_byte (128 + (c / 64) mod 64) (utf8_byte (128 + c mod 64) s))
   else utf8_byte (240 + c / 262144) (utf8_byte (128 + (c / 4096) mod 64)
          (utf8_byte (128 + (c / 64) mod 64) (utf8_byte (128 + c mod 64) s))))%N.
Fixpoint utf8 (t : list char) : string :=
  match t with [] => EmptyString | c :: r => utf8_char c (utf8 r) end.

(** Character classes of the patterns in token.rs:212-226. *)
Definition between (a b c : N) : bool := ((a <=? c) && (c <=? b))%N.
Definition is_digit (c : char) : bool := between 48 57 c.
Definition is_ident_start (c : char) : bool := (c =? 95)%N || between 97 122 c || between 65 90 c.
Definition is_ident_char (c : char) : bool := is_ident_start c || is_digit c.
Definition is_space (c : char) : bool := (c =? 32)%N || (c =? 9)%N || (c =? 13)%N || (c =? 10)%N || (c =? 12)%N.
Definition is_eol (c : char) : bool := (c =? 13)%N || (c =? 10)%N.

(** The longest prefix of characters in a class: [+] and [*] of a pattern. *)
Fixpoint span_of (p : char -> bool) (t : list char) : nat :=
  match t with c :: r => if p c then S (span_of p r) else 0 | [] => 0 end.

(** Spelled-out tokens that are not words, token.rs:85-165. *)
Definition operators : list (string * token_kind) :=
  [("(", TLeftParen); (")", TRightParen); ("{", TLeftCurly); ("}", TRightCurly); ("[", TLeftSquare);
   ("]", TRightSquare); (":", TColon); (",", TComma); ("|", TPipe); ("..", TRangeExclusive);
   ("..=", TRangeInclusive); ("->", TArrow); ("=>", TWideArrow); (".", TDot); ("?", TQuestionMark);
   ("!!", TErrorPropagate); ("??", TCoalesce); ("-", TMinus); ("+", TPlus); ("%", TRemainder);
   ("*", TStar); ("/", TSlash); ("!", TNot); ("!=", TNotEqual); ("==", TEqual); (">", TGreater);
   (">=", TGreaterEqual); ("<", TLess); ("<=", TLessEqual); ("=", TAssign); ("*=", TMulAssign);
   ("/=", TDivAssign); ("+=", TAddAssign); ("-=", TSubAssign); ("&&", TLazyAnd); ("|>", TPipeline);
   ("#", TObject)]%string.
(** Words, token.rs:124 and 166-210. *)
Definition words : list (string * token_kind) :=
  [("or", TErrorCoalesce); ("false", TFalse); ("true", TTrue); ("null", TNull); ("if", TIf); ("else", TElse);
   ("while", TWhile); ("loop", TLoop); ("for", TFor); ("break", TBreak); ("continue", TContinue);
   ("return", TReturn); ("fn", TFunction); ("let", TLet); ("mut", TMut); ("in", TIn); ("op", TOperator);
   ("class", TClass); ("is", TIs); ("import", TImport); ("as", TAs); ("from", TFrom); ("export", TExport);
   ("super", TSuper);
   ("await", TReserved); ("async", TReserved); ("yield", TReserved); ("do", TReserved); ("const", TReserved);
   ("match", TReserved); ("enum", TReserved); ("trait", TReserved); ("type", TReserved); ("try", TReserved);
   ("when", TReserved); ("default", TReserved); ("switch", TReserved)]%string.
Definition word_kind (w : list char) : token_kind :=
  match find (fun p => String.eqb (fst p) (utf8 w)) words with Some p => snd p | None => TIdentifier end.

Fixpoint is_prefix (p t : list char) : bool :=
  match p, t with
  | [], _ => true
  | a :: p', b :: t' => (a =? b)%N && is_prefix p' t'
  | _ :: _, [] => false
  end.
(** The longest operator that the text starts with. *)
Definition longer (t : list char) (best : option (nat * token_kind)) (p : string * token_kind) : option (nat * token_kind) :=
  let n := List.length (chars (fst p)) in
  if is_prefix (chars (fst p)) t then
    match best with
    | Some (m, _) => if m <? n then Some (n, snd p) else best
    | None => Some (n, snd p)
    end
  else best.
Definition operator_at (t : list char) : option (nat * token_kind) := fold_left (longer t) operators None.

(** lex_string, token.rs:332-383: characters up to and including the closing quote; [inr] when the
    callback returns false, with the error it stored.  The String [result] it builds is not used. *)
Definition is_escape (c : char) : bool :=
  (c =? 34)%N || (c =? 92)%N || (c =? 110)%N || (c =? 114)%N || (c =? 116)%N.
Fixpoint lex_string (t : list char) : nat + option errcode :=
  match t with
  | [] => inr None
  | c :: r =>
      if (c =? 34)%N then inl 1
      else if (c =? 92)%N then
        match r with
        | [] => inr (Some UNTERMINATED_STRING)
        | d :: r' =>
            if is_escape d then match lex_string r' with inl n => inl (S (S n)) | inr e => inr e end
            else inr (Some INVALID_ESCAPE_SEQUENCE)
        end
      else match lex_string r with inl n => inl (S n) | inr e => inr e end
  end.
(** lex_backslash_arg, token.rs:305-330. *)
Fixpoint lex_backslash (t : list char) : nat + option errcode :=
  match t with
  | [] => inr None
  | c :: r => if (c =? 92)%N then inl 1 else match lex_backslash r with inl n => inl (S n) | inr e => inr e end
  end.

(** One step of the scanner on a text that starts with [c]: skip [n] characters, or make a token of them. *)
Inductive lexed := LSkip (n : nat) | LToken (k : token_kind) (e : option errcode) (n : nat).
Definition callback (k : token_kind) (r : nat + option errcode) : lexed :=
  match r with inl n => LToken k None (S n) | inr e => LToken TError e 1 end.
Definition lex_step (c : char) (r : list char) : lexed :=
  if is_space c then LSkip (S (span_of is_space r))
  else if is_prefix (chars "//") (c :: r) && match r with _ :: d :: _ => negb (is_eol d) | _ => false end
  then LSkip (S (span_of (fun d => negb (is_eol d)) r))
  else if is_ident_start c then
    let n := S (span_of is_ident_char r) in LToken (word_kind (firstn n (c :: r))) None n
  else if is_digit c then
    let n := S (span_of is_digit r) in
    match skipn n (c :: r) with
    | d :: e :: r' =>
        if (d =? 46)%N && is_digit e then LToken TFloat None (n + 2 + span_of is_digit r') else LToken TInteger None n
    | _ => LToken TInteger None n
    end
  else if (c =? 34)%N then callback TString (lex_string r)
  else if (c =? 92)%N then callback TBackslashArg (lex_backslash r)
  else match operator_at (c :: r) with
       | Some (n, k) => LToken k None n
       | None => LToken TError None 1
       end.

(** TokenIter: token.rs:46-76, run to its end.  [pos] is the byte offset.  The fuel is the length of
    the text: a step takes at least one character (see C31). *)
Fixpoint lex_from (fuel pos : nat) (t : list char) : list token :=
  match fuel, t with
  | S f, c :: r =>
      match lex_step c r with
      | LSkip n => lex_from f (pos + text_len (firstn n t)) (skipn n t)
      | LToken k e n =>
          Tok k pos (firstn n t) e :: lex_from f (pos + text_len (firstn n t)) (skipn n t)
      end
  | _, _ => []
  end.
Definition tokenize (t : list char) : list token := lex_from (List.length t) 0 t.

(** Lexer: lexer/mod.rs:16-122.  The state is the list of tokens not yet taken; [current] is used for
    spans only, which the syntax trees of this model leave out.  A parser is a function of that state. *)
Definition P (A : Type) := list token -> outcome (A * list token).
Definition pret {A} (a : A) : P A := fun ts => Ok (a, ts).
Definition pbind {A B} (m : P A) (f : A -> P B) : P B := fun ts => obind (m ts) (fun x => f (fst x) (snd x)).
Definition perr {A} (e : errcode) : P A := fun _ => Err e.
Definition ppanic {A} : P A := fun _ => Panic.

(** The item of the token iterator, lexer/mod.rs:36-51: EndOfInput when there is none left. *)
Definition end_of_input : token := Tok TEndOfInput 0 [] None.
Definition item (ts : list token) : outcome token :=
  match ts with
  | [] => Ok end_of_input
  | t :: _ => match tk_error t with Some e => Err e | None => Ok t end
  end.
(** next, lexer/mod.rs:36-43; peek, 45-50. *)
Definition next : P token := fun ts => omap (fun t => (t, tl ts)) (item ts).
Definition peek : P token := fun ts => omap (fun t => (t, ts)) (item ts).
(** consume and consume_one_of, lexer/mod.rs:52-68 and 105-121. *)
Definition consume_one_of (ks : list token_kind) : P token :=
  pbind next (fun t => if existsb (kind_eqb (tk_kind t)) ks then pret t else perr UNEXPECTED_TOKEN).
Definition consume (k : token_kind) : P token := consume_one_of [k].
(** consume_ident, lexer/mod.rs:70-86; consume_string, 88-103. *)
Definition consume_ident : P string := pbind (consume TIdentifier) (fun t => pret (utf8 (tk_slice t))).
Definition consume_string : P string := pbind (consume TString) (fun t => pret (utf8 (tk_slice t))).
