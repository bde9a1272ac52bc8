(** How a source text is cut into tokens, written from the language's point of view (the rules in
    dice-syntax/src/lexer/token.rs), without the scanning functions of the model. *)
From Verif.Model Require Import Lexer.

(** * Words and operators *)
(** Keywords and reserved words, token.rs:124 and 166-210. *)
Definition keyword (k : token_kind) : list string :=
  match k with
  | TErrorCoalesce => ["or"] | TFalse => ["false"] | TTrue => ["true"] | TNull => ["null"] | TIf => ["if"]
  | TElse => ["else"] | TWhile => ["while"] | TLoop => ["loop"] | TFor => ["for"] | TBreak => ["break"]
  | TContinue => ["continue"] | TReturn => ["return"] | TFunction => ["fn"] | TLet => ["let"] | TMut => ["mut"]
  | TIn => ["in"] | TOperator => ["op"] | TClass => ["class"] | TIs => ["is"] | TImport => ["import"]
  | TAs => ["as"] | TFrom => ["from"] | TExport => ["export"] | TSuper => ["super"]
  | TReserved => ["await"; "async"; "yield"; "do"; "const"; "match"; "enum"; "trait"; "type"; "try"; "when"; "default"; "switch"]
  | _ => []
  end%string.
(** Operators and delimiters, token.rs:85-165 and 168. *)
Definition symbol (k : token_kind) : option string :=
  match k with
  | TLeftParen => Some "(" | TRightParen => Some ")" | TLeftCurly => Some "{" | TRightCurly => Some "}"
  | TLeftSquare => Some "[" | TRightSquare => Some "]" | TColon => Some ":" | TComma => Some "," | TPipe => Some "|"
  | TRangeExclusive => Some ".." | TRangeInclusive => Some "..=" | TArrow => Some "->" | TWideArrow => Some "=>"
  | TDot => Some "." | TQuestionMark => Some "?" | TErrorPropagate => Some "!!" | TCoalesce => Some "??"
  | TMinus => Some "-" | TPlus => Some "+" | TRemainder => Some "%" | TStar => Some "*" | TSlash => Some "/"
  | TNot => Some "!" | TNotEqual => Some "!=" | TEqual => Some "==" | TGreater => Some ">" | TGreaterEqual => Some ">="
  | TLess => Some "<" | TLessEqual => Some "<=" | TAssign => Some "=" | TMulAssign => Some "*=" | TDivAssign => Some "/="
  | TAddAssign => Some "+=" | TSubAssign => Some "-=" | TLazyAnd => Some "&&" | TPipeline => Some "|>"
  | TObject => Some "#"
  | _ => None
  end%string.

(** * Characters *)
Definition char_in (s : string) (c : char) : Prop := In c (chars s).
Definition letter (c : char) : Prop := char_in "abcdefghijklmnopqrstuvwxyzABCDEFGHIJKLMNOPQRSTUVWXYZ_" c.
Definition digit_char (c : char) : Prop := char_in "0123456789" c.
Definition word_char (c : char) : Prop := letter c \/ digit_char c.
Definition white (c : char) : Prop := In c [32; 9; 13; 10; 12]%N.
Definition line_end (c : char) : Prop := In c [13; 10]%N.
Definition starts (p : char -> Prop) (t : list char) : Prop := match t with c :: _ => p c | [] => False end.
Definition all (p : char -> Prop) (t : list char) : Prop := Forall p t.

(** A comment: two slashes and at least one more character of the line. *)
Definition comment_starts (t : list char) : Prop :=
  exists c r, t = chars "//" ++ c :: r /\ ~ line_end c.

(** Text without tokens: white space and comments; a comment extends to the end of its line. [rest] is
    the text that follows. *)
Inductive blank (rest : list char) : list char -> Prop :=
| blank_nil : blank rest []
| blank_white c t : white c -> blank rest t -> blank rest (c :: t)
| blank_comment body t :
    body <> [] -> all (fun c => ~ line_end c) body -> (t ++ rest = [] \/ starts line_end (t ++ rest)) ->
    blank rest t -> blank rest (chars "//" ++ body ++ t).

(** The inside of a string literal with its closing quote. *)
Inductive string_tail : list char -> Prop :=
| st_end : string_tail (chars """")
| st_char c t : ~ char_in """\" c -> string_tail t -> string_tail (c :: t)
| st_escape c t : char_in """\nrt" c -> string_tail t -> string_tail (chars "\" ++ c :: t).
(** A backslash in a string literal, before its end, that starts no escape sequence. *)
Inductive bad_string : list char -> errcode -> Prop :=
| bs_escape c t : ~ char_in """\nrt" c -> bad_string (chars "\" ++ c :: t) INVALID_ESCAPE_SEQUENCE
| bs_end : bad_string (chars "\") UNTERMINATED_STRING
| bs_char c t e : ~ char_in """\" c -> bad_string t e -> bad_string (c :: t) e
| bs_skip c t e : char_in """\nrt" c -> bad_string t e -> bad_string (chars "\" ++ c :: t) e.

(** * Tokens *)
(** [lexeme k s rest e]: where the text goes on with [s ++ rest], the next token has kind [k] and slice
    [s]; [e] is the error reported in its place. *)
Inductive lexeme : token_kind -> list char -> list char -> option errcode -> Prop :=
| lx_keyword k w rest : In (utf8 w) (keyword k) -> starts letter w -> all word_char w -> ~ starts word_char rest ->
    lexeme k w rest None
| lx_identifier w rest : (forall k, ~ In (utf8 w) (keyword k)) -> starts letter w -> all word_char w -> ~ starts word_char rest ->
    lexeme TIdentifier w rest None
| lx_integer d rest : d <> [] -> all digit_char d -> ~ starts digit_char rest ->
    ~ (exists r, rest = chars "." ++ r /\ starts digit_char r) ->
    lexeme TInteger d rest None
| lx_float d f rest : d <> [] -> f <> [] -> all digit_char d -> all digit_char f -> ~ starts digit_char rest ->
    lexeme TFloat (d ++ chars "." ++ f) rest None
| lx_string t rest : string_tail t -> lexeme TString (chars """" ++ t) rest None
| lx_bad_string rest e : bad_string rest e -> lexeme TError (chars """") rest (Some e)
| lx_open_string rest : ~ (exists t r, rest = t ++ r /\ string_tail t) -> ~ (exists e, bad_string rest e) ->
    lexeme TError (chars """") rest None
| lx_backslash t rest : all (fun c => ~ char_in "\" c) t -> lexeme TBackslashArg (chars "\" ++ t ++ chars "\") rest None
| lx_open_backslash rest : all (fun c => ~ char_in "\" c) rest -> lexeme TError (chars "\") rest None
| lx_symbol k s rest :
    symbol k = Some s -> ~ comment_starts (chars s ++ rest) ->
    (forall k' s' r, symbol k' = Some s' -> chars s ++ rest = chars s' ++ r -> String.length s' <= String.length s) ->
    lexeme k (chars s) rest None
| lx_unknown c rest :
    ~ white c -> ~ word_char c -> ~ char_in """\" c ->
    (forall k s r, symbol k = Some s -> c :: rest <> chars s ++ r) ->
    lexeme TError [c] rest None.

(** The tokens of a text that starts at byte [pos]: blanks and tokens alternate and make up the text. *)
Inductive tokens_of : nat -> list char -> list token -> Prop :=
| to_end pos g : blank [] g -> tokens_of pos g []
| to_token pos g k s rest e ts :
    blank (s ++ rest) g -> lexeme k s rest e -> s <> [] -> ~ starts white s -> ~ comment_starts (s ++ rest) ->
    tokens_of (pos + text_len (g ++ s)) rest ts ->
    tokens_of pos (g ++ s ++ rest) (Tok k (pos + text_len g) s e :: ts).
