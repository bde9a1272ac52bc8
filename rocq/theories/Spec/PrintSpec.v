(** Writing an expression tree as source text with as few parentheses as its operators' levels allow:
    an expression is parenthesized exactly when it is looser than its place requires.  The words are
    separated by single spaces. *)
From Coq Require Import ZArith.
From Verif.Model Require Import Lexer Ast.
From Verif.Spec Require Import LexSpec GrammarSpec.

(** A word of the text with the kind of token it spells. *)
Definition word : Type := token_kind * list char.
Definition sym (k : token_kind) : word := (k, match symbol k with Some s => chars s | None => [] end).
Definition name_word (x : string) : word := (TIdentifier, chars x).

(** Decimal digits, the last one first to be split off; numbers below 10^n. *)
Fixpoint digits (n : nat) (z : Z) : list char :=
  match n with
  | 0 => []
  | S m => (if (z <? 10)%Z then [] else digits m (z / 10)) ++ [Z.to_N (48 + z mod 10)]
  end.

(** The level of the outermost operator, as in Spec/GrammarSpec.v; 12 where there is none. *)
Definition own_level (e : expr) : nat :=
  match e with
  | EAssignment _ _ _ | ELitAnonymousFn _ _ _ => 1
  | EBinary op _ _ => binary_level op
  | EIs _ _ => 7
  | EPrefix _ _ => 10
  | ENullPropagate _ | EErrorPropagate _ | EFnCall _ _ | EFieldAccess _ _ | EIndex _ _ => 11
  | _ => 12
  end.
Definition commas (l : list (list word)) : list word :=
  match l with
  | [] => []
  | x :: r => x ++ flat_map (fun y => sym TComma :: y) r
  end.
Definition type_words (t : type_ann) : list word :=
  name_word (ta_name t) :: (if ta_nullable t then [sym TQuestionMark] else []).

Fixpoint words_of (l : nat) (e : expr) : list word :=
  let inside :=
    match e with
    | ELitInt z => [(TInteger, digits 19 z)]
    | ELitString s => [(TString, chars """" ++ chars s ++ chars """")]
    | ELitBool true => [(TTrue, chars "true")]
    | ELitBool false => [(TFalse, chars "false")]
    | ELitNull => [(TNull, chars "null")]
    | ELitUnit => [sym TLeftParen; sym TRightParen]
    | ELitIdent x => [name_word x]
    | EPrefix op a => sym (prefix_symbol op) :: words_of 10 a
    | EBinary op a b => words_of (binary_level op) a ++ map sym (binary_symbols op) ++ words_of (S (binary_level op)) b
    | EIs a t => words_of 7 a ++ (TIs, chars "is") :: type_words t
    | ENullPropagate a => words_of 11 a ++ [sym TQuestionMark]
    | EErrorPropagate a => words_of 11 a ++ [sym TErrorPropagate]
    | EFieldAccess a x => words_of 11 a ++ [sym TDot; name_word x]
    | EIndex a i => words_of 11 a ++ sym TLeftSquare :: words_of 1 i ++ [sym TRightSquare]
    | EFnCall f args => words_of 11 f ++ sym TLeftParen :: commas (map (words_of 1) args) ++ [sym TRightParen]
    | ELitList items => sym TLeftSquare :: commas (map (words_of 1) items) ++ [sym TRightSquare]
    | ELitObject items => sym TObject :: sym TLeftCurly ::
        commas (map (fun p => name_word (fst p) :: sym TColon :: words_of 1 (snd p)) items) ++ [sym TRightCurly]
    | EAssignment op a b => words_of 11 a ++ sym (assign_symbol op) :: words_of 1 b
    | ELitAnonymousFn args _ body => sym TPipe :: commas (map (fun a => [name_word (fa_name a)]) args) ++ sym TPipe :: words_of 1 body
    | _ => []
    end in
  if own_level e <? l then sym TLeftParen :: inside ++ [sym TRightParen] else inside.
Definition text_of (e : expr) : list char := flat_map (fun w => snd w ++ chars " ") (words_of 1 e).

(** Names, strings and trees that can be written.  Strings are kept as written, escape sequences included. *)
Definition writable_name (x : string) : Prop :=
  starts letter (chars x) /\ all word_char (chars x) /\ (forall k, ~ In x (keyword k)).
Definition writable_string (s : string) : Prop :=
  string_tail (chars s ++ chars """") /\ all (fun c => (c < 128)%N) (chars s).
Inductive writable : expr -> Prop :=
| wr_int z : (0 <= z < 2 ^ 63)%Z -> writable (ELitInt z)
| wr_string s : writable_string s -> writable (ELitString s)
| wr_bool b : writable (ELitBool b)
| wr_null : writable ELitNull
| wr_unit : writable ELitUnit
| wr_name x : writable_name x -> writable (ELitIdent x)
| wr_prefix op a : writable a -> writable (EPrefix op a)
| wr_binary op a b : writable a -> writable b -> writable (EBinary op a b)
| wr_is a t : writable a -> writable_name (ta_name t) -> writable (EIs a t)
| wr_null_propagate a : writable a -> writable (ENullPropagate a)
| wr_error_propagate a : writable a -> writable (EErrorPropagate a)
| wr_field a x : writable a -> writable_name x -> writable (EFieldAccess a x)
| wr_index a i : writable a -> writable i -> writable (EIndex a i)
| wr_call f args : writable f -> (forall a, In a args -> writable a) -> writable (EFnCall f args)
| wr_list items : (forall a, In a items -> writable a) -> writable (ELitList items)
| wr_object items : (forall x a, In (x, a) items -> writable_name x) -> (forall x a, In (x, a) items -> writable a) -> writable (ELitObject items)
| wr_assign op a b :
    match a with ELitIdent _ | EFieldAccess _ _ | EIndex _ _ => True | _ => False end ->
    writable a -> writable b -> writable (EAssignment op a b)
| wr_function args body :
    (forall a, In a args -> writable_name (fa_name a) /\ fa_type a = None) -> List.length args <= 255 -> writable body ->
    writable (ELitAnonymousFn args None body).
