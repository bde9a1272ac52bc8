(** The grammar of dice: which token sequences write which tree.  Expressions by precedence levels.
    Levels, from loose to tight: 1 assignment and function literals, 2 |>, 3 ??, 4 ranges, 5 ||, 6 &&,
    7 comparisons and [is], 8 + -, 9 * / %, 10 prefix operators, 11 ? !! calls and accesses.
    [writes l e ts]: the tokens [ts] write the tree [e] where an expression of level [l] or tighter is
    required.  Parentheses may be put around any expression.  [writes_seq false es t ts]: the tokens [ts]
    write a program of the statements [es] and the last statement [t], whose value it has. *)
From Coq Require Import ZArith.
From Verif.Model Require Import Lexer Ast Parser.
From Verif.Spec Require Import LexSpec ParseSpec.

Definition token_is (k : token_kind) (s : list char) (t : token) : Prop :=
  tk_kind t = k /\ tk_slice t = s /\ tk_error t = None.
(** A token whose spelling its kind determines. *)
Definition is_symbol (k : token_kind) (t : token) : Prop := tk_kind t = k /\ tk_error t = None.
Definition is_name (x : string) (t : token) : Prop := tk_kind t = TIdentifier /\ utf8 (tk_slice t) = x /\ tk_error t = None.
Definition is_quoted (k : token_kind) (q s : string) (t : token) : Prop := tk_kind t = k /\ utf8 (tk_slice t) = (q ++ s ++ q)%string /\ tk_error t = None.

Definition binary_level (o : binop) : nat :=
  match o with
  | BPipeline => 2 | BCoalesce => 3 | BRangeExclusive | BRangeInclusive => 4 | BLogicalOr => 5 | BLogicalAnd => 6
  | BEquals | BNotEquals | BGreaterThan | BGreaterThanEquals | BLessThan | BLessThanEquals => 7
  | BAdd | BSubtract => 8 | BMultiply | BDivide | BRemainder => 9
  end.
(** The symbols of an operator; || is two | symbols. *)
Definition binary_symbols (o : binop) : list token_kind :=
  match o with
  | BPipeline => [TPipeline] | BCoalesce => [TCoalesce] | BRangeExclusive => [TRangeExclusive] | BRangeInclusive => [TRangeInclusive]
  | BLogicalOr => [TPipe; TPipe] | BLogicalAnd => [TLazyAnd] | BEquals => [TEqual] | BNotEquals => [TNotEqual]
  | BGreaterThan => [TGreater] | BGreaterThanEquals => [TGreaterEqual] | BLessThan => [TLess] | BLessThanEquals => [TLessEqual]
  | BAdd => [TPlus] | BSubtract => [TMinus] | BMultiply => [TStar] | BDivide => [TSlash] | BRemainder => [TRemainder]
  end.
Definition prefix_symbol (o : unop) : token_kind := match o with Negate => TMinus | Not => TNot end.
Definition assign_symbol (o : assignop) : token_kind :=
  match o with AAssign => TAssign | AMul => TMulAssign | ADiv => TDivAssign | AAdd => TAddAssign | ASub => TSubAssign end.

(** Constants, names and parameters. *)
Inductive writes_atom : expr -> list token -> Prop :=
| wa_int d t : token_is TInteger d t -> d <> [] -> all digit_char d -> (numeral_value d < 2 ^ 63)%Z -> writes_atom (ELitInt (numeral_value d)) [t]
| wa_string s t : is_quoted TString """" s t -> writes_atom (ELitString s) [t]
| wa_true t : is_symbol TTrue t -> writes_atom (ELitBool true) [t]
| wa_false t : is_symbol TFalse t -> writes_atom (ELitBool false) [t]
| wa_null t : is_symbol TNull t -> writes_atom ELitNull [t]
| wa_unit o c : is_symbol TLeftParen o -> is_symbol TRightParen c -> writes_atom ELitUnit [o; c]
| wa_name x t : is_name x t -> writes_atom (ELitIdent x) [t].
Inductive writes_type : type_ann -> list token -> Prop :=
| wt_plain x t : is_name x t -> writes_type (TypeAnn x false) [t]
| wt_nullable x t q : is_name x t -> is_symbol TQuestionMark q -> writes_type (TypeAnn x true) [t; q].
(** A parameter may have a type, and so may the result of a function. *)
Inductive writes_param : fn_arg -> list token -> Prop :=
| wp_plain x t : is_name x t -> writes_param (FnArg x None) [t]
| wp_typed x t c ty tt : is_name x t -> is_symbol TColon c -> writes_type ty tt -> writes_param (FnArg x (Some ty)) (t :: c :: tt).
Inductive writes_params : list fn_arg -> list token -> Prop :=
| wp_none : writes_params [] []
| wp_one a ts : writes_param a ts -> writes_params [a] ts
| wp_more a ts c l tl : writes_param a ts -> is_symbol TComma c -> writes_params l tl -> writes_params (a :: l) (ts ++ c :: tl).
Inductive writes_return : option type_ann -> list token -> Prop :=
| wr_none : writes_return None []
| wr_some a ty tt : is_symbol TArrow a -> writes_type ty tt -> writes_return (Some ty) (a :: tt).
(** Names, comma separated. *)
Inductive writes_names : list string -> list token -> Prop :=
| wn_none : writes_names [] []
| wn_one x t : is_name x t -> writes_names [x] [t]
| wn_more x t c l tl : is_name x t -> is_symbol TComma c -> writes_names l tl -> writes_names (x :: l) (t :: c :: tl).
Inductive writes_mut : bool -> list token -> Prop :=
| wm_no : writes_mut false []
| wm_yes m : is_symbol TMut m -> writes_mut true [m].
(** import * as m from "path", import { a, b } from "path", import * as m, { a, b } from "path". *)
Inductive writes_import : expr -> list token -> Prop :=
| im_module i s a x t f q p : is_symbol TImport i -> is_symbol TStar s -> is_symbol TAs a -> is_name x t -> is_symbol TFrom f -> is_quoted TString """" p q ->
    writes_import (EImportDecl (Some x) [] p) [i; s; a; t; f; q]
| im_items i o xs tx c f q p : is_symbol TImport i -> is_symbol TLeftCurly o -> xs <> [] -> writes_names xs tx -> is_symbol TRightCurly c -> is_symbol TFrom f -> is_quoted TString """" p q ->
    writes_import (EImportDecl None xs p) (i :: o :: tx ++ [c; f; q])
| im_both i s a x t m o xs tx c f q p : is_symbol TImport i -> is_symbol TStar s -> is_symbol TAs a -> is_name x t -> is_symbol TComma m ->
    is_symbol TLeftCurly o -> writes_names xs tx -> is_symbol TRightCurly c -> is_symbol TFrom f -> is_quoted TString """" p q ->
    writes_import (EImportDecl (Some x) xs p) (i :: s :: a :: t :: m :: o :: tx ++ [c; f; q]).
Definition operator_symbol (o : overop) : token_kind :=
  match o with
  | OMultiply => TStar | ODivide => TSlash | ORemainder => TRemainder | OAdd => TPlus | OSubtract => TMinus
  | OGreaterThan => TGreater | OLessThan => TLess | OGreaterThanEquals => TGreaterEqual | OLessThanEquals => TLessEqual
  | OEquals => TEqual | ONotEquals => TNotEqual | ORangeInclusive => TRangeInclusive | ORangeExclusive => TRangeExclusive
  end.
(** Line ends do not end statements: after a statement that ends in an expression, the next one may
    not begin with a symbol that continues an expression. *)
Definition continues (k : token_kind) : Prop :=
  In k [TPipeline; TCoalesce; TErrorCoalesce; TRangeExclusive; TRangeInclusive; TPipe; TLazyAnd; TEqual; TNotEqual; TGreater; TGreaterEqual; TLess; TLessEqual;
        TIs; TPlus; TMinus; TStar; TSlash; TRemainder; TQuestionMark; TErrorPropagate; TDot; TLeftSquare; TLeftParen; TBackslashArg;
        TAssign; TMulAssign; TDivAssign; TAddAssign; TSubAssign].
Definition begins_afresh (ts : list token) : Prop := match ts with [] => True | t :: _ => ~ continues (tk_kind t) end.
(** e or x { b } stands for { let #result: Result = e; if #result.is_ok { #result.result } else { let x = #result.result; { b } } }. *)
Definition unwrapped (e : expr) (x : string) (b : expr) : expr :=
  let result := ELitIdent "#result" in
  EBlock [EVarDecl (Singular "#result") false e (Some (TypeAnn "Result" false))]
    (Some (EIf (EFieldAccess result "is_ok") (EFieldAccess result "result")
             (Some (EBlock [EVarDecl (Singular x) false (EFieldAccess result "result") None] (Some b))))).

Inductive writes : nat -> expr -> list token -> Prop :=
| w_atom l e ts : writes_atom e ts -> writes l e ts
| w_paren l e o ts c : is_symbol TLeftParen o -> writes 1 e ts -> is_symbol TRightParen c -> writes l e (o :: ts ++ [c])
| w_prefix l op o e ts : l <= 10 -> is_symbol (prefix_symbol op) o -> writes 10 e ts -> writes l (EPrefix op e) (o :: ts)
| w_binary l op a os b ta tb :
    l <= binary_level op -> writes (binary_level op) a ta -> Forall2 is_symbol (binary_symbols op) os -> writes (S (binary_level op)) b tb ->
    writes l (EBinary op a b) (ta ++ os ++ tb)
| w_is l e ty ts i tt : l <= 7 -> writes 7 e ts -> is_symbol TIs i -> writes_type ty tt -> writes l (EIs e ty) (ts ++ i :: tt)
| w_null_propagate l e ts q : l <= 11 -> writes 11 e ts -> is_symbol TQuestionMark q -> writes l (ENullPropagate e) (ts ++ [q])
| w_error_propagate l e ts q : l <= 11 -> writes 11 e ts -> is_symbol TErrorPropagate q -> writes l (EErrorPropagate e) (ts ++ [q])
| w_target l e ts : l <= 11 -> writes_target e ts -> writes l e ts
| w_call l f tf o args ta c :
    l <= 11 -> writes 11 f tf -> is_symbol TLeftParen o -> writes_items args ta -> is_symbol TRightParen c ->
    writes l (EFnCall f args) (tf ++ o :: ta ++ [c])
| w_backslash l f tf s t : l <= 11 -> writes 11 f tf -> is_quoted TBackslashArg "\" s t -> writes l (EFnCall f [ELitString s]) (tf ++ [t])
| w_list l o items ts c : is_symbol TLeftSquare o -> writes_items items ts -> is_symbol TRightSquare c -> writes l (ELitList items) (o :: ts ++ [c])
| w_object l h o items ts c : is_symbol TObject h -> is_symbol TLeftCurly o -> writes_fields items ts -> is_symbol TRightCurly c ->
    writes l (ELitObject items) (h :: o :: ts ++ [c])
| w_assign_name l op x t o rhs tr : l <= 1 -> is_name x t -> is_symbol (assign_symbol op) o -> writes 1 rhs tr ->
    writes l (EAssignment op (ELitIdent x) rhs) (t :: o :: tr)
| w_assign l op e te o rhs tr : l <= 1 -> writes_target e te -> is_symbol (assign_symbol op) o -> writes 1 rhs tr ->
    writes l (EAssignment op e rhs) (te ++ o :: tr)
| w_function l o args ta c body tb : l <= 1 -> is_symbol TPipe o -> writes_params args ta -> is_symbol TPipe c -> List.length args <= 255 -> writes 1 body tb ->
    writes l (ELitAnonymousFn args None body) (o :: ta ++ c :: tb)
| w_braces l e ts : writes_block e ts -> writes l e ts
| w_if l e ts : writes_if e ts -> writes l e ts
| w_super_call l s o args ta c : is_symbol TSuper s -> is_symbol TLeftParen o -> writes_items args ta -> is_symbol TRightParen c ->
    writes l (ESuperCall args) (s :: o :: ta ++ [c])
| w_super_field l s d x t : is_symbol TSuper s -> is_symbol TDot d -> is_name x t -> writes l (ESuperAccess x None) [s; d; t]
| w_super_class l s o k tk c d x t : is_symbol TSuper s -> is_symbol TLeftSquare o -> is_name k tk -> is_symbol TRightSquare c -> is_symbol TDot d -> is_name x t ->
    writes l (ESuperAccess x (Some k)) [s; o; tk; c; d; t]
| w_unwrap l e te s x t b tb : l <= 3 -> writes 3 e te -> is_symbol TErrorCoalesce s -> is_name x t -> writes_block b tb ->
    writes l (unwrapped e x b) (te ++ s :: t :: tb)
(** Fields and elements, which can be read and assigned. *)
with writes_target : expr -> list token -> Prop :=
| w_field e ts dot x t : writes 11 e ts -> is_symbol TDot dot -> is_name x t -> writes_target (EFieldAccess e x) (ts ++ [dot; t])
| w_index e ts o i ti c : writes 11 e ts -> is_symbol TLeftSquare o -> writes 1 i ti -> is_symbol TRightSquare c -> writes_target (EIndex e i) (ts ++ o :: ti ++ [c])
(** Comma separated; a comma may follow the last item. *)
with writes_items : list expr -> list token -> Prop :=
| wi_none : writes_items [] []
| wi_one e ts : writes 1 e ts -> writes_items [e] ts
| wi_more e ts c l tl : writes 1 e ts -> is_symbol TComma c -> writes_items l tl -> writes_items (e :: l) (ts ++ c :: tl)
with writes_fields : list (string * expr) -> list token -> Prop :=
| wf_none : writes_fields [] []
| wf_one x e ts : writes_property x e ts -> writes_fields [(x, e)] ts
| wf_more x e ts c l tl : writes_property x e ts -> is_symbol TComma c -> writes_fields l tl -> writes_fields ((x, e) :: l) (ts ++ c :: tl)
(** The key of an object field is kept as written. *)
with writes_property : string -> expr -> list token -> Prop :=
| w_property k t c e ts : In (tk_kind t) [TString; TInteger; TIdentifier] -> tk_error t = None -> utf8 (tk_slice t) = k ->
    is_symbol TColon c -> writes 1 e ts -> writes_property k e (t :: c :: ts)
(** Statements between braces. *)
with writes_block : expr -> list token -> Prop :=
| w_block o es t ts c : is_symbol TLeftCurly o -> writes_seq true es t ts -> is_symbol TRightCurly c -> writes_block (EBlock es t) (o :: ts ++ [c])
with writes_if : expr -> list token -> Prop :=
| wif_then i c tc b tb : is_symbol TIf i -> writes 1 c tc -> writes_block b tb -> writes_if (EIf c b None) (i :: tc ++ tb)
| wif_else i c tc b tb e b' tb' : is_symbol TIf i -> writes 1 c tc -> writes_block b tb -> is_symbol TElse e -> writes_block b' tb' ->
    writes_if (EIf c b (Some b')) (i :: tc ++ tb ++ e :: tb')
| wif_else_if i c tc b tb e x tx : is_symbol TIf i -> writes 1 c tc -> writes_block b tb -> is_symbol TElse e -> writes_if x tx ->
    writes_if (EIf c b (Some x)) (i :: tc ++ tb ++ e :: tx)
(** Statements, one after the other.  The last one is the value of the sequence.  The flag tells whether
    they stand between braces, where "return" may stand alone at the end.  "export x" declares the export
    of x and leaves x to be read as the beginning of the next statement. *)
with writes_seq : bool -> list expr -> option expr -> list token -> Prop :=
| s_empty b : writes_seq b [] None []
| s_last b open e ts : writes_stmt open e ts -> writes_seq b [] (Some e) ts
| s_return r : is_symbol TReturn r -> writes_seq true [] (Some (EReturn None)) [r]
| s_more b open e ts es t tr : writes_stmt open e ts -> tr <> [] -> (open = true -> begins_afresh tr) -> writes_seq b es t tr ->
    writes_seq b (e :: es) t (ts ++ tr)
| s_export_name b k x n es t tr : is_symbol TExport k -> is_name x n -> writes_seq b es t (n :: tr) ->
    writes_seq b (EExportDecl (ELitIdent x) :: es) t (k :: n :: tr)
(** [writes_stmt open e ts]: the statement ends in an expression when [open] is true. *)
with writes_stmt : bool -> expr -> list token -> Prop :=
| st_expr e ts : writes 1 e ts -> writes_stmt true e ts
| st_let e ts : writes_let e ts -> writes_stmt true e ts
| st_fn e ts : writes_fn e ts -> writes_stmt false e ts
| st_op e ts : writes_op e ts -> writes_stmt false e ts
| st_class e ts : writes_class e ts -> writes_stmt false e ts
| st_import e ts : writes_import e ts -> writes_stmt false e ts
| st_export_let k e ts : is_symbol TExport k -> writes_let e ts -> writes_stmt true (EExportDecl e) (k :: ts)
| st_export_fn k e ts : is_symbol TExport k -> writes_fn e ts -> writes_stmt false (EExportDecl e) (k :: ts)
| st_export_class k e ts : is_symbol TExport k -> writes_class e ts -> writes_stmt false (EExportDecl e) (k :: ts)
| st_loop k b tb : is_symbol TLoop k -> writes_block b tb -> writes_stmt false (ELoop b) (k :: tb)
| st_while k c tc b tb : is_symbol TWhile k -> writes 1 c tc -> writes_block b tb -> writes_stmt false (EWhile c b) (k :: tc ++ tb)
| st_for k x t i e te b tb : is_symbol TFor k -> is_name x t -> is_symbol TIn i -> writes 1 e te -> writes_block b tb ->
    writes_stmt false (EFor x e b) (k :: t :: i :: te ++ tb)
| st_break k : is_symbol TBreak k -> writes_stmt false EBreak [k]
| st_continue k : is_symbol TContinue k -> writes_stmt false EContinue [k]
| st_return k e te : is_symbol TReturn k -> writes 1 e te -> writes_stmt true (EReturn (Some e)) (k :: te)
with writes_let : expr -> list token -> Prop :=
| wl_one k m tm x t a e te : is_symbol TLet k -> writes_mut m tm -> is_name x t -> is_symbol TAssign a -> writes 1 e te ->
    writes_let (EVarDecl (Singular x) m e None) (k :: tm ++ t :: a :: te)
| wl_fields k m tm o xs tx c a e te : is_symbol TLet k -> writes_mut m tm -> is_symbol TLeftCurly o -> writes_names xs tx -> is_symbol TRightCurly c ->
    is_symbol TAssign a -> writes 1 e te -> writes_let (EVarDecl (Destructured xs) m e None) (k :: tm ++ o :: tx ++ c :: a :: te)
with writes_fn : expr -> list token -> Prop :=
| w_fn k x t o args ta c r tr b tb : is_symbol TFunction k -> is_name x t -> is_symbol TLeftParen o -> writes_params args ta -> is_symbol TRightParen c ->
    List.length args <= 255 -> writes_return r tr -> writes_block b tb -> writes_fn (EFnDecl x args r b) (k :: t :: o :: ta ++ c :: tr ++ tb)
with writes_op : expr -> list token -> Prop :=
| w_op k op s o args ta c r tr b tb : is_symbol TOperator k -> is_symbol (operator_symbol op) s -> is_symbol TLeftParen o -> writes_params args ta -> is_symbol TRightParen c ->
    writes_return r tr -> writes_block b tb -> writes_op (EOpDecl op args r b) (k :: s :: o :: ta ++ c :: tr ++ tb)
with writes_class : expr -> list token -> Prop :=
| wc_root k x t o ms tm c : is_symbol TClass k -> is_name x t -> is_symbol TLeftCurly o -> writes_members ms tm -> is_symbol TRightCurly c ->
    writes_class (EClassDecl x ms None) (k :: t :: o :: tm ++ [c])
| wc_derived k x t d e te o ms tm c : is_symbol TClass k -> is_name x t -> is_symbol TColon d -> writes 1 e te -> is_symbol TLeftCurly o -> writes_members ms tm ->
    is_symbol TRightCurly c -> writes_class (EClassDecl x ms (Some e)) (k :: t :: d :: te ++ o :: tm ++ [c])
with writes_members : list expr -> list token -> Prop :=
| wms_none : writes_members [] []
| wms_fn e ts ms tm : writes_fn e ts -> writes_members ms tm -> writes_members (e :: ms) (ts ++ tm)
| wms_op e ts ms tm : writes_op e ts -> writes_members ms tm -> writes_members (e :: ms) (ts ++ tm).

Scheme writes_mutual := Minimality for writes Sort Prop
with target_mutual := Minimality for writes_target Sort Prop
with items_mutual := Minimality for writes_items Sort Prop
with fields_mutual := Minimality for writes_fields Sort Prop
with property_mutual := Minimality for writes_property Sort Prop
with block_mutual := Minimality for writes_block Sort Prop
with if_mutual := Minimality for writes_if Sort Prop
with seq_mutual := Minimality for writes_seq Sort Prop
with stmt_mutual := Minimality for writes_stmt Sort Prop
with let_mutual := Minimality for writes_let Sort Prop
with fn_mutual := Minimality for writes_fn Sort Prop
with op_mutual := Minimality for writes_op Sort Prop
with class_mutual := Minimality for writes_class Sort Prop
with members_mutual := Minimality for writes_members Sort Prop.
