(** Syntax trees: dice-syntax/src/ast/node.rs and dice-syntax/src/ast/mod.rs.
    The arena of nodes addressed by SyntaxNodeId (ast/mod.rs:10-42) is modelled by an inductive tree;
    spans are not modelled. *)
From Verif.Model Require Export Bytecode.

(** TypeAnnotation: node.rs:228-233. *)
Record type_ann := TypeAnn { ta_name : string; ta_nullable : bool }.
(** FnArg: node.rs:221-226. *)
Record fn_arg := FnArg { fa_name : string; fa_type : option type_ann }.
(** UnaryOperator: node.rs:76-80. *)
Inductive unop := Negate | Not.
(** BinaryOperator: node.rs:150-169. *)
Inductive binop :=
| BMultiply | BDivide | BRemainder | BAdd | BSubtract
| BGreaterThan | BLessThan | BGreaterThanEquals | BLessThanEquals | BEquals | BNotEquals
| BLogicalAnd | BLogicalOr | BRangeInclusive | BRangeExclusive | BCoalesce | BPipeline.
(** AssignmentOperator: node.rs:179-186. *)
Inductive assignop := AAssign | AMul | ADiv | AAdd | ASub.
(** OverloadedOperator: node.rs:249-264. *)
Inductive overop :=
| OMultiply | ODivide | ORemainder | OAdd | OSubtract
| OGreaterThan | OLessThan | OGreaterThanEquals | OLessThanEquals | OEquals | ONotEquals
| ORangeInclusive | ORangeExclusive.
(** VarDeclKind: node.rs:197-201. *)
Inductive var_kind := Singular (name : string) | Destructured (names : list string).

(** SyntaxNode: ast/mod.rs:44-90 with the structs of node.rs. *)
Inductive expr : Type :=
| ELitIdent (name : string)                                               (* node.rs:27-31 *)
| ELitUnit                                                                (* node.rs:42-45 *)
| ELitNull                                                                (* node.rs:47-50 *)
| ELitInt (value : Z)                                                     (* node.rs:52-56 *)
| ELitFloat (value : f64)                                                 (* node.rs:58-62 *)
| ELitString (value : string)                                             (* node.rs:64-68 *)
| ELitBool (value : bool)                                                 (* node.rs:70-74 *)
| ELitAnonymousFn (args : list fn_arg) (return_ : option type_ann) (body : expr)   (* node.rs:7-13 *)
| ELitObject (items : list (string * expr))                               (* node.rs:21-25 *)
| ELitList (items : list expr)                                            (* node.rs:15-19 *)
| ENullPropagate (e : expr)                                               (* node.rs:82-86 *)
| EErrorPropagate (e : expr)                                              (* node.rs:88-92 *)
| EFieldAccess (e : expr) (field : string)                                (* node.rs:94-99 *)
| ESuperAccess (field : string) (super_class : option string)             (* node.rs:101-106 *)
| EFnCall (target : expr) (args : list expr)                              (* node.rs:108-113 *)
| ESuperCall (args : list expr)                                           (* node.rs:115-119 *)
| EIndex (e index : expr)                                                 (* node.rs:121-126 *)
| EIs (value : expr) (type_ : type_ann)                                   (* node.rs:128-133 *)
| EPrefix (op : unop) (e : expr)                                          (* node.rs:135-140 *)
| EBinary (op : binop) (lhs rhs : expr)                                   (* node.rs:142-148 *)
| EAssignment (op : assignop) (lhs rhs : expr)                            (* node.rs:171-177 *)
| EVarDecl (kind : var_kind) (is_mutable : bool) (e : expr) (type_ : option type_ann)   (* node.rs:188-195 *)
| EFnDecl (name : string) (args : list fn_arg) (return_ : option type_ann) (body : expr)  (* node.rs:203-210 *)
| EOpDecl (op : overop) (args : list fn_arg) (return_ : option type_ann) (body : expr)  (* node.rs:212-219 *)
| EClassDecl (name : string) (items : list expr) (base : option expr)     (* node.rs:286-292 *)
| EImportDecl (module_import : option string) (item_imports : list string) (relative_path : string)  (* node.rs:241-247 *)
| EExportDecl (export : expr)                                             (* node.rs:235-239 *)
| EIf (condition primary : expr) (secondary : option expr)                (* node.rs:294-300 *)
| EWhile (condition body : expr)                                          (* node.rs:302-307 *)
| EFor (variable : string) (source body : expr)                           (* node.rs:309-315 *)
| ELoop (body : expr)                                                     (* node.rs:317-321 *)
| EBlock (expressions : list expr) (trailing : option expr)               (* node.rs:323-328 *)
| EBreak                                                                  (* node.rs:330-333 *)
| EContinue                                                               (* node.rs:335-338 *)
| EReturn (result : option expr).                                         (* node.rs:340-344 *)
