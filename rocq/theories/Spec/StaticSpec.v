(** Static rules of the language, stated on syntax trees alone: which variables an expression declares,
    which assignments respect [mut], where control-flow keywords may stand, which declarations clash.
    Written from the language's point of view; nothing here mentions the compiler's data structures. *)
From Verif.Model Require Export Ast.
Open Scope string_scope.
Open Scope nat_scope.
Open Scope list_scope.

(** * Declarations *)
(** Variables in scope, innermost and latest first, with their mutability. *)
Definition env := list (string * bool).
Fixpoint mutability (x : string) (E : env) : option bool :=
  match E with
  | [] => None
  | (y, m) :: r => if String.eqb y x then Some m else mutability x r
  end.

Definition immutable (names : list string) : env := rev (map (fun x => (x, false)) names).

(** Variables that evaluating an expression adds to the scope it stands in.  Functions and classes are
    declared by their block, see [hoisted].  The type test [e is T?] evaluates [e] twice. *)
Definition decls_seq {A} (f : A -> env) : list A -> env :=
  fix go l := match l with [] => [] | x :: r => go r ++ f x end.
Fixpoint decls (e : expr) : env :=
  match e with
  | EVarDecl (Singular x) m e _ => (x, m) :: decls e
  | EVarDecl (Destructured xs) _ e _ => immutable xs ++ decls e
  | EImportDecl m xs _ => match m with Some x => [(x, false)] | None => [] end ++ immutable xs
  | ELitObject items => decls_seq (fun p => match p with (_, x) => decls x end) items
  | ELitList items | ESuperCall items => decls_seq decls items
  | ENullPropagate e | EErrorPropagate e | EFieldAccess e _ | EPrefix _ e | EExportDecl e => decls e
  | EIs e t => if ta_nullable t then decls e ++ decls e else decls e
  | EFnCall f args => decls_seq decls args ++ decls f
  | EIndex a b => decls b ++ decls a
  | EBinary BPipeline a b => decls a ++ decls b
  | EBinary _ a b => decls b ++ decls a
  | EAssignment _ lhs rhs =>
      decls rhs ++ match lhs with
                   | EFieldAccess o _ => decls o
                   | EIndex o i => decls i ++ decls o
                   | _ => []
                   end
  | EIf c p s => match s with Some x => decls x | None => [] end ++ decls p ++ decls c
  | EFor _ s _ =>
      match s with
      | EBinary BRangeInclusive a b | EBinary BRangeExclusive a b => decls a ++ decls b
      | _ => decls s
      end
  | EReturn (Some e) => decls e
  | _ => []
  end.

(** Function and class declarations standing directly in a block are visible in the whole block. *)
Fixpoint hoisted_name (e : expr) : option string :=
  match e with
  | EFnDecl x _ _ _ => Some x
  | EClassDecl x _ _ => Some x
  | EExportDecl e => hoisted_name e
  | _ => None
  end.
Fixpoint collect {A B} (f : A -> option B) (l : list A) : list B :=
  match l with [] => [] | x :: r => match f x with Some y => y :: collect f r | None => collect f r end end.
Definition hoisted (items : list expr) : env := immutable (collect hoisted_name items).
Definition items_of (es : list expr) (t : option expr) : list expr :=
  es ++ match t with Some e => [e] | None => [] end.
Definition params (args : list fn_arg) : env := immutable (map fa_name args).

Definition has_self (args : list fn_arg) : bool :=
  match args with a :: _ => String.eqb (fa_name a) "self" | [] => false end.

(** * Immutable variables are not assigned (C09) *)
(** A rule [ok E e] for expressions evaluated one after the other in one scope, for the statements of a
    block whose functions and classes are already declared, for a whole block, for a function body (the
    caller passes the parameters). *)
Definition seq_ok (ok : env -> expr -> bool) : env -> list expr -> bool :=
  fix go E l := match l with [] => true | x :: r => ok E x && go (decls x ++ E) r end.
Definition fields_ok (ok : env -> expr -> bool) : env -> list (string * expr) -> bool :=
  fix go E l := match l with [] => true | (_, x) :: r => ok E x && go (decls x ++ E) r end.
Definition statements_ok (ok : env -> expr -> bool) (t : option expr) : env -> list expr -> bool :=
  fix go E l := match l with
                | [] => match t with Some x => ok E x | None => true end
                | x :: r => ok E x && go (decls x ++ E) r
                end.
Definition block_ok (ok : env -> expr -> bool) (E : env) (es : list expr) (t : option expr) : bool :=
  statements_ok ok t (hoisted (items_of es t) ++ E) es.
Definition body_ok (ok : env -> expr -> bool) (E : env) (b : expr) : bool :=
  match b with
  | EBlock es t => block_ok ok E es t
  | _ => ok (hoisted [b] ++ E) b
  end.
(** A function is called with an unnamed receiver, a method names its receiver as first parameter. *)
Definition function_env (args : list fn_arg) (E : env) : env := params args ++ ("", false) :: E.
Definition method_env (args : list fn_arg) (E : env) : env := params args ++ E.
Definition class_item_ok (ok : env -> expr -> bool) (E : env) (item : expr) : bool :=
  match item with
  | EFnDecl _ args _ b => body_ok ok (if has_self args then method_env args E else function_env args E) b
  | EOpDecl _ args _ b => body_ok ok (method_env args E) b
  | _ => false
  end.

Fixpoint assigns_ok (E : env) (e : expr) : bool :=
  match e with
  | EAssignment _ lhs rhs =>
      match lhs with
      | ELitIdent x => match mutability x E with Some true => assigns_ok E rhs | _ => false end
      | EFieldAccess o _ => assigns_ok E o && assigns_ok (decls o ++ E) rhs
      | EIndex o i => assigns_ok E o && assigns_ok (decls o ++ E) i && assigns_ok (decls i ++ decls o ++ E) rhs
      | _ => false
      end
  | ELitAnonymousFn args _ b | EFnDecl _ args _ b | EOpDecl _ args _ b => body_ok assigns_ok (function_env args E) b
  | EClassDecl _ items base =>
      match base with Some b => assigns_ok E b | None => true end &&
      forallb (class_item_ok assigns_ok (("super", true) :: match base with Some b => decls b | None => [] end ++ E)) items
  | EBlock es t => block_ok assigns_ok E es t
  | ELitObject items => fields_ok assigns_ok E items
  | ELitList items | ESuperCall items => seq_ok assigns_ok E items
  | ENullPropagate e | EErrorPropagate e | EFieldAccess e _ | EPrefix _ e | EExportDecl e
  | EVarDecl _ _ e _ | ELoop e => assigns_ok E e
  | EIs e t => if ta_nullable t then assigns_ok E e && assigns_ok (decls e ++ E) e else assigns_ok E e
  | EFnCall f args => assigns_ok E f && seq_ok assigns_ok (decls f ++ E) args
  | EBinary BPipeline a b => assigns_ok E b && assigns_ok (decls b ++ E) a
  | EIndex a b | EBinary _ a b | EWhile a b => assigns_ok E a && assigns_ok (decls a ++ E) b
  | EIf c p s =>
      assigns_ok E c && assigns_ok (decls c ++ E) p &&
      match s with Some x => assigns_ok (decls p ++ decls c ++ E) x | None => true end
  | EFor x s b =>
      match s with
      | EBinary BRangeInclusive lo hi | EBinary BRangeExclusive lo hi =>
          assigns_ok E hi && assigns_ok (decls hi ++ E) lo && assigns_ok ((x, false) :: decls lo ++ decls hi ++ E) b
      | _ => assigns_ok E s && assigns_ok ((x, false) :: decls s ++ E) b
      end
  | EReturn (Some e) => assigns_ok E e
  | _ => true
  end.

(** * Control-flow keywords (C15) *)
Inductive owner := InScript | InModule | InFunction | InMethod | InConstructor.
(** The whole program, directly in its outermost block, or deeper. *)
Inductive level := Root | Top | Nested.
Definition deeper (l : level) : level := match l with Root => Top | _ => Nested end.
Record place := Place { in_loop : bool; pl_owner : owner; pl_level : level }.
Definition inside (p : place) : place := Place (in_loop p) (pl_owner p) (deeper (pl_level p)).
Definition looping (p : place) : place := Place true (pl_owner p) (deeper (pl_level p)).
Definition function (o : owner) : place := Place false o Nested.
Definition returns_value (o : owner) : bool := match o with InFunction | InMethod => true | _ => false end.

Definition member_owner (name : string) (args : list fn_arg) : owner :=
  if has_self args then if String.eqb name "new" then InConstructor else InMethod else InFunction.

Fixpoint placed (p : place) (e : expr) : bool :=
  match e with
  | EBreak | EContinue => in_loop p
  | EReturn (Some e) => returns_value (pl_owner p) && placed p e
  | EReturn None => returns_value (pl_owner p) || match pl_owner p with InConstructor => true | _ => false end
  | EErrorPropagate e => returns_value (pl_owner p) && placed p e
  | ESuperAccess _ _ => match pl_owner p with InMethod | InConstructor => true | _ => false end
  | EExportDecl e =>
      match pl_owner p, pl_level p with InModule, Nested => false | InModule, _ => true | _, _ => false end && placed p e
  | EBlock es t => forallb (placed (inside p)) es && match t with Some x => placed (inside p) x | None => true end
  | EWhile c b => placed (looping p) c && placed (looping p) b
  | ELoop b => placed (looping p) b
  | EFor _ s b =>
      match s with
      | EBinary BRangeInclusive lo hi | EBinary BRangeExclusive lo hi => placed p lo && placed p hi
      | _ => placed p s
      end && placed (looping p) b
  | ELitAnonymousFn _ _ b | EFnDecl _ _ _ b | EOpDecl _ _ _ b => placed (function InFunction) b
  | EClassDecl _ items base =>
      match base with Some b => placed (inside p) b | None => true end &&
      forallb (fun item => match item with
                           | EFnDecl x args _ b => placed (function (member_owner x args)) b
                           | EOpDecl _ _ _ b => placed (function InMethod) b
                           | _ => false
                           end) items
  | EAssignment _ lhs rhs =>
      match lhs with
      | ELitIdent _ => true
      | EFieldAccess o _ => placed p o
      | EIndex o i => placed p o && placed p i
      | _ => false
      end && placed p rhs
  | ELitObject items => forallb (fun q => match q with (_, x) => placed p x end) items
  | ELitList items => forallb (placed p) items
  | ENullPropagate e | EFieldAccess e _ | EPrefix _ e | EVarDecl _ _ e _ | EIs e _ => placed p e
  | EFnCall f args => placed p f && forallb (placed p) args
  | ESuperCall args => forallb (placed p) args
  | EIndex a b | EBinary _ a b => placed p a && placed p b
  | EIf c x s => placed p c && placed p x && match s with Some y => placed p y | None => true end
  | _ => true
  end.

(** * Duplicate declarations (C44) *)
Fixpoint distinct (l : list string) : bool :=
  match l with [] => true | x :: r => negb (existsb (String.eqb x) r) && distinct r end.
Fixpoint function_name (e : expr) : option string :=
  match e with EFnDecl x _ _ _ => Some x | EExportDecl e => function_name e | _ => None end.
Fixpoint class_name (e : expr) : option string :=
  match e with EClassDecl x _ _ => Some x | EExportDecl e => class_name e | _ => None end.
Definition mentions (x : string) (l : list string) : bool := existsb (String.eqb x) l.

Definition occurrences (x : string) (l : list string) : nat := List.length (filter (String.eqb x) l).

(** Names visible in the body of a class before those around it. *)
Fixpoint class_scope (e : expr) : list string :=
  match e with
  | EClassDecl _ _ base => "super" :: map fst (match base with Some b => decls b | None => [] end)
  | EExportDecl e => class_scope e
  | _ => []
  end.

(** In one block no two functions share a name; two classes share a name only when something else of
    that name is declared there too: a function, a variable, or a name of the class's own scope. *)
Definition block_distinct (es : list expr) (t : option expr) : bool :=
  let items := items_of es t in
  distinct (collect function_name items) &&
  forallb (fun x => (occurrences x (collect class_name items) <=? 1) ||
                    mentions x (collect function_name items) || mentions x (map fst (decls_seq decls items)) ||
                    mentions x (flat_map class_scope items))
    (collect class_name items).

Fixpoint no_duplicates (e : expr) : bool :=
  match e with
  | EBlock es t => block_distinct es t && forallb no_duplicates es && match t with Some x => no_duplicates x | None => true end
  | EFnDecl _ args _ b | EOpDecl _ args _ b => distinct (map fa_name args) && no_duplicates b
  | ELitAnonymousFn _ _ b => no_duplicates b
  | EClassDecl _ items base => forallb no_duplicates items && match base with Some b => no_duplicates b | None => true end
  | EAssignment _ lhs rhs => match lhs with
                             | EFieldAccess o _ => no_duplicates o
                             | EIndex o i => no_duplicates o && no_duplicates i
                             | _ => true
                             end && no_duplicates rhs
  | ELitObject items => forallb (fun q => match q with (_, x) => no_duplicates x end) items
  | ELitList items | ESuperCall items => forallb no_duplicates items
  | EFnCall f args => no_duplicates f && forallb no_duplicates args
  | ENullPropagate e | EErrorPropagate e | EFieldAccess e _ | EPrefix _ e | EVarDecl _ _ e _ | EIs e _
  | EExportDecl e | ELoop e => no_duplicates e
  | EIndex a b | EBinary _ a b | EWhile a b | EFor _ a b => no_duplicates a && no_duplicates b
  | EIf c x s => no_duplicates c && no_duplicates x && match s with Some y => no_duplicates y | None => true end
  | EReturn (Some e) => no_duplicates e
  | _ => true
  end.

(** * Class declarations (C55) *)
(** A member whose first parameter is [self] is a method, its receiver has no type annotation.  [new] is
    such a member without return type; in a class with a base it starts by calling the base's constructor.
    Operators are methods. *)
Definition untyped_receiver (args : list fn_arg) : bool :=
  match args with FnArg _ None :: _ => true | _ => false end.
Definition starts_with_super (body : expr) : bool :=
  match match body with EBlock es t => items_of es t | _ => [body] end with ESuperCall _ :: _ => true | _ => false end.
Definition member_ok (derived : bool) (item : expr) : bool :=
  match item with
  | EFnDecl x args rt b =>
      if has_self args then
        untyped_receiver args &&
        (negb (String.eqb x "new") ||
         match rt with None => true | Some _ => false end && (negb derived || starts_with_super b))
      else negb (String.eqb x "new")
  | EOpDecl _ args _ _ => has_self args && untyped_receiver args
  | _ => false
  end.
Fixpoint classes_ok (e : expr) : bool :=
  match e with
  | EClassDecl _ items base =>
      forallb (member_ok (match base with Some _ => true | None => false end)) items &&
      forallb classes_ok items && match base with Some b => classes_ok b | None => true end
  | EBlock es t => forallb classes_ok es && match t with Some x => classes_ok x | None => true end
  | EFnDecl _ _ _ b | EOpDecl _ _ _ b | ELitAnonymousFn _ _ b => classes_ok b
  | EAssignment _ lhs rhs => match lhs with
                             | EFieldAccess o _ => classes_ok o
                             | EIndex o i => classes_ok o && classes_ok i
                             | _ => true
                             end && classes_ok rhs
  | ELitObject items => forallb (fun q => match q with (_, x) => classes_ok x end) items
  | ELitList items | ESuperCall items => forallb classes_ok items
  | EFnCall f args => classes_ok f && forallb classes_ok args
  | ENullPropagate e | EErrorPropagate e | EFieldAccess e _ | EPrefix _ e | EVarDecl _ _ e _ | EIs e _
  | EExportDecl e | ELoop e => classes_ok e
  | EIndex a b | EBinary _ a b | EWhile a b | EFor _ a b => classes_ok a && classes_ok b
  | EIf c x s => classes_ok c && classes_ok x && match s with Some y => classes_ok y | None => true end
  | EReturn (Some e) => classes_ok e
  | _ => true
  end.
