(** Programs whose compilation cannot abort (C46), stated on syntax trees alone. *)
From Verif.Spec Require Export StaticSpec.
Open Scope string_scope.
Open Scope nat_scope.
Open Scope list_scope.

(** What a name stands for in the function it is declared in, innermost and latest declaration first. *)
Inductive sort := IsVariable | IsFunction | IsClass.
Definition sorts := list (string * sort).
Fixpoint sort_of (x : string) (E : sorts) : option sort :=
  match E with
  | [] => None
  | (y, k) :: r => if String.eqb y x then Some k else sort_of x r
  end.
Definition plain (D : env) : sorts := map (fun p => (fst p, IsVariable)) D.
Fixpoint hoisted_sort (e : expr) : option (string * sort) :=
  match e with
  | EFnDecl x _ _ _ => Some (x, IsFunction)
  | EClassDecl x _ _ => Some (x, IsClass)
  | EExportDecl e => hoisted_sort e
  | _ => None
  end.
Definition hoisted_sorts (items : list expr) : sorts := rev (collect hoisted_sort items).

(** Exports of one name: a variable, a function, a class, or a name declared before. *)
Definition exports_one_name (e : expr) : bool :=
  match e with
  | EVarDecl (Singular _) _ _ _ | EFnDecl _ _ _ _ | EClassDecl _ _ _ | ELitIdent _ => true
  | _ => false
  end.

Definition tame_seq (ok : sorts -> expr -> bool) : sorts -> list expr -> bool :=
  fix go E l := match l with [] => true | x :: r => ok E x && go (plain (decls x) ++ E) r end.
Definition tame_fields (ok : sorts -> expr -> bool) : sorts -> list (string * expr) -> bool :=
  fix go E l := match l with [] => true | (_, x) :: r => ok E x && go (plain (decls x) ++ E) r end.
Definition tame_statements (ok : sorts -> expr -> bool) (t : option expr) : sorts -> list expr -> bool :=
  fix go E l := match l with
                | [] => match t with Some x => ok E x | None => true end
                | x :: r => ok E x && go (plain (decls x) ++ E) r
                end.
Definition tame_block (ok : sorts -> expr -> bool) (E : sorts) (es : list expr) (t : option expr) : bool :=
  tame_statements ok t (hoisted_sorts (items_of es t) ++ E) es.
Definition tame_body (ok : sorts -> expr -> bool) (E : sorts) (b : expr) : bool :=
  match b with
  | EBlock es t => tame_block ok E es t
  | _ => ok (hoisted_sorts [b] ++ E) b
  end.
Definition tame_member (ok : sorts -> expr -> bool) (item : expr) : bool :=
  match item with
  | EFnDecl _ args _ b => tame_body ok (plain (if has_self args then method_env args [] else function_env args [])) b
  | EOpDecl _ args _ b => tame_body ok (plain (method_env args [])) b
  | _ => false
  end.

(** [tame E e]: with the names [E] declared so far in the function where [e] stands,
    - a function declaration is not preceded, in its scope, by something else of its name,
    - [super(...)] stands where [self] is declared in the same function,
    - what is exported has one name,
    - the members of a class are functions and operators. *)
Fixpoint tame (E : sorts) (e : expr) : bool :=
  match e with
  | EFnDecl x args _ b =>
      match sort_of x E with Some IsFunction | None => true | _ => false end && tame_body tame (plain (function_env args [])) b
  | ESuperCall items => match sort_of "self" E with Some _ => true | None => false end && tame_seq tame E items
  | EExportDecl e => exports_one_name e && tame E e
  | EClassDecl _ items base =>
      match base with Some b => tame E b | None => true end && forallb (tame_member tame) items
  | ELitAnonymousFn args _ b | EOpDecl _ args _ b => tame_body tame (plain (function_env args [])) b
  | EBlock es t => tame_block tame E es t
  | EAssignment _ lhs rhs =>
      match lhs with
      | ELitIdent _ => tame E rhs
      | EFieldAccess o _ => tame E o && tame (plain (decls o) ++ E) rhs
      | EIndex o i => tame E o && tame (plain (decls o) ++ E) i && tame (plain (decls i) ++ plain (decls o) ++ E) rhs
      | _ => true
      end
  | ELitObject items => tame_fields tame E items
  | ELitList items => tame_seq tame E items
  | ENullPropagate e | EErrorPropagate e | EFieldAccess e _ | EPrefix _ e | EVarDecl _ _ e _ | ELoop e => tame E e
  | EIs e t => if ta_nullable t then tame E e && tame (plain (decls e) ++ E) e else tame E e
  | EFnCall f args => tame E f && tame_seq tame (plain (decls f) ++ E) args
  | EBinary BPipeline a b => tame E b && tame (plain (decls b) ++ E) a
  | EIndex a b | EBinary _ a b | EWhile a b => tame E a && tame (plain (decls a) ++ E) b
  | EIf c p s =>
      tame E c && tame (plain (decls c) ++ E) p &&
      match s with Some x => tame (plain (decls p) ++ plain (decls c) ++ E) x | None => true end
  | EFor x s b =>
      match s with
      | EBinary BRangeInclusive lo hi | EBinary BRangeExclusive lo hi =>
          tame E hi && tame (plain (decls hi) ++ E) lo && tame ((x, IsVariable) :: plain (decls lo) ++ plain (decls hi) ++ E) b
      | _ => tame E s && tame ((x, IsVariable) :: plain (decls s) ++ E) b
      end
  | EReturn (Some e) => tame E e
  | _ => true
  end.
