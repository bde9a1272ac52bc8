(** The programs for which compiled code is related to the interpreter of EvalSpec.v.

    Left out are the places where the compiler is known to go wrong (DESIGN.md section 5): a
    [return], [!!], [break] or [continue] reached while values it does not count are on the stack, or leaving
    variables that a function captures; a [?] inside an operand of a chain; a constructor whose [self] is
    captured by a function inside it. *)
From Verif.Spec Require Export EvalSpec.
#[local] Open Scope string_scope.
#[local] Open Scope list_scope.
#[local] Open Scope nat_scope.

(** The names occurring in an expression, functions inside it included. *)
Definition type_names (t : option type_ann) : list string := match t with Some ty => [ta_name ty] | None => [] end.
Fixpoint names (e : expr) : list string :=
  match e with
  | ELitIdent x => [x]
  | ELitAnonymousFn args ret b | EFnDecl _ args ret b | EOpDecl _ args ret b =>
      flat_map (fun a => type_names (fa_type a)) args ++ type_names ret ++ names b
  | ELitObject items => flat_map (fun p => names (snd p)) items
  | ELitList items => flat_map names items
  | ENullPropagate x | EErrorPropagate x | EFieldAccess x _ | EPrefix _ x | EExportDecl x | ELoop x => names x
  | EVarDecl _ _ x t => names x ++ type_names t
  | EFnCall t args => names t ++ flat_map names args
  | EIndex x y | EBinary _ x y | EAssignment _ x y | EWhile x y | EFor _ x y => names x ++ names y
  | EIs x t => names x ++ [ta_name t]
  | EIf c p s => names c ++ names p ++ match s with Some x => names x | None => [] end
  | EBlock es t => flat_map names es ++ match t with Some x => names x | None => [] end
  | EReturn r => match r with Some x => names x | None => [] end
  | EClassDecl _ items base => match base with Some b => names b | None => ["Any"] end ++ flat_map names items
  | ESuperCall args => "self" :: "super" :: flat_map names args
  | ESuperAccess _ c => [match c with Some x => x | None => "super" end; "self"]
  | _ => []
  end.

(** The names occurring in the functions inside an expression: what they may capture. *)
Fixpoint captures (e : expr) : list string :=
  match e with
  | ELitAnonymousFn _ _ _ | EFnDecl _ _ _ _ | EOpDecl _ _ _ _ => names e
  | ELitObject items => flat_map (fun p => captures (snd p)) items
  | ELitList items => flat_map captures items
  | ENullPropagate x | EErrorPropagate x | EFieldAccess x _ | EPrefix _ x | EVarDecl _ _ x _ | EExportDecl x | ELoop x => captures x
  | EFnCall t args => captures t ++ flat_map captures args
  | EIndex x y | EBinary _ x y | EAssignment _ x y | EWhile x y | EFor _ x y => captures x ++ captures y
  | EIs x _ => captures x
  | EIf c p s => captures c ++ captures p ++ match s with Some x => captures x | None => [] end
  | EBlock es t => flat_map captures es ++ match t with Some x => captures x | None => [] end
  | EReturn r => match r with Some x => captures x | None => [] end
  | EClassDecl _ items base => match base with Some b => captures b | None => [] end ++ flat_map names items
  | ESuperCall args => flat_map captures args
  | _ => []
  end.

(** The expression contains a [return] or [!!] of the function it is in. *)
Fixpoint returns (e : expr) : bool :=
  match e with
  | EReturn _ | EErrorPropagate _ => true
  | ELitObject items => existsb (fun p => returns (snd p)) items
  | ELitList items => existsb returns items
  | ENullPropagate x | EFieldAccess x _ | EPrefix _ x | EVarDecl _ _ x _ | EExportDecl x | ELoop x | EIs x _ => returns x
  | EFnCall t args => returns t || existsb returns args
  | EIndex x y | EBinary _ x y | EAssignment _ x y | EWhile x y | EFor _ x y => returns x || returns y
  | EIf c p s => returns c || returns p || match s with Some x => returns x | None => false end
  | EBlock es t => existsb returns es || match t with Some x => returns x | None => false end
  | EClassDecl _ _ base => match base with Some b => returns b | None => false end
  | ESuperCall args => existsb returns args
  | _ => false
  end.

(** The expression contains a [break] or [continue] of the loop it is in. *)
Fixpoint breaks (e : expr) : bool :=
  match e with
  | EBreak | EContinue => true
  | ELitObject items => existsb (fun p => breaks (snd p)) items
  | ELitList items => existsb breaks items
  | ENullPropagate x | EErrorPropagate x | EFieldAccess x _ | EPrefix _ x | EVarDecl _ _ x _ | EExportDecl x | EIs x _ => breaks x
  | EFnCall t args => breaks t || existsb breaks args
  | EIndex x y | EBinary _ x y | EAssignment _ x y => breaks x || breaks y
  | EFor _ x _ => breaks x
  | EIf c p s => breaks c || breaks p || match s with Some x => breaks x | None => false end
  | EBlock es t => existsb breaks es || match t with Some x => breaks x | None => false end
  | EReturn r => match r with Some x => breaks x | None => false end
  | EClassDecl _ _ base => match base with Some b => breaks b | None => false end
  | ESuperCall args => existsb breaks args
  | _ => false
  end.

(** Where an expression stands in a chain: not in one, its target, or elsewhere inside one. *)
Inductive chain_place := Fresh | Spine | Aside.
(** - [pl_stmt]: a statement of a block, where declarations are allowed;
    - [pl_fn]: inside a function;
    - [pl_exact]: the compiler counts all values that are on the stack, so that [return] is allowed;
    - [pl_exit]: no values since the loop began, so that [break] and [continue] are allowed;
    - [pl_kept]: names that may not be declared here, because a function captures that name and the variable
      could be left by [return], [break] or [continue]. *)
Record place := Place {
  pl_stmt : bool; pl_chain : chain_place; pl_fn : bool; pl_exact : bool; pl_exit : bool; pl_kept : list string }.
Definition beside (c : chain_place) : chain_place := match c with Fresh => Fresh | _ => Aside end.
Definition on_spine (c : chain_place) : chain_place := match c with Fresh | Spine => Spine | Aside => Aside end.
(** First operand: nothing new on the stack.  Later operands: values the compiler does not count.  Arguments:
    values it counts.  Target of a chain. *)
Definition first_of (P : place) : place := Place false (beside (pl_chain P)) (pl_fn P) (pl_exact P) (pl_exit P) (pl_kept P).
Definition later_of (P : place) : place := Place false (beside (pl_chain P)) (pl_fn P) false false (pl_kept P).
Definition arg_of (P : place) : place := Place false Fresh (pl_fn P) (pl_exact P) false (pl_kept P).
Definition target_of (P : place) : place := Place false (on_spine (pl_chain P)) (pl_fn P) (pl_exact P) (pl_exit P) (pl_kept P).
(** Statement of a block. *)
Definition stmt_of (P : place) : place := Place true Fresh (pl_fn P) (pl_exact P) (pl_exit P) (pl_kept P).
(** Body of [while] and [loop] ([exact]); of [for] over a range; of [for] over an iterator. *)
Definition loop_of (exact : bool) (kept : list string) (P : place) : place :=
  Place false Fresh (pl_fn P) (exact && pl_exact P) true (kept ++ pl_kept P).
Definition iter_of (P : place) : place := Place false Fresh (pl_fn P) false false (pl_kept P).
(** Statement of a function body; the script, or a module. *)
Definition fn_place (kept : list string) : place := Place true Fresh true true false kept.
(** What is exported: the exports are on the stack, not counted. *)
Definition export_of (P : place) : place := Place true Fresh (pl_fn P) false false (pl_kept P).
Definition script_place : place := Place false Fresh false false false [].

Definition mem (x : string) (l : list string) : bool := existsb (String.eqb x) l.
Definition fresh_names (xs kept : list string) : bool := forallb (fun x => negb (mem x kept)) xs.
(** Variables that break or continue could leave while a function holds on to them. *)
Definition loop_kept (es : list expr) : list string := if existsb breaks es then flat_map captures es else [].
(** The same for return. *)
Definition fn_kept (body : expr) : list string := if returns body then captures body else [].

(** The names a statement declares. *)
Fixpoint declared (e : expr) : list string :=
  match e with
  | EVarDecl (Singular x) _ _ _ => [x]
  | EVarDecl (Destructured xs) _ _ _ => xs
  | EFnDecl x _ _ _ | EClassDecl x _ _ => [x]
  | EImportDecl x xs _ => match x with Some y => [y] | None => [] end ++ xs
  | EExportDecl x => declared x
  | _ => []
  end.
Definition body_declared (body : expr) : list string :=
  let '(es, t) := body_parts body in flat_map declared (statements es t).

Definition byte_sized (n : nat) : bool := n <=? 255.
Definition opt_all (f : expr -> bool) (o : option expr) : bool := match o with Some x => f x | None => true end.

(** The signature of a function: no parameter is left by [return] while captured, and the return type is not
    one of the function's own variables. *)
Definition signature_ok (args : list fn_arg) (ret : option type_ann) (body : expr) : bool :=
  let params := "" :: map fa_name args in
  fresh_names params (fn_kept body) &&
  match ret with Some t => negb (mem (ta_name t) (params ++ body_declared body)) | None => true end.

(** The name [self] of a constructor stands for the object, and is not captured. *)
Definition constructor_ok (body : expr) : bool := negb (mem "self" (captures body ++ body_declared body)).

Fixpoint supported (P : place) (e : expr) {struct e} : bool :=
  match e with
  | ELitIdent _ | ELitUnit | ELitNull | ELitBool _ | ELitInt _ | ELitFloat _ | ELitString _ => true
  | ELitAnonymousFn args ret body =>
      signature_ok args ret body &&
      match body with
      | EBlock es t => forallb (supported (fn_place (fn_kept body))) es && opt_all (supported (fn_place (fn_kept body))) t
      | _ => supported (fn_place (fn_kept body)) body
      end
  | EFnDecl name args ret body =>
      pl_stmt P && fresh_names [name] (pl_kept P) && signature_ok args ret body &&
      match body with
      | EBlock es t => forallb (supported (fn_place (fn_kept body))) es && opt_all (supported (fn_place (fn_kept body))) t
      | _ => supported (fn_place (fn_kept body)) body
      end
  | EOpDecl _ args ret body =>
      pl_stmt P && signature_ok args ret body &&
      match body with
      | EBlock es t => forallb (supported (fn_place (fn_kept body))) es && opt_all (supported (fn_place (fn_kept body))) t
      | _ => supported (fn_place (fn_kept body)) body
      end
  | EVarDecl _ _ x _ => pl_stmt P && fresh_names (declared e) (pl_kept P) && supported (first_of P) x
  | ELitObject items => forallb (fun p => supported (later_of P) (snd p)) items
  | ELitList items => byte_sized (List.length items) && forallb (supported (later_of P)) items
  | EAssignment op (ELitIdent _) rhs => supported (match op with AAssign => first_of P | _ => later_of P end) rhs
  | EAssignment _ (EFieldAccess obj _) rhs => supported (first_of P) obj && supported (later_of P) rhs
  | EAssignment _ (EIndex obj idx) rhs => supported (first_of P) obj && supported (later_of P) idx && supported (later_of P) rhs
  | EPrefix _ x => supported (first_of P) x
  | EBinary op lhs rhs =>
      match op with
      | BLogicalAnd | BLogicalOr | BCoalesce => supported (first_of P) lhs && supported (first_of P) rhs
      | BPipeline => supported (first_of P) rhs && supported (later_of P) lhs
      | _ => supported (first_of P) lhs && supported (later_of P) rhs
      end
  | EIs x _ => supported (first_of P) x
  | EIf c p s => supported (first_of P) c && supported (first_of P) p && opt_all (supported (first_of P)) s
  | EWhile c (EBlock es t) =>
      let Q := loop_of true (loop_kept [c; EBlock es t]) P in
      supported Q c && forallb (supported (stmt_of Q)) es && opt_all (supported (stmt_of Q)) t
  | ELoop (EBlock es t) =>
      let Q := loop_of true (loop_kept [EBlock es t]) P in
      forallb (supported (stmt_of Q)) es && opt_all (supported (stmt_of Q)) t
  | EFor x (EBinary (BRangeInclusive | BRangeExclusive) first last) body =>
      let Q := loop_of false (loop_kept [body]) P in
      supported (first_of P) last && supported (later_of P) first && supported Q body && fresh_names [x] (pl_kept Q)
  | EFor x e1 body => supported (first_of P) e1 && supported (iter_of P) body && fresh_names [x] (pl_kept P)
  | EBreak | EContinue => pl_exit P
  | EBlock es t => forallb (supported (stmt_of P)) es && opt_all (supported (stmt_of P)) t
  | EReturn r => pl_fn P && pl_exact P && opt_all (supported (first_of P)) r
  | ENullPropagate x => match pl_chain P with Aside => false | _ => supported (target_of P) x end
  | EErrorPropagate x => pl_fn P && pl_exact P && supported (target_of P) x
  | EFieldAccess x _ => supported (target_of P) x
  | EFnCall f args => supported (target_of P) f && byte_sized (List.length args) && forallb (supported (arg_of P)) args
  | EIndex x i => supported (target_of P) x && supported (arg_of P) i
  | EClassDecl name items base =>
      pl_stmt P && fresh_names [name] (pl_kept P) && opt_all (supported (first_of P)) base &&
      forallb (fun x =>
        match x with
        | EFnDecl f args ret body =>
            signature_ok args ret body && (negb (String.eqb f "new") || constructor_ok body) &&
            match body with
            | EBlock es t => forallb (supported (fn_place (fn_kept body))) es && opt_all (supported (fn_place (fn_kept body))) t
            | _ => supported (fn_place (fn_kept body)) body
            end
        | EOpDecl _ args ret body =>
            signature_ok args ret body &&
            match body with
            | EBlock es t => forallb (supported (fn_place (fn_kept body))) es && opt_all (supported (fn_place (fn_kept body))) t
            | _ => supported (fn_place (fn_kept body)) body
            end
        | _ => false
        end) items
  | ESuperCall args => byte_sized (List.length args) && forallb (supported (arg_of P)) args
  | ESuperAccess _ _ => true
  | EImportDecl _ _ _ => pl_stmt P && fresh_names (declared e) (pl_kept P)
  | EExportDecl x => pl_stmt P && match exported x with Some _ => supported (export_of P) x | None => false end
  | _ => false
  end.

(** A module: a block at the top, whose exports no function captures. *)
Definition supported_module (e : expr) : bool := supported script_place e && negb (mem "#export" (captures e)).
