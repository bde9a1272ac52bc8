(** The trees that source text can give (C58). *)
From Coq Require Import ZArith List String.
From Verif.Model Require Import Ast.
Import ListNotations.

Definition is_block (e : expr) : Prop := match e with EBlock _ _ => True | _ => False end.
Definition is_target (e : expr) : Prop := match e with ELitIdent _ | EFieldAccess _ _ | EIndex _ _ => True | _ => False end.
Definition is_member (e : expr) : Prop := match e with EFnDecl _ _ _ _ | EOpDecl _ _ _ _ => True | _ => False end.
Definition is_exportable (e : expr) : Prop :=
  match e with EVarDecl _ _ _ _ | EFnDecl _ _ _ _ | EClassDecl _ _ _ | ELitIdent _ => True | _ => False end.
Definition is_else (e : expr) : Prop := match e with EBlock _ _ | EIf _ _ _ => True | _ => False end.

(** [shaped s e]: [e] can stand as an expression or, if [s] is true, as a statement of a block. *)
Inductive shaped : bool -> expr -> Prop :=
(* expressions *)
| sh_int s z : (0 <= z < 2 ^ 63)%Z -> shaped s (ELitInt z)
| sh_float s x : shaped s (ELitFloat x)
| sh_string s t : shaped s (ELitString t)
| sh_bool s b : shaped s (ELitBool b)
| sh_null s : shaped s ELitNull
| sh_unit s : shaped s ELitUnit
| sh_name s x : shaped s (ELitIdent x)
| sh_function s args b : List.length args <= 255 -> shaped false b -> shaped s (ELitAnonymousFn args None b)
| sh_object s items : (forall p, In p items -> shaped false (snd p)) -> shaped s (ELitObject items)
| sh_list s items : (forall e, In e items -> shaped false e) -> shaped s (ELitList items)
| sh_assign s op a b : is_target a -> shaped false a -> shaped false b -> shaped s (EAssignment op a b)
| sh_prefix s op a : shaped false a -> shaped s (EPrefix op a)
| sh_binary s op a b : shaped false a -> shaped false b -> shaped s (EBinary op a b)
| sh_is s a t : shaped false a -> shaped s (EIs a t)
| sh_null_propagate s a : shaped false a -> shaped s (ENullPropagate a)
| sh_error_propagate s a : shaped false a -> shaped s (EErrorPropagate a)
| sh_field s a x : shaped false a -> shaped s (EFieldAccess a x)
| sh_index s a i : shaped false a -> shaped false i -> shaped s (EIndex a i)
| sh_call s f args : shaped false f -> (forall e, In e args -> shaped false e) -> shaped s (EFnCall f args)
| sh_super_call s args : (forall e, In e args -> shaped false e) -> shaped s (ESuperCall args)
| sh_super_access s f c : shaped s (ESuperAccess f c)
| sh_if s c p o : shaped false c -> shaped false p -> is_block p -> (forall e, o = Some e -> is_else e /\ shaped false e) -> shaped s (EIf c p o)
| sh_block s es t : (forall e, In e es -> shaped true e) -> (forall e, t = Some e -> shaped true e) -> shaped s (EBlock es t)
(* [a or x { b }]: an annotated variable that no source text can name *)
| sh_coalesce s a x b : shaped false a -> is_block b -> shaped false b ->
    shaped s (EBlock [EVarDecl (Singular "#result") false a (Some (TypeAnn "Result" false))]
      (Some (EIf (EFieldAccess (ELitIdent "#result") "is_ok") (EFieldAccess (ELitIdent "#result") "result")
        (Some (EBlock [EVarDecl (Singular x) false (EFieldAccess (ELitIdent "#result") "result") None] (Some b))))))
(* statements *)
| sh_var k m a : shaped false a -> shaped true (EVarDecl k m a None)
| sh_fn x args r b : List.length args <= 255 -> is_block b -> shaped false b -> shaped true (EFnDecl x args r b)
| sh_op o args r b : is_block b -> shaped false b -> shaped true (EOpDecl o args r b)
| sh_class x items base : (forall e, In e items -> is_member e /\ shaped true e) -> (forall e, base = Some e -> shaped false e) ->
    shaped true (EClassDecl x items base)
| sh_import m items path : m <> None \/ items <> [] -> shaped true (EImportDecl m items path)
| sh_export e : is_exportable e -> shaped true e -> shaped true (EExportDecl e)
| sh_loop b : is_block b -> shaped false b -> shaped true (ELoop b)
| sh_while c b : shaped false c -> is_block b -> shaped false b -> shaped true (EWhile c b)
| sh_for x a b : shaped false a -> is_block b -> shaped false b -> shaped true (EFor x a b)
| sh_break : shaped true EBreak
| sh_continue : shaped true EContinue
| sh_return o : (forall e, o = Some e -> shaped false e) -> shaped true (EReturn o).
