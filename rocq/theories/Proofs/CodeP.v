(** The code of an expression: which instructions stand between two positions of a compiled function, with
    all jumps resolved.  This relates finished bytecode to syntax; that the compiler establishes it is proved
    in EmitP.v, what the code does in SimP.v. *)
From Verif.Model Require Import Assembler.
From Verif.Spec Require Import SupportSpec.
From Verif.Proofs Require Import ReachP.
#[local] Open Scope string_scope.
#[local] Open Scope list_scope.
#[local] Open Scope nat_scope.

Definition jumps (bc : bytecode) (o : opcode) (p q t : nat) : Prop :=
  exists z, at_ bc p (IOffset o z) q /\ offset_position (Z.of_nat q) z = Z.of_nat t.
Definition at_const (bc : bytecode) (o : opcode) (c : const) (p q : nat) : Prop :=
  exists i, at_ bc p (IByte o i) q /\ nth_error (bc_constants bc) i = Some c.

(** Variables of one function, innermost first: the name, and whether some function captures it.  The slot of
    a variable is the number of variables below it. *)
Definition vars := list (string * bool).
Fixpoint lookup (x : string) (vs : vars) : option (nat * bool) :=
  match vs with
  | [] => None
  | (y, fl) :: r => if String.eqb x y then Some (List.length r, fl) else lookup x r
  end.
Definition level : Type := vars * list upvalue_desc.

(** Captured variable [i] of a function with the given enclosing functions is the variable [x]. *)
Fixpoint reach (ups : list upvalue_desc) (outer : list level) (i : nat) (x : string) : Prop :=
  match outer with
  | [] => False
  | (vs, ups') :: outer' =>
      match nth_error ups i with
      | Some (ParentLocal j _) => lookup x vs = Some (j, true)
      | Some (Outer j _) => lookup x vs = None /\ reach ups' outer' j x
      | None => False
      end
  end.
Definition hidden (x : string) (outer : list level) : Prop := Forall (fun l => lookup x (fst l) = None) outer.

(** The innermost loop: variables and operands outside it, where [break] and [continue] go. *)
Record loopinfo := Loop { lp_vars : nat; lp_break : nat; lp_next : option nat; lp_depth : nat }.
Record ctx := Ctx {
  g_bc : bytecode;
  g_vars : vars;
  g_ups : list upvalue_desc;
  g_outer : list level;
  g_fn : option role;
  g_loop : option loopinfo;
  g_null : option nat;         (* where a [?] that finds null goes *)
  g_depth : nat }.             (* operands on the stack *)
Definition g_deep (n : nat) (G : ctx) : ctx :=
  Ctx (g_bc G) (g_vars G) (g_ups G) (g_outer G) (g_fn G) (g_loop G) None (g_depth G + n).
Definition g_in (G : ctx) : ctx := g_deep 0 G.
Definition g_tgt (q : nat) (G : ctx) : ctx :=
  Ctx (g_bc G) (g_vars G) (g_ups G) (g_outer G) (g_fn G) (g_loop G)
    (match g_null G with Some t => Some t | None => Some q end) (g_depth G).
Definition extend (vs : vars) (G : ctx) : ctx :=
  Ctx (g_bc G) (vs ++ g_vars G) (g_ups G) (g_outer G) (g_fn G) (g_loop G) (g_null G) (g_depth G).
Definition with_loop (l : option loopinfo) (G : ctx) : ctx :=
  Ctx (g_bc G) (g_vars G) (g_ups G) (g_outer G) (g_fn G) l (g_null G) (g_depth G).
Definition no_vars (G : ctx) : ctx :=
  Ctx (g_bc G) [] (g_ups G) (g_outer G) (g_fn G) (g_loop G) (g_null G) (g_depth G).
Definition has_room (G : ctx) : Prop := List.length (g_vars G) < bc_slot_count (g_bc G).
Definition level_of (G : ctx) : level := (g_vars G, g_ups G).

Definition loads (G : ctx) (x : string) (p q : nat) : Prop :=
  match lookup x (g_vars G) with
  | Some (j, _) => at_ (g_bc G) p (IByte OpLoadLocal j) q
  | None =>
      (exists i, reach (g_ups G) (g_outer G) i x /\ at_ (g_bc G) p (IByte OpLoadUpvalue i) q) \/
      (hidden x (g_outer G) /\ at_const (g_bc G) OpLoadGlobal (CSymbol x) p q)
  end.
Definition assigns (G : ctx) (x : string) (p q : nat) : Prop :=
  match lookup x (g_vars G) with
  | Some (j, _) => at_ (g_bc G) p (IByte OpAssignLocal j) q
  | None => exists i, reach (g_ups G) (g_outer G) i x /\ at_ (g_bc G) p (IByte OpAssignUpvalue i) q
  end.
Definition checks (G : ctx) (t : option type_ann) (slot p q : nat) : Prop :=
  match t with
  | None => p = q
  | Some ty => exists p1, loads G (ta_name ty) p p1 /\
      at_ (g_bc G) p1 (IByte (if ta_nullable ty then OpAssertTypeOrNullForLocal else OpAssertTypeForLocal) slot) q
  end.
Definition rets (G : ctx) (p q : nat) : Prop :=
  match g_fn G with
  | None => False
  | Some (Returning None) | Some Constructing => at_ (g_bc G) p (INone OpReturn) q
  | Some (Returning (Some t)) => exists p1, loads G (ta_name t) p p1 /\
      at_ (g_bc G) p1 (INone (if ta_nullable t then OpAssertTypeOrNullAndReturn else OpAssertTypeAndReturn)) q
  end.
Fixpoint drops (bc : bytecode) (n p q : nat) : Prop :=
  match n with
  | 0 => p = q
  | S n' => exists p1 p2, at_ bc p (INone OpSwap) p1 /\ at_ bc p1 (INone OpPop) p2 /\ drops bc n' p2 q
  end.
(** The slots of the captured ones among the variables [vs] that stand above [n] others, oldest first. *)
Fixpoint flagged (n : nat) (vs : vars) : list nat :=
  match vs with
  | [] => []
  | (_, fl) :: r => flagged n r ++ if fl then [n + List.length r] else []
  end.
Fixpoint closes (bc : bytecode) (slots : list nat) (p q : nat) : Prop :=
  match slots with
  | [] => p = q
  | j :: r => exists p1, at_ bc p (IByte OpCloseUpvalue j) p1 /\ closes bc r p1 q
  end.
Definition unflagged (vs : vars) : Prop := Forall (fun v => snd v = false) vs.
(** The variables declared since the loop began. *)
Definition loop_vars (G : ctx) (l : loopinfo) : vars := firstn (List.length (g_vars G) - lp_vars l) (g_vars G).

(** Captured variables as operands of CREATE_CLOSURE. *)
Definition desc_bytes (d : upvalue_desc) : byte * byte :=
  match d with ParentLocal j _ => (1, j) | Outer j _ => (0, j) end.
Definition desc_ok (G : ctx) (d : upvalue_desc) : Prop :=
  match d with
  | ParentLocal j _ => exists x, nth_error (rev (g_vars G)) j = Some (x, true)
  | Outer j _ => j < List.length (g_ups G)
  end.

Section Code.
Variable lit : nat -> fn_bytecode.
Variable code : ctx -> nat -> expr -> nat -> nat -> Prop.

Fixpoint list_code (G : ctx) (k : nat) (es : list expr) (p q : nat) : Prop :=
  match es with
  | [] => p = q
  | e :: r => exists p1, code G k e p p1 /\ list_code (g_deep 1 G) (k + fns e) r p1 q
  end.
Fixpoint fields_code (G : ctx) (k : nat) (items : list (string * expr)) (p q : nat) : Prop :=
  match items with
  | [] => p = q
  | (key, e) :: r => exists p1 p2 p3 p4,
      at_ (g_bc G) p (IByte OpDup 0) p1 /\ code (g_deep 2 G) k e p1 p2 /\
      at_const (g_bc G) OpStoreField (CSymbol key) p2 p3 /\ at_ (g_bc G) p3 (INone OpPop) p4 /\
      fields_code G (k + fns e) r p4 q
  end.

Fixpoint params_code (G : ctx) (args : list fn_arg) (p q : nat) (G' : ctx) : Prop :=
  match args with
  | [] => p = q /\ G' = G
  | a :: r => exists fl p1, has_room G /\
      checks (extend [(fa_name a, fl)] G) (fa_type a) (List.length (g_vars G)) p p1 /\
      params_code (extend [(fa_name a, fl)] G) r p1 q G'
  end.
Fixpoint hoists (G : ctx) (names : list string) (G' : ctx) : Prop :=
  match names with
  | [] => G' = G
  | x :: r => exists fl, has_room G /\ hoists (extend [(x, fl)] G) r G'
  end.
Fixpoint destructures (G : ctx) (names : list string) (p q : nat) (G' : ctx) : Prop :=
  match names with
  | [] => p = q /\ G' = G
  | x :: r => exists fl p1 p2 p3 p4, has_room G /\
      at_ (g_bc G) p (IByte OpDup 0) p1 /\ at_const (g_bc G) OpLoadField (CSymbol x) p1 p2 /\
      at_ (g_bc G) p2 (IByte OpStoreLocal (List.length (g_vars G))) p3 /\ at_ (g_bc G) p3 (INone OpPop) p4 /\
      destructures (extend [(x, fl)] G) r p4 q G'
  end.

(** One statement and the variables in scope after it.  The code of a declared function, as an expression, is
    that of the function literal. *)
Definition decl_code (G : ctx) (k : nat) (e : expr) (p q : nat) (G' : ctx) : Prop :=
  match e with
  | EVarDecl (Singular x) _ e1 t => exists fl p1 p2, has_room G /\
      code (g_in G) k e1 p p1 /\ at_ (g_bc G) p1 (IByte OpStoreLocal (List.length (g_vars G))) p2 /\
      checks (extend [(x, fl)] G) t (List.length (g_vars G)) p2 q /\ G' = extend [(x, fl)] G
  | EVarDecl (Destructured names) _ e1 _ => exists p1, code (g_in G) k e1 p p1 /\ destructures G names p1 q G'
  | EFnDecl name _ _ _ => exists p1 j fl,
      code (g_in G) k e p p1 /\ lookup name (g_vars G) = Some (j, fl) /\
      at_ (g_bc G) p1 (IByte OpStoreLocal j) q /\ G' = G
  | EOpDecl op _ _ _ => exists p1 p2,
      code (g_in G) k e p p1 /\
      at_const (g_bc G) OpStoreGlobal (CSymbol (operator_name (overloaded op))) p1 p2 /\
      at_ (g_bc G) p2 (INone OpPushUnit) q /\ G' = G
  | _ => code (g_in G) k e p q /\ G' = G
  end.
Definition item_code (G : ctx) (k : nat) (e : expr) (p q : nat) (G' : ctx) : Prop :=
  match e with
  | EImportDecl x names path => exists p1 p2 G1,
      at_const (g_bc G) OpLoadModule (CSymbol path) p p1 /\ destructures G names p1 p2 G1 /\
      match x with
      | None => p2 = q /\ G' = G1
      | Some y => exists fl, has_room G1 /\ at_ (g_bc G) p2 (IByte OpStoreLocal (List.length (g_vars G1))) q /\ G' = extend [(y, fl)] G1
      end
  | EExportDecl e1 => exists name j fl vs p1 p2,
      exported e1 = Some name /\
      lookup "#export" (g_vars G) = Some (j, fl) /\ at_ (g_bc G) p (IByte OpLoadLocal j) p1 /\
      decl_code (g_deep 1 G) k e1 p1 p2 (extend vs (g_deep 1 G)) /\
      at_const (g_bc G) OpStoreField (CSymbol name) p2 q /\ G' = extend vs G
  | _ => decl_code G k e p q G'
  end.
Section Items.
Variable t : option expr.
Fixpoint items_code (G : ctx) (k : nat) (es : list expr) (p q : nat) (G' : ctx) : Prop :=
  match es with
  | [] => match t with
          | Some e => item_code G k e p q G'
          | None => at_ (g_bc G) p (INone OpPushUnit) q /\ G' = G
          end
  | e :: r => exists G1 p1 p2, item_code G k e p p1 G1 /\ at_ (g_bc G) p1 (INone OpPop) p2 /\
      items_code G1 (k + fns e) r p2 q G'
  end.
End Items.
(** A block; a loop's block drops its value before its variables. *)
Definition block_code (looping : bool) (G : ctx) (k : nat) (es : list expr) (t : option expr) (p q : nat) : Prop :=
  exists vs G1 p1 p2, hoists G (hoisted es t) G1 /\ items_code t G1 k es p p1 (extend vs G) /\
    (if looping then at_ (g_bc G) p1 (INone OpPop) p2 else p1 = p2) /\
    closes (g_bc G) (flagged (List.length (g_vars G)) vs) p2 q.
(** A function: slot 0, parameters, statements, return. *)
Definition fn_ctx (n : nat) (ro : role) (outer : list level) (ups : list upvalue_desc) : ctx :=
  Ctx (fn_code (lit n)) [] ups outer (Some ro) None None 0.
Definition fn_body (n : nat) (self : string) (args : list fn_arg) (ro : role) (k : nat) (es : list expr) (t : option expr)
    (outer : list level) (ups : list upvalue_desc) : Prop :=
  let G := fn_ctx n ro outer ups in
  exists fl G1 G2 vs p1 p2 p3 p4,
    bc_upvalue_count (g_bc G) = List.length ups /\ has_room G /\
    params_code (extend [(self, fl)] G) args 0 p1 G1 /\
    hoists G1 (hoisted es t) G2 /\
    items_code t G2 k es p1 p2 (extend vs G) /\
    match ro with
    | Returning _ => closes (g_bc G) (flagged 0 vs) p2 p3 /\ rets G p3 p4
    | Constructing => exists vs' p5 p6, vs = vs' ++ [(self, false)] /\
        closes (g_bc G) (flagged 1 vs') p2 p3 /\
        at_ (g_bc G) p3 (INone OpPop) p5 /\ at_ (g_bc G) p5 (IByte OpLoadLocal 0) p6 /\ at_ (g_bc G) p6 (INone OpReturn) p4
    end.
Definition literal (G : ctx) (n : nat) (fn : list upvalue_desc -> Prop) (p q : nat) : Prop :=
  exists ups c, fn ups /\
    nth_error (bc_constants (g_bc G)) c = Some (CFunction (lit n)) /\
    match ups with
    | [] => at_ (g_bc G) p (IByte OpPushConst c) q
    | _ => at_ (g_bc G) p (IClosure c (map desc_bytes ups)) q /\ Forall (desc_ok G) ups
    end.
(** A function of a class, and the class variable in slot [j] again. *)
Definition fn_of (n : nat) (self : string) (args : list fn_arg) (ro : role) (k : nat) (body : expr)
    (outer : list level) (ups : list upvalue_desc) : Prop :=
  match body with
  | EBlock es t => fn_body n self args ro k es t outer ups
  | _ => fn_body n self args ro k [] (Some body) outer ups
  end.
Definition member_code (G : ctx) (k j : nat) (e : expr) (p q : nat) : Prop :=
  let method key n rest ro body := exists p1 p2,
    literal G n (fn_of n "self" rest ro k body (level_of G :: g_outer G)) p p1 /\
    at_const (g_bc G) OpStoreMethod (CSymbol key) p1 p2 /\ at_ (g_bc G) p2 (IByte OpLoadLocal j) q in
  match e with
  | EFnDecl name args ret body =>
      match receiver args with
      | Some rest => method name (k + fns body) rest (if String.eqb name "new" then Constructing else Returning ret) body
      | None => exists p1 p2 p3,
          literal G (k + fns body) (fn_of (k + fns body) "" args (Returning ret) k body (level_of G :: g_outer G)) p p1 /\
          at_const (g_bc G) OpStoreField (CSymbol name) p1 p2 /\ at_ (g_bc G) p2 (INone OpPop) p3 /\
          at_ (g_bc G) p3 (IByte OpLoadLocal j) q
      end
  | EOpDecl op args ret body =>
      match receiver args with
      | Some rest => method (operator_name (overloaded op)) (k + fns body) rest (Returning ret) body
      | None => False
      end
  | _ => False
  end.
Fixpoint members_code (G : ctx) (k j : nat) (es : list expr) (p q : nat) : Prop :=
  match es with
  | [] => p = q
  | e :: r => exists p1, member_code G k j e p p1 /\ members_code G (k + fns e) j r p1 q
  end.
Definition class_code (G : ctx) (k : nat) (name : string) (es : list expr) (base : option expr) (p q : nat) : Prop :=
  exists fl j fj p1 p2 p3 p4 p5,
  has_room G /\
  match base with Some b => code (g_in G) k b p p1 | None => loads G "Any" p p1 end /\
  at_ (g_bc G) p1 (IByte OpStoreLocal (List.length (g_vars G))) p2 /\ at_const (g_bc G) OpInheritClass (CSymbol name) p2 p3 /\
  lookup name (("super", fl) :: g_vars G) = Some (j, fj) /\ at_ (g_bc G) p3 (IByte OpStoreLocal j) p4 /\
  members_code (extend [("super", fl)] G) (k + match base with Some b => fns b | None => 0 end) j es p4 p5 /\
  closes (g_bc G) (flagged (List.length (g_vars G)) [("super", fl)]) p5 q.
Definition operator_code (G : ctx) (op : assignop) (p q : nat) : Prop :=
  match compound op with Some o => at_ (g_bc G) p (INone o) q | None => False end.
(** The two code sequences around the null tests. *)
Definition null_test (bc : bytecode) (o : opcode) (p q : nat) : Prop :=
  exists p1 p2, at_ bc p (IByte OpDup 0) p1 /\ at_ bc p1 (INone OpPushNull) p2 /\ at_ bc p2 (INone o) q.
Definition chain_code (G : ctx) (q : nat) (body : ctx -> Prop) : Prop := body (g_tgt q G).
End Code.

Section CodeOf.
Variable lit : nat -> fn_bytecode.

Fixpoint code (G : ctx) (k : nat) (e : expr) (p q : nat) {struct e} : Prop :=
  let bc := g_bc G in
  match e with
  | ELitIdent x => loads G x p q
  | ELitUnit => at_ bc p (INone OpPushUnit) q
  | ELitNull => at_ bc p (INone OpPushNull) q
  | ELitBool b => at_ bc p (INone (if b then OpPushTrue else OpPushFalse)) q
  | ELitInt z =>
      if Z.eqb z 0 then at_ bc p (INone OpPushI0) q else if Z.eqb z 1 then at_ bc p (INone OpPushI1) q
      else at_const bc OpPushConst (CInt z) p q
  | ELitFloat x =>
      if f64_eqb x f64_zero then at_ bc p (INone OpPushF0) q else if f64_eqb x f64_one then at_ bc p (INone OpPushF1) q
      else at_const bc OpPushConst (CFloat x) p q
  | ELitString x => at_const bc OpPushConst (CString x) p q
  | ELitAnonymousFn args ret body =>
      literal lit G k (fun ups =>
        match body with
        | EBlock es t => fn_body lit code k "" args (Returning ret) (k + 1) es t (level_of G :: g_outer G) ups
        | _ => fn_body lit code k "" args (Returning ret) (k + 1) [] (Some body) (level_of G :: g_outer G) ups
        end) p q
  | EFnDecl _ args ret body | EOpDecl _ args ret body =>
      literal lit G (k + fns body) (fun ups =>
        match body with
        | EBlock es t => fn_body lit code (k + fns body) "" args (Returning ret) k es t (level_of G :: g_outer G) ups
        | _ => fn_body lit code (k + fns body) "" args (Returning ret) k [] (Some body) (level_of G :: g_outer G) ups
        end) p q
  | ELitObject items => exists p1, at_ bc p (INone OpCreateObject) p1 /\ fields_code code G k items p1 q
  | ELitList es => exists p1, list_code code (g_in G) k es p p1 /\ at_ bc p1 (IByte OpCreateArray (List.length es)) q
  | EAssignment op (ELitIdent x) rhs =>
      match op with
      | AAssign => exists p1, code (g_in G) k rhs p p1 /\ assigns G x p1 q
      | _ => exists p1 p2 p3, loads G x p p1 /\ code (g_deep 1 G) k rhs p1 p2 /\ operator_code G op p2 p3 /\ assigns G x p3 q
      end
  | EAssignment op (EFieldAccess obj f) rhs => exists p1, code (g_in G) k obj p p1 /\
      match op with
      | AAssign => exists p2, code (g_deep 1 G) (k + fns obj) rhs p1 p2 /\ at_const bc OpStoreField (CSymbol f) p2 q
      | _ => exists p2 p3 p4 p5, at_ bc p1 (IByte OpDup 0) p2 /\ at_const bc OpLoadField (CSymbol f) p2 p3 /\
               code (g_deep 2 G) (k + fns obj) rhs p3 p4 /\ operator_code G op p4 p5 /\ at_const bc OpAssignField (CSymbol f) p5 q
      end
  | EAssignment op (EIndex obj idx) rhs =>
      exists p1 p2, code (g_in G) k obj p p1 /\ code (g_deep 1 G) (k + fns obj) idx p1 p2 /\
      match op with
      | AAssign => exists p3, code (g_deep 2 G) (k + fns obj + fns idx) rhs p2 p3 /\ at_ bc p3 (INone OpAssignIndex) q
      | _ => exists p3 p4 p5 p6 p7, at_ bc p2 (IByte OpDup 1) p3 /\ at_ bc p3 (IByte OpDup 1) p4 /\ at_ bc p4 (INone OpLoadIndex) p5 /\
               code (g_deep 3 G) (k + fns obj + fns idx) rhs p5 p6 /\ operator_code G op p6 p7 /\ at_ bc p7 (INone OpAssignIndex) q
      end
  | EPrefix op x => exists p1, code (g_in G) k x p p1 /\ at_ bc p1 (INone (match op with Negate => OpNegate | Not => OpNot end)) q
  | EBinary op lhs rhs =>
      match op with
      | BLogicalAnd | BLogicalOr => exists p1 p2 p3 p4 p5 p6,
          code (g_in G) k lhs p p1 /\ at_ bc p1 (IByte OpDup 0) p2 /\ at_ bc p2 (INone OpAssertBool) p3 /\
          jumps bc (match op with BLogicalAnd => OpJumpIfFalse | _ => OpJumpIfTrue end) p3 p4 q /\
          at_ bc p4 (INone OpPop) p5 /\ code (g_in G) (k + fns lhs) rhs p5 p6 /\ at_ bc p6 (INone OpAssertBool) q
      | BCoalesce => exists p1 p2 p3 p4,
          code (g_in G) k lhs p p1 /\ null_test bc OpEqual p1 p2 /\ jumps bc OpJumpIfFalse p2 p3 q /\
          at_ bc p3 (INone OpPop) p4 /\ code (g_in G) (k + fns lhs) rhs p4 q
      | BPipeline => exists p1 p2,
          code (g_in G) k rhs p p1 /\ code (g_deep 1 G) (k + fns rhs) lhs p1 p2 /\ at_ bc p2 (IByte OpCall 1) q
      | _ => exists p1 p2,
          code (g_in G) k lhs p p1 /\ code (g_deep 1 G) (k + fns lhs) rhs p1 p2 /\
          match operation op with Some o => at_ bc p2 (INone o) q | None => False end
      end
  | EIs x t =>
      if ta_nullable t then exists p1 p2 p3 p4 p5 p6 p7 p8,
        code (g_in G) k x p p1 /\ at_ bc p1 (INone OpPushNull) p2 /\ at_ bc p2 (INone OpEqual) p3 /\ at_ bc p3 (IByte OpDup 0) p4 /\
        jumps bc OpJumpIfTrue p4 p5 q /\ at_ bc p5 (INone OpPop) p6 /\ code (g_in G) (k + fns x) x p6 p7 /\
        loads G (ta_name t) p7 p8 /\ at_ bc p8 (INone OpIs) q
      else exists p1 p2, code (g_in G) k x p p1 /\ loads G (ta_name t) p1 p2 /\ at_ bc p2 (INone OpIs) q
  | EIf c x s => exists p1 p2 p3 p4,
      code (g_in G) k c p p1 /\ jumps bc OpJumpIfFalse p1 p2 p4 /\ code (g_in G) (k + fns c) x p2 p3 /\
      jumps bc OpJump p3 p4 q /\
      match s with
      | Some y => code (g_in G) (k + fns c + fns x) y p4 q
      | None => at_ bc p4 (INone OpPushUnit) q
      end
  | EWhile c (EBlock es t) => exists p1 p2 p3 p4,
      let G' := with_loop (Some (Loop (List.length (g_vars G)) p4 (Some p) (g_depth G))) (g_in G) in
      code G' k c p p1 /\ jumps bc OpJumpIfFalse p1 p2 p4 /\ block_code code true G' (k + fns c) es t p2 p3 /\
      jumps bc OpJump p3 p4 p /\ at_ bc p4 (INone OpPushUnit) q
  | ELoop (EBlock es t) => exists p3 p4,
      let G' := with_loop (Some (Loop (List.length (g_vars G)) p4 (Some p) (g_depth G))) (g_in G) in
      block_code code true G' k es t p p3 /\ jumps bc OpJump p3 p4 p /\ at_ bc p4 (INone OpPushUnit) q
  | EFor x (EBinary ((BRangeInclusive | BRangeExclusive) as op) first last) body =>
      exists fl p1 p2 p3 p4 p5 p6 p7 p8 p9 p10 p11 p12 p13 p14,
      let slot := List.length (g_vars G) in
      let G' := with_loop (Some (Loop slot p13 None (S (g_depth G)))) (extend [(x, fl)] (g_deep 1 G)) in
      has_room G /\
      code (g_in G) k last p p1 /\ code (g_deep 1 G) (k + fns last) first p1 p2 /\
      at_ bc p2 (IByte OpStoreLocal slot) p3 /\ at_ bc p3 (IByte OpDup 1) p4 /\
      at_ bc p4 (INone (match op with BRangeInclusive => OpLessThanOrEqual | _ => OpLessThan end)) p5 /\
      jumps bc OpJumpIfFalse p5 p6 p13 /\
      code G' (k + fns last + fns first) body p6 p7 /\
      at_ bc p7 (INone OpPop) p8 /\ at_ bc p8 (IByte OpLoadLocal slot) p9 /\ at_ bc p9 (INone OpPushI1) p10 /\
      at_ bc p10 (INone OpAdd) p11 /\ closes bc (if fl then [slot] else []) p11 p12 /\ jumps bc OpJump p12 p13 p2 /\
      at_ bc p13 (INone OpPop) p14 /\ at_ bc p14 (INone OpPushUnit) q
  | EFor x e1 body =>
      exists fl p1 p2 p3 p4 p5 p6 p7 p8 p9 p10 p11 p12 p13 p14 p15 p16 p17,
      let slot := List.length (g_vars G) in
      let G' := with_loop None (extend [(x, fl)] (g_deep 1 G)) in
      has_room G /\
      code (g_in G) k e1 p p1 /\ at_const bc OpLoadField (CSymbol "iter") p1 p2 /\ at_ bc p2 (IByte OpCall 0) p3 /\
      at_const bc OpLoadField (CSymbol "next") p3 p4 /\
      at_ bc p4 (IByte OpDup 0) p5 /\ at_ bc p5 (IByte OpCall 0) p6 /\ at_ bc p6 (IByte OpDup 0) p7 /\
      at_const bc OpLoadField (CSymbol "is_done") p7 p8 /\ jumps bc OpJumpIfTrue p8 p9 p15 /\
      (exists i, at_ bc p9 (ITwo OpLoadFieldToLocal i slot) p10 /\ nth_error (bc_constants bc) i = Some (CSymbol "value")) /\
      at_ bc p10 (INone OpPop) p11 /\ code G' (k + fns e1) body p11 p12 /\ at_ bc p12 (INone OpPop) p13 /\
      closes bc (if fl then [slot] else []) p13 p14 /\ jumps bc OpJump p14 p15 p4 /\
      at_ bc p15 (INone OpPop) p16 /\ at_ bc p16 (INone OpPop) p17 /\ at_ bc p17 (INone OpPushUnit) q
  | EBreak => exists l, g_loop G = Some l /\ lp_depth l = g_depth G /\ unflagged (loop_vars G l) /\ jumps bc OpJump p q (lp_break l)
  | EContinue => exists l t, g_loop G = Some l /\ lp_depth l = g_depth G /\ unflagged (loop_vars G l) /\ lp_next l = Some t /\
      jumps bc OpJump p q t
  | EBlock es t => block_code code false (g_in G) k es t p q
  | EReturn r => exists p1 p2, unflagged (g_vars G) /\
      match r with
      | Some x => code (g_in G) k x p p1
      | None => match g_fn G with Some Constructing => loads G "self" p p1 | _ => at_ bc p (INone OpPushUnit) p1 end
      end /\
      drops bc (g_depth G) p1 p2 /\ rets G p2 q
  | ENullPropagate x => chain_code G q (fun G' => exists p1 p2 t,
      code G' k x p p1 /\ null_test bc OpNotEqual p1 p2 /\ g_null G' = Some t /\ jumps bc OpJumpIfFalse p2 q t)
  | EErrorPropagate x => chain_code G q (fun G' => exists p1 p2 p3 p4 p5 p6,
      unflagged (g_vars G) /\
      code G' k x p p1 /\ at_ bc p1 (IByte OpDup 0) p2 /\ at_const bc OpLoadField (CSymbol "is_ok") p2 p3 /\
      jumps bc OpJumpIfTrue p3 p4 p6 /\ drops bc (g_depth G) p4 p5 /\ rets G p5 p6 /\
      at_const bc OpLoadField (CSymbol "result") p6 q)
  | EFieldAccess x f => chain_code G q (fun G' => exists p1, code G' k x p p1 /\ at_const bc OpLoadField (CSymbol f) p1 q)
  | EFnCall f args => chain_code G q (fun G' => exists p1 p2,
      code G' k f p p1 /\ list_code code (g_deep 1 G) (k + fns f) args p1 p2 /\ at_ bc p2 (IByte OpCall (List.length args)) q)
  | EIndex x i => chain_code G q (fun G' => exists p1 p2,
      code G' k x p p1 /\ code (g_deep 1 G) (k + fns x) i p1 p2 /\ at_ bc p2 (INone OpLoadIndex) q)
  | EClassDecl name es base => class_code lit code (g_in G) k name es base p q
  | ESuperCall args => exists p1 p2 p3,
      loads G "self" p p1 /\ list_code code (g_deep 1 G) k args p1 p2 /\ loads G "super" p2 p3 /\
      at_ bc p3 (IByte OpCallSuper (List.length args)) q
  | ESuperAccess f c => exists p1 p2,
      loads G (match c with Some x => x | None => "super" end) p p1 /\ loads G "self" p1 p2 /\
      at_const bc OpLoadMethod (CSymbol f) p2 q
  | _ => False
  end.
End CodeOf.
