(** The compiler: dice-compiler/src/{compiler,compile_fn,decl_scan}.rs and dice-compiler/src/visitor/*.rs.
    Spans, error tags and error contexts are not modelled.  The random UUID of a compiled function is
    modelled by a counter (two functions of one compilation never get the same id). *)
From Verif.Model Require Export Float CompilerStack.
Open Scope string_scope.
Open Scope nat_scope.
Open Scope list_scope.

(** struct Compiler: compiler.rs:18-22 (without the syntax tree, which is passed as a term). *)
Record cstate := CState { cs_stack : list context; cs_next_id : nat }.

(** A compiler method: [&mut self -> Result<A, Error>], or a panic. *)
Definition M (A : Type) : Type := cstate -> outcome (A * cstate).
Definition ret {A} (a : A) : M A := fun s => Ok (a, s).
Definition bind {A B} (m : M A) (f : A -> M B) : M B :=
  fun s => match m s with
           | Ok (a, s') => f a s'
           | Err e => Err e
           | Panic => Panic
           | NoFuel => NoFuel
           end.
Definition fail {A} (e : errcode) : M A := fun _ => Err e.
Definition panic {A} : M A := fun _ => Panic.
Declare Scope compiler_scope.
Notation "x <- m ;; k" := (bind m (fun x => k)) (at level 61, m at next level, right associativity) : compiler_scope.
Notation "m ;;; k" := (bind m (fun _ => k)) (at level 61, right associativity) : compiler_scope.
Open Scope compiler_scope.

(** context(), compiler.rs:70-72 and CompilerStack::top_mut, compiler_stack.rs:114-116. *)
Definition get_context : M context :=
  fun s => match cs_stack s with
           | [] => Err INTERNAL_COMPILER_ERROR
           | c :: _ => Ok (c, s)
           end.
Definition set_context (c : context) : M unit :=
  fun s => match cs_stack s with
           | [] => Err INTERNAL_COMPILER_ERROR
           | _ :: rest => Ok (tt, CState (c :: rest) (cs_next_id s))
           end.
Definition lift {A} (o : outcome A) : M A :=
  fun s => match o with Ok a => Ok (a, s) | Err e => Err e | Panic => Panic | NoFuel => NoFuel end.

(** assembler(), compiler.rs:74-76, and the emitters of emit_bytecode! (dice-compiler/src/visitor/macros,
    assembler.rs), lifted to the compiler. *)
Definition on_asm {A} (f : assembler -> outcome (A * assembler)) : M A :=
  c <- get_context ;;
  r <- lift (f (cx_asm c)) ;;
  set_context (set_asm (snd r) c) ;;;
  ret (fst r).
Definition emit (o : opcode) : M unit := on_asm (fun a => Ok (tt, emit0 o a)).
Definition emit_u8 (o : opcode) (b : byte) : M unit := on_asm (fun a => Ok (tt, emit1 o b a)).
Definition emit_c (o : opcode) (k : const) : M unit := on_asm (fun a => omap (fun a' => (tt, a')) (emit_const o k a)).
Definition emit_lftl (field : string) (slot : byte) : M unit :=
  on_asm (fun a => omap (fun a' => (tt, a')) (emit_load_field_to_local field slot a)).
Definition emit_clo (k : const) (ups : list upvalue_desc) : M unit :=
  on_asm (fun a => omap (fun a' => (tt, a')) (emit_closure k ups a)).
Definition jump (o : opcode) : M nat := on_asm (fun a => Ok (emit_jump o a)).
Definition patch (p : nat) : M unit := on_asm (fun a => omap (fun a' => (tt, a')) (patch_jump p a)).
Definition jump_back (p : nat) : M unit := on_asm (fun a => Ok (tt, emit_jump_back p a)).
Definition here : M nat := on_asm (fun a => Ok (current_position a, a)).
Definition push_bool (b : bool) : M unit := emit (if b then OpPushTrue else OpPushFalse).  (* assembler.rs:54-63 *)

(** scope_stack() of the current context. *)
Definition on_scopes {A} (f : scope_stack -> outcome (A * scope_stack)) : M A :=
  c <- get_context ;;
  r <- lift (f (cx_scopes c)) ;;
  set_context (set_scopes (snd r) c) ;;;
  ret (fst r).
Definition m_push_scope (k : scope_kind) (entry : option nat) : M unit := on_scopes (fun s => Ok (tt, push_scope k entry s)).
Definition m_pop_scope : M scope := on_scopes pop_scope.
Definition m_add_local (name : string) (st : var_state) : M nat := on_scopes (add_local name st).
Definition m_local (name : string) : M (option scope_var) := on_scopes (fun s => Ok (local name s, s)).
Definition m_set_state (name : string) (st : var_state) : M unit := on_scopes (fun s => Ok (tt, update_local name (set_state st) s)).
Definition m_top_scope : M scope := on_scopes (fun s => omap (fun sc => (sc, s)) (top_scope s)).
Definition m_update_top (f : scope -> scope) : M unit := on_scopes (fun s => omap (fun s' => (tt, s')) (update_top f s)).
Definition get_kind : M compiler_kind := c <- get_context ;; ret (cx_kind c).
Definition get_temps : M nat := c <- get_context ;; ret (cx_temps c).
Definition put_temps (n : nat) : M unit := c <- get_context ;; set_context (set_temps n c).

(** compiler_stack.resolve_upvalue(name, 0): compiler_stack.rs:127-156. *)
Definition m_resolve_upvalue (name : string) : M (option nat) :=
  fun s => match resolve_upvalue name (cs_stack s) with
           | None => Ok (None, s)
           | Some (i, st) => Ok (Some i, CState st (cs_next_id s))
           end.
Definition fresh_id : M nat := fun s => Ok (cs_next_id s, CState (cs_stack s) (S (cs_next_id s))).

(** CompilerStack::push 106-108 and pop 110-112. *)
Definition push_context (k : compiler_kind) : M unit :=
  fun s => Ok (tt, CState (context_new k :: cs_stack s) (cs_next_id s)).
Definition pop_context : M context :=
  fun s => match cs_stack s with
           | [] => Err INTERNAL_COMPILER_ERROR
           | c :: rest => Ok (c, CState rest (cs_next_id s))
           end.

(** Loops over slices. *)
Definition each {A} (f : A -> M unit) : list A -> M unit :=
  fix go l := match l with [] => ret tt | x :: r => f x ;;; go r end.
Fixpoint times (n : nat) (m : M unit) : M unit :=
  match n with 0 => ret tt | S n' => m ;;; times n' m end.

(** dice-core/src/protocol.rs *)
Definition EXPORT := "#export".
Definition SELF := "self".
Definition SUPER := "super".
Definition NEW := "new".
Definition ANY_CLASS := "Any".
Definition ITER := "iter".
Definition NEXT := "next".
Definition VALUE := "value".
Definition DONE := "is_done".
Definition IS_OK := "is_ok".
Definition RESULT := "result".

(** visitor/literal_variable.rs:11-42. *)
Definition visit_ident (name : string) : M unit :=
  l <- m_local name ;;
  match l with
  | Some v => if sv_is_initialized v then emit_u8 OpLoadLocal (u8_of (sv_slot v)) else fail VARIABLE_NOT_INITIALIZED
  | None =>
      u <- m_resolve_upvalue name ;;
      match u with
      | Some i => emit_u8 OpLoadUpvalue (u8_of i)
      | None => emit_c OpLoadGlobal (CSymbol name)
      end
  end.

(** visitor/literal_int.rs:9-21, literal_float.rs:9-23 (a match on 0.0 also takes -0.0, which no
    literal denotes). *)
Definition visit_int (z : Z) : M unit :=
  if Z.eqb z 0 then emit OpPushI0 else if Z.eqb z 1 then emit OpPushI1 else emit_c OpPushConst (CInt z).
Definition visit_float (x : f64) : M unit :=
  if f64_eqb x f64_zero then emit OpPushF0 else if f64_eqb x f64_one then emit OpPushF1 else emit_c OpPushConst (CFloat x).

(** Type assertions after a declaration: visitor/decl_var.rs:30-41, expr_block.rs:145-156. *)
Definition visit_local_type (t : option type_ann) (slot : nat) : M unit :=
  match t with
  | None => ret tt
  | Some ty =>
      visit_ident (ta_name ty) ;;;
      emit_u8 (if ta_nullable ty then OpAssertTypeOrNullForLocal else OpAssertTypeForLocal) (u8_of slot)
  end.

(** visitor/expr_block.rs:124-160 (FunctionBlockKind::Function adds an unnamed receiver). *)
Definition visit_args (with_receiver : bool) (args : list fn_arg) : M unit :=
  (if with_receiver then m_add_local "" (SLocal false true) ;;; ret tt else ret tt) ;;;
  each (fun arg =>
    slot <- m_add_local (fa_name arg) (SLocal false true) ;;
    visit_local_type (fa_type arg) slot) args.

(** expr_block.rs:162-174 and decl_class.rs:168-180; the same loop is run over the variables of a
    popped scope by CLOSE_UPVALUES (expr_for.rs:62, expr_range_loop.rs:72). *)
Definition close_vars (vs : list scope_var) : M unit :=
  each (fun v => if sv_captured v then emit_u8 OpCloseUpvalue (u8_of (sv_slot v)) else ret tt) (rev vs).
Definition visit_close_upvalues : M unit := sc <- m_top_scope ;; close_vars (sc_vars sc).

(** expr_block.rs:176-199. *)
Definition visit_return : M unit :=
  k <- get_kind ;;
  match k with
  | KFunction (Some t) | KMethod (Some t) =>
      visit_ident (ta_name t) ;;;
      emit (if ta_nullable t then OpAssertTypeOrNullAndReturn else OpAssertTypeAndReturn)
  | _ => emit OpReturn
  end.

(** visitor/syntax_node.rs:84-103. *)
Definition enter_call : M unit :=
  m_update_top (fun sc => set_call (CallContext (S (cc_depth (sc_call sc))) (cc_exits (sc_call sc))) sc).
Definition exit_call : M unit :=
  sc <- m_top_scope ;;
  match cc_depth (sc_call sc) with
  | 0 => panic
  | 1 =>
      m_update_top (set_call (CallContext 0 [])) ;;;
      each patch (cc_exits (sc_call sc))
  | S d => m_update_top (set_call (CallContext d (cc_exits (sc_call sc))))
  end.

(** decl_scan.rs:17-55. *)
Fixpoint scan_expr (e : expr) : M unit :=
  match e with
  | EFnDecl name _ _ _ => m_add_local name (SFunction false) ;;; ret tt
  | EClassDecl name _ _ => m_add_local name (SClass false) ;;; ret tt
  | EExportDecl x => scan_expr x
  | _ => ret tt
  end.
(** The expressions of a block followed by its trailing expression. *)
Definition block_items (es : list expr) (t : option expr) : list expr :=
  es ++ match t with Some e => [e] | None => [] end.
(** decl_scan.rs:8-15. *)
Definition scan_item_decls (es : list expr) (t : option expr) : M unit := each scan_expr (block_items es t).

(** decl_fn.rs:43-54. *)
Fixpoint unique_names (l : list string) : bool :=
  match l with [] => true | x :: r => negb (existsb (String.eqb x) r) && unique_names r end.
Definition assert_unique_params (args : list fn_arg) : M unit :=
  if unique_names (map fa_name args) then ret tt else fail FUNCTION_CANNOT_HAVE_DUPLICATE_ARGS.

(** visitor/mod.rs:46-58. *)
Inductive class_kind := CBase | CDerived.
Inductive fn_kind := FkFunction | FkMethod | FkStaticMethod | FkConstructor (k : class_kind).

(** decl_op.rs:44-61. *)
Definition op_name (o : overop) : string :=
  match o with
  | OMultiply => "#mul" | ODivide => "#div" | ORemainder => "#rem" | OAdd => "#add" | OSubtract => "#sub"
  | OGreaterThan => "#gt" | OLessThan => "#lt" | OGreaterThanEquals => "#gte" | OLessThanEquals => "#lte"
  | OEquals => "#eq" | ONotEquals => "#neq"
  | ORangeInclusive => "#range_inclusive" | ORangeExclusive => "#range_exclusive"
  end.

(** expr_assignment.rs:206-216. *)
Definition visit_operator (o : assignop) : M unit :=
  match o with
  | AMul => emit OpMultiply | ADiv => emit OpDivide | AAdd => emit OpAdd | ASub => emit OpSubtract
  | AAssign => panic
  end.

(** PUSH_CONST or CREATE_CLOSURE: decl_fn.rs:84-91, 107-113, decl_op.rs, literal_anonymous_fn.rs:18-26. *)
Definition emit_compiled (name : string) (id : nat) (c : context) : M unit :=
  let k := CFunction (MkFn id name (finish c)) in
  match cx_upvalues c with
  | [] => emit_c OpPushConst k
  | ups => emit_clo k ups
  end.

(** Destructuring and item imports: decl_var.rs:48-73, decl_import.rs:6-31. *)
Fixpoint add_locals (names : list string) : M (list (string * nat)) :=
  match names with
  | [] => ret []
  | n :: r => slot <- m_add_local n (state_initialized false) ;; rest <- add_locals r ;; ret ((n, slot) :: rest)
  end.
Definition emit_fields_to_locals (items : list (string * nat)) : M unit :=
  each (fun p => emit_u8 OpDup 0 ;;; emit_c OpLoadField (CSymbol (fst p)) ;;;
                 emit_u8 OpStoreLocal (u8_of (snd p)) ;;; emit OpPop) items.

(** SWAP; POP for every pending temporary: expr_return.rs:42-45, expr_error_propagate.rs:29-32. *)
Definition drop_temps (n : nat) : M unit := times n (emit OpSwap ;;; emit OpPop).

(** "%Decimal" of the id in the name of an anonymous function: literal_anonymous_fn.rs:12-13 formats
    the UUID; here the decimal digits of the counter. *)
Fixpoint decimal_aux (fuel n : nat) : string :=
  match fuel with
  | 0 => ""
  | S f => String.append (if Nat.ltb n 10 then "" else decimal_aux f (n / 10))
                         (String (Ascii.ascii_of_nat (48 + n mod 10)) "")
  end.
Definition decimal (n : nat) : string := decimal_aux (S n) n.

Section Visitors.
(** The recursive call [self.visit(node)]. *)
Variable visit : expr -> M unit.

(** expr_block.rs:17-33. *)
Definition visit_block_body (es : list expr) (t : option expr) : M unit :=
  each (fun e => visit e ;;; emit OpPop) es ;;;
  match t with
  | Some e => visit e
  | None => emit OpPushUnit
  end.

(** expr_block.rs:40-56; [is_loop] is BlockKind::Loop. *)
Definition visit_block (is_loop : bool) (es : list expr) (t : option expr) : M unit :=
  m_push_scope KBlock None ;;;
  scan_item_decls es t ;;;
  visit_block_body es t ;;;
  (if is_loop then emit OpPop else ret tt) ;;;
  visit_close_upvalues ;;;
  m_pop_scope ;;;
  ret tt.

(** expr_block.rs:113-122. *)
Definition assert_super_call (es : list expr) (t : option expr) : M unit :=
  match block_items es t with
  | ESuperCall _ :: _ => ret tt
  | _ => fail NEW_MUST_CALL_SUPER_FROM_SUBCLASS
  end.

(** expr_block.rs:74-110. [body] is the visitor of the statements of the block. *)
Definition visit_fn_block (kind : fn_kind) (args : list fn_arg) (es : list expr) (t : option expr) (body : M unit) : M unit :=
  match kind with FkConstructor CDerived => assert_super_call es t | _ => ret tt end ;;;
  m_push_scope KBlock None ;;;
  visit_args (match kind with FkFunction | FkStaticMethod => true | _ => false end) args ;;;
  scan_item_decls es t ;;;
  body ;;;
  visit_close_upvalues ;;;
  match kind with
  | FkConstructor _ =>
      l <- m_local SELF ;;
      match l with
      | None => panic
      | Some v => emit OpPop ;;; emit_u8 OpLoadLocal (u8_of (sv_slot v)) ;;; emit OpReturn
      end
  | _ => visit_return
  end ;;;
  m_pop_scope ;;;
  ret tt.

(** compile_fn.rs:10-51; a body that is not a block is the trailing expression of an otherwise empty
    block, whose visit is the visit of that expression. *)
Definition compile_fn (args : list fn_arg) (return_type : option type_ann) (kind : fn_kind) (body : expr) : M context :=
  match kind, return_type with
  | FkConstructor _, Some _ => fail NEW_METHOD_CANNOT_HAVE_RETURN_TYPE
  | _, _ => ret tt
  end ;;;
  push_context (match kind with
                | FkConstructor _ => KConstructor
                | FkMethod => KMethod return_type
                | _ => KFunction return_type
                end) ;;;
  match body with
  | EBlock es t => visit_fn_block kind args es t (visit_block_body es t)
  | _ => visit_fn_block kind args [] (Some body) (visit body)
  end ;;;
  pop_context.

(** decl_fn.rs:18-40 for kinds other than Function, with 99-116. *)
Definition visit_method (name : string) (args : list fn_arg) (return_type : option type_ann) (body : expr) (kind : fn_kind) : M unit :=
  assert_unique_params args ;;;
  c <- compile_fn args return_type kind body ;;
  id <- fresh_id ;;
  emit_compiled name id c.

(** decl_fn.rs:18-40 for FnKind::Function, with 56-97. *)
Definition visit_fn_decl (name : string) (args : list fn_arg) (return_type : option type_ann) (body : expr) : M unit :=
  assert_unique_params args ;;;
  c <- compile_fn args return_type FkFunction body ;;
  id <- fresh_id ;;
  l <- m_local name ;;
  match l with
  | None => fail INTERNAL_COMPILER_ERROR
  | Some v =>
      match sv_state v with
      | SFunction true => fail FUNCTION_ALREADY_DECLARED
      | SFunction false =>
          m_set_state name (SFunction true) ;;;
          emit_compiled name id c ;;;
          emit_u8 OpStoreLocal (u8_of (sv_slot v))
      | _ => panic
      end
  end.

(** decl_op.rs:18-41 with 65-105. *)
Definition visit_op_decl (op : overop) (args : list fn_arg) (return_type : option type_ann) (body : expr) (is_method : bool) : M unit :=
  assert_unique_params args ;;;
  c <- compile_fn args return_type (if is_method then FkMethod else FkFunction) body ;;
  id <- fresh_id ;;
  emit_compiled (op_name op) id c ;;;
  if is_method then ret tt
  else emit_c OpStoreGlobal (CSymbol (op_name op)) ;;; emit OpPushUnit.

(** literal_anonymous_fn.rs:9-28. *)
Definition visit_anonymous_fn (args : list fn_arg) (return_type : option type_ann) (body : expr) : M unit :=
  id <- fresh_id ;;
  c <- compile_fn args return_type FkFunction body ;;
  emit_compiled (String.append "__anonymous_fn_" (decimal id)) id c.

(** The receiver parameter: decl_class.rs:106, 145. *)
Definition self_param (args : list fn_arg) : option fn_arg :=
  match args with
  | a :: _ => if String.eqb (fa_name a) SELF then Some a else None
  | [] => None
  end.

(** decl_class.rs:105-142. *)
Definition visit_class_fn (slot : nat) (k : class_kind) (name : string) (args : list fn_arg) (return_type : option type_ann) (body : expr) : M unit :=
  match self_param args with
  | Some a =>
      match fa_type a with
      | Some _ => fail METHOD_RECEIVER_CANNOT_HAVE_TYPE
      | None =>
          visit_method name args return_type body (if String.eqb name NEW then FkConstructor k else FkMethod) ;;;
          emit_c OpStoreMethod (CSymbol name) ;;;
          emit_u8 OpLoadLocal (u8_of slot)
      end
  | None =>
      if String.eqb name NEW then fail NEW_METHOD_MUST_HAVE_RECEIVER
      else
        visit_method name args return_type body FkStaticMethod ;;;
        emit_c OpStoreField (CSymbol name) ;;;
        emit OpPop ;;;
        emit_u8 OpLoadLocal (u8_of slot)
  end.

(** decl_class.rs:144-166. *)
Definition visit_class_op (slot : nat) (op : overop) (args : list fn_arg) (return_type : option type_ann) (body : expr) : M unit :=
  match self_param args with
  | None => fail OPERATOR_MUST_HAVE_RECEIVER
  | Some a =>
      match fa_type a with
      | Some _ => fail METHOD_RECEIVER_CANNOT_HAVE_TYPE
      | None =>
          visit_op_decl op args return_type body true ;;;
          emit_c OpStoreMethod (CSymbol (op_name op)) ;;;
          emit_u8 OpLoadLocal (u8_of slot)
      end
  end.

(** decl_class.rs:81-95. *)
Definition visit_class_item (slot : nat) (k : class_kind) (item : expr) : M unit :=
  match item with
  | EFnDecl name args return_type body => visit_class_fn slot k name args return_type body
  | EOpDecl op args return_type body => visit_class_op slot op args return_type body
  | _ => panic
  end.

(** decl_class.rs:23-102. *)
Definition visit_class (name : string) (items : list expr) (base : option expr) : M unit :=
  m_push_scope KBlock None ;;;
  match base with
  | Some b => visit b
  | None => visit_ident ANY_CLASS
  end ;;;
  super_slot <- m_add_local SUPER (state_initialized true) ;;
  emit_u8 OpStoreLocal (u8_of super_slot) ;;;
  l <- m_local name ;;
  match l with
  | None => fail INTERNAL_COMPILER_ERROR
  | Some v =>
      match sv_state v with
      | SClass true => fail CLASS_ALREADY_DECLARED
      | SClass false => m_set_state name (SClass true)
      | _ => ret tt
      end ;;;
      emit_c OpInheritClass (CSymbol name) ;;;
      emit_u8 OpStoreLocal (u8_of (sv_slot v)) ;;;
      each (visit_class_item (sv_slot v) (match base with Some _ => CDerived | None => CBase end)) items ;;;
      visit_close_upvalues ;;;
      m_pop_scope ;;;
      ret tt
  end.

(** decl_export.rs:43-50. *)
Definition export_name (e : expr) : option string :=
  match e with
  | EVarDecl (Singular name) _ _ _ => Some name
  | EFnDecl name _ _ _ => Some name
  | EClassDecl name _ _ => Some name
  | ELitIdent name => Some name
  | _ => None
  end.

(** decl_export.rs:14-57. *)
Definition visit_export (e : expr) : M unit :=
  k <- get_kind ;;
  match k with
  | KModule =>
      sc <- m_top_scope ;;
      if 1 <? sc_depth sc then fail INVALID_EXPORT_USAGE
      else
        l <- m_local EXPORT ;;
        match l with
        | None => panic
        | Some v =>
            emit_u8 OpLoadLocal (u8_of (sv_slot v)) ;;;
            visit e ;;;
            match export_name e with
            | Some n => emit_c OpStoreField (CSymbol n)
            | None => panic
            end
        end
  | _ => fail INVALID_EXPORT_USAGE
  end.

(** decl_import.rs:5-43. *)
Definition visit_import (module_import : option string) (items : list string) (path : string) : M unit :=
  imports <- add_locals items ;;
  emit_c OpLoadModule (CSymbol path) ;;;
  emit_fields_to_locals imports ;;;
  match module_import with
  | None => ret tt
  | Some n =>
      slot <- m_add_local n (state_initialized false) ;;
      emit_u8 OpStoreLocal (u8_of slot)
  end.

(** decl_var.rs:6-73. *)
Definition visit_var_decl (kind : var_kind) (is_mutable : bool) (e : expr) (t : option type_ann) : M unit :=
  visit e ;;;
  match kind with
  | Singular name =>
      slot <- m_add_local name (state_initialized is_mutable) ;;
      emit_u8 OpStoreLocal (u8_of slot) ;;;
      visit_local_type t slot
  | Destructured names =>
      items <- add_locals names ;;
      emit_fields_to_locals items
  end.

(** literal_list.rs:6-16. *)
Definition visit_list (items : list expr) : M unit :=
  each visit items ;;;
  emit_u8 OpCreateArray (u8_of (List.length items)).

(** literal_object.rs:6-19. *)
Definition visit_object (items : list (string * expr)) : M unit :=
  emit OpCreateObject ;;;
  each (fun p => match p with (k, e) =>
    emit_u8 OpDup 0 ;;; visit e ;;; emit_c OpStoreField (CSymbol k) ;;; emit OpPop end) items.

(** expr_assignment.rs:38-66. *)
Definition assign_index (op : assignop) (obj idx rhs : expr) : M unit :=
  visit obj ;;;
  visit idx ;;;
  match op with
  | AAssign => visit rhs ;;; emit OpAssignIndex
  | _ =>
      emit_u8 OpDup 1 ;;; emit_u8 OpDup 1 ;;; emit OpLoadIndex ;;;
      visit rhs ;;; visit_operator op ;;; emit OpAssignIndex
  end.

(** expr_assignment.rs:68-94. *)
Definition assign_field (op : assignop) (obj : expr) (field : string) (rhs : expr) : M unit :=
  visit obj ;;;
  match op with
  | AAssign => visit rhs ;;; emit_c OpStoreField (CSymbol field)
  | _ =>
      emit_u8 OpDup 0 ;;; emit_c OpLoadField (CSymbol field) ;;;
      visit rhs ;;; visit_operator op ;;; emit_c OpAssignField (CSymbol field)
  end.

(** expr_assignment.rs:96-204; the two branches differ in the opcodes and in the index. *)
Definition assign_slot (load assign : opcode) (slot : nat) (is_mutable : bool) (op : assignop) (rhs : expr) : M unit :=
  if is_mutable then
    match op with
    | AAssign => visit rhs ;;; emit_u8 assign (u8_of slot)
    | _ =>
        emit_u8 load (u8_of slot) ;;;
        visit rhs ;;; visit_operator op ;;; emit_u8 assign (u8_of slot)
    end
  else fail CANNOT_REASSIGN_IMMUTABLE_VARIABLE.
Definition assign_ident (op : assignop) (name : string) (rhs : expr) : M unit :=
  l <- m_local name ;;
  match l with
  | Some v => assign_slot OpLoadLocal OpAssignLocal (sv_slot v) (sv_is_mutable v) op rhs
  | None =>
      u <- m_resolve_upvalue name ;;
      match u with
      | Some i =>
          c <- get_context ;;
          match nth_error (cx_upvalues c) i with
          | Some d => assign_slot OpLoadUpvalue OpAssignUpvalue i (upvalue_is_mutable d) op rhs
          | None => panic
          end
      | None => fail VARIABLE_NOT_DECLARED
      end
  end.

(** expr_assignment.rs:15-35. *)
Definition visit_assignment (op : assignop) (lhs rhs : expr) : M unit :=
  match lhs with
  | ELitIdent name => assign_ident op name rhs
  | EFieldAccess obj field => assign_field op obj field rhs
  | EIndex obj idx => assign_index op obj idx rhs
  | _ => fail INVALID_ASSIGNMENT_TARGET
  end.

(** expr_binary_op.rs:29-85. *)
Definition visit_logical (o : opcode) (lhs rhs : expr) : M unit :=
  visit lhs ;;;
  emit_u8 OpDup 0 ;;;
  emit OpAssertBool ;;;
  j <- jump o ;;
  emit OpPop ;;;
  visit rhs ;;;
  emit OpAssertBool ;;;
  patch j.

(** expr_binary_op.rs:124-152. *)
Definition binary_opcode (op : binop) : option opcode :=
  match op with
  | BMultiply => Some OpMultiply | BDivide => Some OpDivide | BRemainder => Some OpRemainder
  | BAdd => Some OpAdd | BSubtract => Some OpSubtract
  | BGreaterThan => Some OpGreaterThan | BLessThan => Some OpLessThan
  | BGreaterThanEquals => Some OpGreaterThanOrEqual | BLessThanEquals => Some OpLessThanOrEqual
  | BEquals => Some OpEqual | BNotEquals => Some OpNotEqual
  | BRangeInclusive => Some OpRangeInclusive | BRangeExclusive => Some OpRangeExclusive
  | _ => None
  end.

(** expr_binary_op.rs:6-26, pipeline 87-98, coalesce 100-122. *)
Definition visit_binary (op : binop) (lhs rhs : expr) : M unit :=
  match op with
  | BLogicalAnd => visit_logical OpJumpIfFalse lhs rhs
  | BLogicalOr => visit_logical OpJumpIfTrue lhs rhs
  | BPipeline => visit rhs ;;; visit lhs ;;; emit_u8 OpCall 1
  | BCoalesce =>
      visit lhs ;;;
      emit_u8 OpDup 0 ;;; emit OpPushNull ;;; emit OpEqual ;;;
      j <- jump OpJumpIfFalse ;;
      emit OpPop ;;;
      visit rhs ;;;
      patch j
  | _ =>
      visit lhs ;;;
      visit rhs ;;;
      match binary_opcode op with Some o => emit o | None => panic end
  end.

(** Arguments of a call: expr_fn_call.rs:11-23, expr_super_call.rs:22-35. *)
Definition visit_isolated (e : expr) : M unit :=
  sc <- m_top_scope ;;
  m_update_top (set_call (CallContext 0 [])) ;;;
  n <- get_temps ;;
  put_temps (S n) ;;;
  visit e ;;;
  m_update_top (set_call (sc_call sc)).
Definition visit_call_args (args : list expr) : M unit :=
  n <- get_temps ;;
  each visit_isolated args ;;;
  put_temps n.

(** expr_fn_call.rs:6-29. *)
Definition visit_fn_call (target : expr) (args : list expr) : M unit :=
  visit target ;;;
  visit_call_args args ;;;
  emit_u8 OpCall (u8_of (List.length args)).

(** expr_super_call.rs:11-45. *)
Definition visit_super_call (args : list expr) : M unit :=
  l <- m_local SELF ;;
  match l with
  | None => panic
  | Some v =>
      emit_u8 OpLoadLocal (u8_of (sv_slot v)) ;;;
      visit_call_args args ;;;
      visit_ident SUPER ;;;
      emit_u8 OpCallSuper (u8_of (List.length args))
  end.

(** expr_index.rs:6-22 (the decrement restores the count that visit_isolated incremented). *)
Definition visit_index (e index : expr) : M unit :=
  visit e ;;;
  visit_isolated index ;;;
  (n <- get_temps ;; put_temps (n - 1)) ;;;
  emit OpLoadIndex.

(** expr_super_access.rs:11-37. *)
Definition visit_super_access (field : string) (super_class : option string) : M unit :=
  k <- get_kind ;;
  match k with
  | KMethod _ | KConstructor =>
      visit_ident (match super_class with Some c => c | None => SUPER end) ;;;
      visit_ident SELF ;;;
      emit_c OpLoadMethod (CSymbol field)
  | _ => fail INVALID_SUPER_CALL
  end.

(** expr_is.rs:6-33. *)
Definition visit_is (value : expr) (t : type_ann) : M unit :=
  if ta_nullable t then
    visit value ;;;
    emit OpPushNull ;;; emit OpEqual ;;; emit_u8 OpDup 0 ;;;
    j <- jump OpJumpIfTrue ;;
    emit OpPop ;;;
    visit value ;;;
    visit_ident (ta_name t) ;;;
    emit OpIs ;;;
    patch j
  else
    visit value ;;;
    visit_ident (ta_name t) ;;;
    emit OpIs.

(** expr_null_propagate.rs:6-29. *)
Definition visit_null_propagate (e : expr) : M unit :=
  visit e ;;;
  emit_u8 OpDup 0 ;;; emit OpPushNull ;;; emit OpNotEqual ;;;
  j <- jump OpJumpIfFalse ;;
  m_update_top (fun sc => set_call (CallContext (cc_depth (sc_call sc)) (cc_exits (sc_call sc) ++ [j])) sc).

(** expr_error_propagate.rs:11-40. *)
Definition visit_error_propagate (e : expr) : M unit :=
  k <- get_kind ;;
  match k with
  | KFunction _ | KMethod _ =>
      visit e ;;;
      n <- get_temps ;;
      emit_u8 OpDup 0 ;;;
      emit_c OpLoadField (CSymbol IS_OK) ;;;
      j <- jump OpJumpIfTrue ;;
      drop_temps n ;;;
      visit_return ;;;
      patch j ;;;
      emit_c OpLoadField (CSymbol RESULT)
  | _ => fail INVALID_ERROR_PROPAGATE_USAGE
  end.

(** expr_return.rs:14-51. *)
Definition visit_return_expr (result : option expr) : M unit :=
  k <- get_kind ;;
  match k with
  | KFunction _ | KMethod _ =>
      match result with Some e => visit e | None => emit OpPushUnit end
  | KConstructor =>
      match result with
      | None =>
          l <- m_local SELF ;;
          match l with
          | None => panic
          | Some v => emit_u8 OpLoadLocal (u8_of (sv_slot v))
          end
      | Some _ => fail NEW_RETURN_CANNOT_HAVE_EXPRESSION
      end
  | _ => fail INVALID_RETURN_USAGE
  end ;;;
  n <- get_temps ;;
  drop_temps n ;;;
  visit_return.

(** expr_if.rs:6-34. *)
Definition visit_if (condition primary : expr) (secondary : option expr) : M unit :=
  visit condition ;;;
  if_jump <- jump OpJumpIfFalse ;;
  visit primary ;;;
  else_jump <- jump OpJump ;;
  patch if_jump ;;;
  match secondary with
  | Some e => visit e
  | None => emit OpPushUnit
  end ;;;
  patch else_jump.

(** expr_while.rs:6-36. *)
Definition visit_while (condition body : expr) : M unit :=
  match body with
  | EBlock es t =>
      loop_start <- here ;;
      m_push_scope KLoop (Some loop_start) ;;;
      visit condition ;;;
      loop_end <- jump OpJumpIfFalse ;;
      visit_block true es t ;;;
      jump_back loop_start ;;;
      patch loop_end ;;;
      sc <- m_pop_scope ;;
      each patch (sc_exits sc) ;;;
      emit OpPushUnit
  | _ => fail INTERNAL_COMPILER_ERROR
  end.

(** expr_loop.rs:6-32. *)
Definition visit_loop (body : expr) : M unit :=
  match body with
  | EBlock es t =>
      loop_start <- here ;;
      m_push_scope KLoop (Some loop_start) ;;;
      visit_block true es t ;;;
      jump_back loop_start ;;;
      sc <- m_pop_scope ;;
      each patch (sc_exits sc) ;;;
      emit OpPushUnit
  | _ => fail INTERNAL_COMPILER_ERROR
  end.

(** expr_range_loop.rs:23-93. *)
Definition visit_range_loop (inclusive : bool) (variable : string) (start end_ body : expr) : M unit :=
  visit end_ ;;;
  visit start ;;;
  loop_start <- here ;;
  m_push_scope KLoop None ;;;
  slot <- m_add_local variable (state_initialized false) ;;
  emit_u8 OpStoreLocal (u8_of slot) ;;;
  emit_u8 OpDup 1 ;;;
  emit (if inclusive then OpLessThanOrEqual else OpLessThan) ;;;
  loop_exit <- jump OpJumpIfFalse ;;
  visit body ;;;
  emit OpPop ;;;
  emit_u8 OpLoadLocal (u8_of slot) ;;;
  emit OpPushI1 ;;;
  emit OpAdd ;;;
  sc <- m_pop_scope ;;
  close_vars (sc_vars sc) ;;;
  jump_back loop_start ;;;
  patch loop_exit ;;;
  each patch (sc_exits sc) ;;;
  emit OpPop ;;;
  emit OpPushUnit.

(** expr_for.rs:20-83. *)
Definition visit_iterator_loop (variable : string) (source body : expr) : M unit :=
  visit source ;;;
  emit_c OpLoadField (CSymbol ITER) ;;;
  emit_u8 OpCall 0 ;;;
  emit_c OpLoadField (CSymbol NEXT) ;;;
  loop_start <- here ;;
  m_push_scope KLoop None ;;;
  slot <- m_add_local variable (state_initialized false) ;;
  emit_u8 OpDup 0 ;;;
  emit_u8 OpCall 0 ;;;
  emit_u8 OpDup 0 ;;;
  emit_c OpLoadField (CSymbol DONE) ;;;
  loop_exit <- jump OpJumpIfTrue ;;
  emit_lftl VALUE (u8_of slot) ;;;
  emit OpPop ;;;
  visit body ;;;
  sc <- m_pop_scope ;;
  emit OpPop ;;;
  close_vars (sc_vars sc) ;;;
  jump_back loop_start ;;;
  patch loop_exit ;;;
  each patch (sc_exits sc) ;;;
  emit OpPop ;;;
  emit OpPop ;;;
  emit OpPushUnit.

(** expr_for.rs:14-18 with lower_to_range_loop, expr_range_loop.rs:95-119. *)
Definition visit_for (variable : string) (source body : expr) : M unit :=
  match source with
  | EBinary BRangeInclusive start end_ => visit_range_loop true variable start end_ body
  | EBinary BRangeExclusive start end_ => visit_range_loop false variable start end_ body
  | _ => visit_iterator_loop variable source body
  end.

(** expr_break.rs:6-19. *)
Definition visit_break : M unit :=
  c <- get_context ;;
  if in_context_of KLoop (cx_scopes c) then
    j <- jump OpJump ;;
    on_scopes (fun s => omap (fun s' => (tt, s')) (add_loop_exit_point j s))
  else fail INVALID_BREAK_USAGE.

(** expr_continue.rs:6-18. *)
Definition visit_continue : M unit :=
  c <- get_context ;;
  if in_context_of KLoop (cx_scopes c) then
    loop_start <- on_scopes (fun s => omap (fun p => (p, s)) (entry_point KLoop s)) ;;
    jump_back loop_start
  else fail INVALID_CONTINUE_USAGE.

(** expr_prefix_op.rs:6-36. *)
Definition visit_prefix (op : unop) (e : expr) : M unit :=
  visit e ;;;
  emit (match op with Negate => OpNegate | Not => OpNot end).

(** expr_field_access.rs:6-20. *)
Definition visit_field_access (e : expr) (field : string) : M unit :=
  visit e ;;;
  emit_c OpLoadField (CSymbol field).

(** enter_call / exit_call around a link of a call chain: syntax_node.rs:42-76. *)
Definition in_call (m : M unit) : M unit := enter_call ;;; m ;;; exit_call.
End Visitors.

(** visitor/syntax_node.rs:9-81. *)
Fixpoint visit (e : expr) : M unit :=
  match e with
  | ELitIdent name => visit_ident name
  | ELitUnit => emit OpPushUnit
  | ELitNull => emit OpPushNull
  | ELitBool b => push_bool b
  | ELitInt z => visit_int z
  | ELitFloat x => visit_float x
  | ELitString s => emit_c OpPushConst (CString s)
  | ELitAnonymousFn args return_type body => visit_anonymous_fn visit args return_type body
  | ELitObject items => visit_object visit items
  | ELitList items => visit_list visit items
  | EAssignment op lhs rhs => visit_assignment visit op lhs rhs
  | EPrefix op x => visit_prefix visit op x
  | EBinary op lhs rhs => visit_binary visit op lhs rhs
  | EIs value t => visit_is visit value t
  | EVarDecl kind m x t => visit_var_decl visit kind m x t
  | EFnDecl name args return_type body => visit_fn_decl visit name args return_type body
  | EOpDecl op args return_type body => visit_op_decl visit op args return_type body false
  | EClassDecl name items base => visit_class visit name items base
  | EImportDecl m items path => visit_import m items path
  | EExportDecl x => visit_export visit x
  | EIf c p s => visit_if visit c p s
  | ELoop body => visit_loop visit body
  | EWhile c body => visit_while visit c body
  | EFor v source body => visit_for visit v source body
  | EBreak => visit_break
  | EContinue => visit_continue
  | EBlock es t => visit_block visit false es t
  | EReturn r => visit_return_expr visit r
  | ENullPropagate x => in_call (visit_null_propagate visit x)
  | EErrorPropagate x => in_call (visit_error_propagate visit x)
  | EFieldAccess x f => in_call (visit_field_access visit x f)
  | ESuperAccess f c => in_call (visit_super_access f c)
  | EFnCall target args => in_call (visit_fn_call visit target args)
  | ESuperCall args => in_call (visit_super_call visit args)
  | EIndex x i => in_call (visit_index visit x i)
  end.

(** compile: compiler.rs:40-68; [kind] is KScript or KModule. *)
Definition compile_m (kind : compiler_kind) (root : expr) : M bytecode :=
  match kind with
  | KModule => m_add_local EXPORT (state_initialized false) ;;; ret tt
  | _ => ret tt
  end ;;;
  visit root ;;;
  match kind with
  | KModule =>
      l <- m_local EXPORT ;;
      match l with
      | None => panic
      | Some v => emit OpPop ;;; emit_u8 OpLoadLocal (u8_of (sv_slot v))
      end
  | _ => ret tt
  end ;;;
  c <- pop_context ;;
  ret (finish c).

(** compile_source: compiler.rs:24-38, after parsing. *)
Definition compile (kind : compiler_kind) (root : expr) : outcome bytecode :=
  omap fst (compile_m kind root (CState [context_new kind] 0)).
