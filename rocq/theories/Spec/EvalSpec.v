(** A definitional interpreter for Dice programs: what an expression means, without bytecode, operand stack,
    slots, jumps or captured-variable records.

    Variables live in a growing table of cells; an environment maps names to cells, innermost first; a
    function value remembers the environment it was made in.  Everything else (objects, arrays, classes,
    globals) is the runtime's own store, used through the runtime's own primitives: what is specified here is
    the meaning of the language, not of the object system.

    The interpreter answers [AUnknown] for what it does not describe: errors inside a function called by an
    array method, functions it has not made itself, a variable read before its declaration ran, more nesting
    than the stack has room for, and too little fuel. *)
From Verif.Model Require Export Ast.
From Verif.Spec Require Export CallSpec.
#[local] Open Scope string_scope.
#[local] Open Scope list_scope.
#[local] Open Scope nat_scope.

(** * Numbering function literals
    A function value carries the number of its literal.  Numbers are given in the order of compilation: an
    anonymous function before the functions inside it, a declared function after them. *)
Fixpoint fns (e : expr) : nat :=
  match e with
  | ELitAnonymousFn _ _ b | EFnDecl _ _ _ b | EOpDecl _ _ _ b => S (fns b)
  | ELitObject items => list_sum (map (fun p => fns (snd p)) items)
  | ELitList items => list_sum (map fns items)
  | ENullPropagate x | EErrorPropagate x | EFieldAccess x _ | EPrefix _ x | EVarDecl _ _ x _ | EExportDecl x | ELoop x => fns x
  | EFnCall t args => fns t + list_sum (map fns args)
  | EIndex x y | EBinary _ x y | EAssignment _ x y | EWhile x y | EFor _ x y => fns x + fns y
  | EIs x t => if ta_nullable t then fns x + fns x else fns x
  | EIf c p s => fns c + fns p + match s with Some x => fns x | None => 0 end
  | EBlock es t => list_sum (map fns es) + match t with Some x => fns x | None => 0 end
  | EReturn r => match r with Some x => fns x | None => 0 end
  | EClassDecl _ items base => match base with Some b => fns b | None => 0 end + list_sum (map fns items)
  | ESuperCall args => list_sum (map fns args)
  | _ => 0
  end.

(** * State *)
Definition env := list (string * nat).

(** What a function gives back: the value of its body, of the given type; or, for a constructor, the object
    it was called on. *)
Inductive role := Returning (t : option type_ann) | Constructing.
(** The text of a function: the name of its receiver (none: the empty name), its other parameters, its role,
    its body, and the number of the first literal in its body. *)
Record source := Source {
  src_self : string; src_args : list fn_arg; src_role : role; src_body : expr; src_first : nat }.
(** A function made by a literal: its number, its text, its environment. *)
Record closure := Closure { cl_number : nat; cl_source : source; cl_env : env }.

(** - [m_vm]: objects, arrays, classes, globals, modules (its stack and captured variables are not used);
    - [m_cells]: the variables; [None] is declared but not yet given a value;
    - [m_closures]: the functions that capture variables, by address; [None] for those made before;
    - [m_fns]: the other functions, by number. *)
Record memory := Memory {
  m_vm : vm;
  m_cells : list (option value);
  m_closures : list (option closure);
  m_fns : list (nat * source) }.
Definition set_vm s m := Memory s (m_cells m) (m_closures m) (m_fns m).
Definition set_cells c m := Memory (m_vm m) c (m_closures m) (m_fns m).
Definition alloc (x : option value) (m : memory) : nat * memory :=
  (List.length (m_cells m), set_cells (m_cells m ++ [x]) m).
Definition write (l : nat) (v : value) (m : memory) : memory := set_cells (set_nth (m_cells m) l (Some v)) m.

(** How evaluation ends: with a value, by [break], [continue] or [return], by leaving a chain at a [?], with
    a runtime error, with a panic. *)
Inductive answer : Type :=
| AVal (v : value) (m : memory)
| ABreak (m : memory)
| AContinue (m : memory)
| AReturn (v : value) (m : memory)
| ANull (m : memory)
| AFail (e : errcode) (m : memory)
| ACrash
| AUnknown.

Definition vbind (a : answer) (f : value -> memory -> answer) : answer :=
  match a with AVal v m => f v m | _ => a end.
(** Using the runtime's store. *)
Definition with_vm {A} (f : run A) (m : memory) (next : A -> memory -> answer) : answer :=
  match f (m_vm m) with
  | ROk a s => next a (set_vm s m)
  | RErr e s => AFail e (set_vm s m)
  | RPanic => ACrash
  | RNoFuel => AUnknown
  end.

(** Where an expression stands: variables in scope, the function it is in ([None]: none; its role
    otherwise), stack cells that are free, whether it is the target of a call chain. *)
Record scene := Scene { s_env : env; s_fn : option role; s_room : nat; s_chain : bool }.
Definition deep (n : nat) (S : scene) : scene := Scene (s_env S) (s_fn S) (s_room S - n) false.
Definition inner (S : scene) : scene := Scene (s_env S) (s_fn S) (s_room S) false.
Definition target (S : scene) : scene := Scene (s_env S) (s_fn S) (s_room S) true.
Definition declare (x : string) (l : nat) (S : scene) : scene :=
  Scene ((x, l) :: s_env S) (s_fn S) (s_room S) (s_chain S).

(** * Pieces *)
Definition load (E : env) (x : string) (m : memory) : answer :=
  match assoc_get x E with
  | Some l => match nth_error (m_cells m) l with Some (Some v) => AVal v m | _ => AUnknown end
  | None =>
      match assoc_get x (vm_globals (m_vm m)) with
      | Some v => AVal v m
      | None => AFail GLOBAL_VARIABLE_UNDEFINED m
      end
  end.
Definition store (E : env) (x : string) (v : value) (m : memory) : answer :=
  match assoc_get x E with Some l => AVal VUnit (write l v m) | None => AUnknown end.

(** Type annotations. *)
Definition assert_is (nullable : bool) (c v : value) : run unit :=
  let* class := VM.lift (as_class c) in
  match v with
  | VNull => if nullable then rret tt else rfail TYPE_ASSERTION_NULLABILITY_FAILURE
  | _ => let* b := is_value_of_type v class in if b then rret tt else rfail TYPE_ASSERTION_FAILURE
  end.
Definition check (E : env) (t : option type_ann) (v : value) (m : memory) (next : memory -> answer) : answer :=
  match t with
  | None => next m
  | Some ty => vbind (load E (ta_name ty) m) (fun c m1 => with_vm (assert_is (ta_nullable ty) c v) m1 (fun _ m2 => next m2))
  end.
Definition is_type (c v : value) : run bool := let* class := VM.lift (as_class c) in is_value_of_type v class.

Definition of_outcome (x : outcome value) (m : memory) : answer :=
  match x with Ok v => AVal v m | Err e => AFail e m | Panic => ACrash | NoFuel => AUnknown end.
(** A condition that jumps. *)
Definition as_condition (v : value) (m : memory) (next : bool -> answer) : answer :=
  match v with VBool b => next b | _ => AFail INVALID_BOOL_CONVERSION m end.
(** An operand of [&&] and [||]. *)
Definition as_logical (v : value) (m : memory) (next : bool -> answer) : answer :=
  match v with VBool b => next b | _ => AFail TYPE_ASSERTION_BOOL_FAILURE m end.

Definition set_field (key : string) (t v : value) : run unit :=
  let* o := heap_get (as_object t) in heap_upd_ (object_set_field o key v).
Definition get_index (t i : value) : run value :=
  match t, i with
  | VArray a, VInt z => let* vs := heap_get (array_elements a) in rret (match element_at vs z with Some v => v | None => VNull end)
  | _, _ => let* key := VM.lift (as_symbol i) in get_field key t
  end.
Definition set_index (t i v : value) : run unit :=
  match t, i with
  | VArray a, VInt z =>
      let* vs := heap_get (array_elements a) in
      match element_at vs z with
      | Some _ => heap_upd_ (array_update a (set_nth vs (Z.to_nat z) v))
      | None => rpanic
      end
  | _, _ =>
      let* o := heap_get (as_object t) in
      let* key := VM.lift (as_symbol i) in
      heap_upd_ (object_set_field o key v)
  end.

(** The operators as the runtime knows them. *)
Definition operation (op : binop) : option opcode :=
  match op with
  | BMultiply => Some OpMultiply | BDivide => Some OpDivide | BRemainder => Some OpRemainder
  | BAdd => Some OpAdd | BSubtract => Some OpSubtract
  | BGreaterThan => Some OpGreaterThan | BLessThan => Some OpLessThan
  | BGreaterThanEquals => Some OpGreaterThanOrEqual | BLessThanEquals => Some OpLessThanOrEqual
  | BEquals => Some OpEqual | BNotEquals => Some OpNotEqual
  | BRangeInclusive => Some OpRangeInclusive | BRangeExclusive => Some OpRangeExclusive
  | BLogicalAnd | BLogicalOr | BCoalesce | BPipeline => None
  end.
Definition compound (op : assignop) : option opcode :=
  match op with
  | AAssign => None
  | AMul => Some OpMultiply | ADiv => Some OpDivide | AAdd => Some OpAdd | ASub => Some OpSubtract
  end.
Definition overloaded (op : overop) : opcode :=
  match op with
  | OMultiply => OpMultiply | ODivide => OpDivide | ORemainder => OpRemainder | OAdd => OpAdd | OSubtract => OpSubtract
  | OGreaterThan => OpGreaterThan | OLessThan => OpLessThan
  | OGreaterThanEquals => OpGreaterThanOrEqual | OLessThanEquals => OpLessThanOrEqual
  | OEquals => OpEqual | ONotEquals => OpNotEqual
  | ORangeInclusive => OpRangeInclusive | ORangeExclusive => OpRangeExclusive
  end.

(** The functions and classes a block declares are in scope from its beginning. *)
Fixpoint hoisted_name (e : expr) : list string :=
  match e with EFnDecl name _ _ _ | EClassDecl name _ _ => [name] | EExportDecl x => hoisted_name x | _ => [] end.
Definition statements (es : list expr) (t : option expr) : list expr :=
  es ++ match t with Some e => [e] | None => [] end.
Definition hoisted (es : list expr) (t : option expr) : list string := flat_map hoisted_name (statements es t).
Fixpoint hoist (names : list string) (S : scene) (m : memory) : scene * memory :=
  match names with
  | [] => (S, m)
  | x :: r => let (l, m1) := alloc None m in hoist r (declare x l S) m1
  end.

(** The statements of a function body. *)
Definition body_parts (body : expr) : list expr * option expr :=
  match body with EBlock es t => (es, t) | e => ([], Some e) end.

(** Classes: a class with the given name and base class. *)
Definition inherit (name : string) (b : value) : run nat :=
  let* base := VM.lift (as_class b) in
  let* same := (fun s => VM.lift (class_eqb base (vm_any s) (vm_heap s)) s) in
  let* bad := (fun s => VM.lift (is_value_class base (vm_kinds s) (vm_heap s)) s) in
  if negb same && bad then rfail CLASS_CANNOT_INHERIT_VALUE_TYPE else heap_upd (class_with_base name base).
Definition set_method (key : string) (c f : value) : run unit :=
  let* class := VM.lift (as_class c) in heap_upd_ (class_set_method class key f).
(** [super.key]: the method of class [c], for the receiver [v]. *)
Definition super_method (key : string) (c v : value) : run value :=
  let* class := VM.lift (as_class c) in
  let* b := is_value_of_type v class in
  if b then get_method (Some class) key v else rfail TYPE_ASSERTION_SUPER_FAILURE.
(** A function of a class whose first parameter is [self] is a method: it is called on an object, which is
    that parameter.  The method [new] is the constructor.  Other functions are static: fields of the class. *)
Definition receiver (args : list fn_arg) : option (list fn_arg) :=
  match args with a :: rest => if String.eqb (fa_name a) "self" then Some rest else None | [] => None end.
Definition member (k : nat) (e : expr) : option (string * bool * source) :=
  match e with
  | EFnDecl name args ret body =>
      match receiver args with
      | Some rest => Some (name, true, Source "self" rest (if String.eqb name "new" then Constructing else Returning ret) body k)
      | None => Some (name, false, Source "" args (Returning ret) body k)
      end
  | EOpDecl op args ret body =>
      match receiver args with
      | Some rest => Some (operator_name (overloaded op), true, Source "self" rest (Returning ret) body k)
      | None => None
      end
  | _ => None
  end.

(** Modules.  A module's text is an expression; [md_first] is the number of its first function literal and
    [md_slots] the number of stack cells of its variables. *)
Record module := Module { md_first : nat; md_slots : nat; md_tree : expr }.
(** A program: the names of function literals by number, and what loading a module gives, after the loads of
    the given modules (latest first). *)
Record program := Program { pg_lit : nat -> fn_bytecode; pg_library : list string -> string -> outcome module }.
(** The exports of a module are the fields of an object, the value of the module's variable [#export] (not a
    name that can be written).  The module is known from before its text is loaded. *)
Definition begin_import (name : string) : run nat := fun s =>
  (let* o := heap_alloc (object_new (Some (vm_module_class s))) in
   fun s1 => ROk o (set_loads (name :: vm_loads s1) (set_modules (assoc_set name (VObject o) (vm_modules s1)) s1))) s.
(** What an export is called. *)
Definition exported (e : expr) : option string :=
  match e with
  | EVarDecl (Singular x) _ _ _ | EFnDecl x _ _ _ | EClassDecl x _ _ | ELitIdent x => Some x
  | _ => None
  end.

(** The elements for which a function answered true. *)
Fixpoint kept (vs answers : list value) : list value :=
  match vs, answers with
  | v :: vs, VBool true :: ys => v :: kept vs ys
  | _ :: vs, _ :: ys => kept vs ys
  | _, _ => []
  end.
(** The value whose text a native answers. *)
Definition shown (n : native) (args : list value) : option value :=
  match n, args with
  | NToString, v :: _ | NStringNew, _ :: v :: _ => Some v
  | _, _ => None
  end.
Definition no_calls : rec := MkRec (fun _ _ _ _ _ => RNoFuel) (fun _ _ => RNoFuel).

(** The free cells a node may use for its own operands. *)
Definition enough : nat := 4.

Section Eval.
Variable w : world.
(** [lit n]: the value of literal number [n].  To this interpreter it is a name; only its number of captured
    variables and of stack slots are looked at. *)
Variable lit : nat -> fn_bytecode.

Variable fn_eqb : fn_bytecode -> fn_bytecode -> bool.

Variable library : list string -> string -> outcome module.

(** The recursive calls: expressions, calls, iterations of the two kinds of [for], imports. *)
Record interp := Interp {
  i_eval : scene -> nat -> expr -> memory -> answer;
  i_call : nat -> value -> list value -> memory -> answer;
  i_range : scene -> nat -> bool -> string -> expr -> value -> value -> memory -> answer;
  i_iter : scene -> nat -> string -> expr -> value -> memory -> answer;
  i_import : nat -> string -> memory -> answer }.
Variable I : interp.

(** A function literal. *)
Definition make_fn (n : nat) (src : source) (E : env) (m : memory) : answer :=
  if Nat.eqb (bc_upvalue_count (fn_code (lit n))) 0
  then AVal (VFnScript (lit n)) (Memory (m_vm m) (m_cells m) (m_closures m) ((n, src) :: m_fns m))
  else AVal (VFnClosure (List.length (m_closures m)))
         (Memory (m_vm m) (m_cells m) (m_closures m ++ [Some (Closure n src E)]) (m_fns m)).

(** Operators: built in, else the left operand's method, else the global operator. *)
Definition overload (room : nat) (name : string) (l r : value) (m : memory) : answer :=
  with_vm (get_field name l) m (fun method m1 =>
  match method with
  | VNull =>
      match assoc_get name (vm_globals (m_vm m1)) with
      | Some f => i_call I room f [l; r] m1
      | None => AFail GLOBAL_OPERATOR_UNDEFINED m1
      end
  | _ => i_call I room method [r] m1
  end).
Definition operate (room : nat) (o : opcode) (l r : value) (m : memory) : answer :=
  match o with
  | OpRangeInclusive | OpRangeExclusive => overload room (operator_name o) l r m
  | _ =>
      match builtin_binary (w_dbg w) o l r with
      | Some x => of_outcome x m
      | None => overload room (operator_name o) l r m
      end
  end.

Definition prefix_op (op : unop) (v : value) (m : memory) : answer :=
  match op, v with
  | Negate, VInt z => of_outcome (omap VInt (int_result (w_dbg w) (- z)%Z)) m
  | Negate, VFloat f => AVal (VFloat (f64_opp f)) m
  | Negate, _ => AFail TYPE_ASSERTION_NUMBER_FAILURE m
  | Not, VBool b => AVal (VBool (negb b)) m
  | Not, _ => AFail TYPE_ASSERTION_BOOL_FAILURE m
  end.

(** Expressions from left to right, each with the values before it on the stack. *)
Fixpoint eval_list (S : scene) (k : nat) (es : list expr) (m : memory) (next : list value -> memory -> answer) : answer :=
  match es with
  | [] => next [] m
  | e :: r => vbind (i_eval I S k e m) (fun v m1 =>
              eval_list (deep 1 S) (k + fns e) r m1 (fun vs m2 => next (v :: vs) m2))
  end.
Fixpoint eval_fields (S : scene) (k : nat) (o : nat) (items : list (string * expr)) (m : memory) : answer :=
  match items with
  | [] => AVal (VObject o) m
  | (key, e) :: r => vbind (i_eval I S k e m) (fun v m1 =>
                     with_vm (set_field key (VObject o) v) m1 (fun _ m2 => eval_fields S (k + fns e) o r m2))
  end.

(** One statement of a block; [next] gets the scene of the statements after it. *)
Fixpoint destructure (names : list string) (v : value) (S : scene) (m : memory) (next : scene -> memory -> answer) : answer :=
  match names with
  | [] => next S m
  | x :: r => with_vm (get_field x v) m (fun y m1 =>
              let (l, m2) := alloc (Some y) m1 in destructure r v (declare x l S) m2 next)
  end.
Definition declaration (S : scene) (k : nat) (e : expr) (m : memory) (next : scene -> value -> memory -> answer) : answer :=
  match e with
  | EVarDecl (Singular x) _ e1 t =>
      vbind (i_eval I S k e1 m) (fun v m1 =>
      let (l, m2) := alloc (Some v) m1 in
      check (s_env (declare x l S)) t v m2 (fun m3 => next (declare x l S) v m3))
  | EVarDecl (Destructured names) _ e1 _ =>
      vbind (i_eval I S k e1 m) (fun v m1 => destructure names v S m1 (fun S1 m2 => next S1 v m2))
  | EFnDecl name args ret body =>
      vbind (make_fn (k + fns body) (Source "" args (Returning ret) body k) (s_env S) m) (fun f m1 =>
      vbind (store (s_env S) name f m1) (fun _ m2 => next S f m2))
  | EOpDecl op args ret body =>
      vbind (make_fn (k + fns body) (Source "" args (Returning ret) body k) (s_env S) m) (fun f m1 =>
      let name := operator_name (overloaded op) in
      match assoc_get name (vm_globals (m_vm m1)) with
      | Some _ => AFail GLOBAL_VARIABLE_ALREADY_DEFINED m1
      | None => next S VUnit (set_vm (set_globals (assoc_set name f (vm_globals (m_vm m1))) (m_vm m1)) m1)
      end)
  | _ => vbind (i_eval I S k e m) (fun v m1 => next S v m1)
  end.
Definition item (S : scene) (k : nat) (e : expr) (m : memory) (next : scene -> value -> memory -> answer) : answer :=
  match e with
  | EImportDecl x names path =>
      vbind (i_import I (s_room S) path m) (fun v m1 =>
      destructure names v S m1 (fun S1 m2 =>
      match x with
      | None => next S1 v m2
      | Some y => let (l, m3) := alloc (Some v) m2 in next (declare y l S1) v m3
      end))
  | EExportDecl e1 =>
      match exported e1 with
      | None => AUnknown
      | Some name =>
          if s_room S <? enough + 1 then AUnknown else
          vbind (load (s_env S) "#export" m) (fun exports m1 =>
          declaration (deep 1 S) k e1 m1 (fun S1 v m2 =>
          with_vm (set_field name exports v) m2 (fun _ m3 =>
          next (Scene (s_env S1) (s_fn S) (s_room S) (s_chain S)) v m3)))
      end
  | _ => declaration S k e m next
  end.
Fixpoint items (S : scene) (k : nat) (es : list expr) (t : option expr) (m : memory) : answer :=
  match es with
  | [] => match t with Some e => item S k e m (fun _ v m1 => AVal v m1) | None => AVal VUnit m end
  | e :: r => item S k e m (fun S1 _ m1 => items S1 (k + fns e) r t m1)
  end.
Definition block (S : scene) (k : nat) (es : list expr) (t : option expr) (m : memory) : answer :=
  let (S1, m1) := hoist (hoisted es t) S m in items S1 k es t m1.

(** The functions of a class, made in environment [E] and put into class [c]. *)
Fixpoint members (E : env) (k : nat) (c : value) (es : list expr) (m : memory) : answer :=
  match es with
  | [] => AVal c m
  | e :: r =>
      match member k e with
      | None => AUnknown
      | Some (key, is_method, src) =>
          vbind (make_fn (k + fns (src_body src)) src E m) (fun f m1 =>
          with_vm (if is_method then set_method key c f else set_field key c f) m1 (fun _ m2 =>
          members E (k + fns e) c r m2))
      end
  end.
(** A class declaration: the base class is the variable [super] of its functions; the class is given to its
    variable before its functions are made. *)
Definition class_decl (S : scene) (k : nat) (name : string) (es : list expr) (base : option expr) (m : memory) : answer :=
  vbind (match base with Some b => i_eval I S k b m | None => load (s_env S) "Any" m end) (fun bv m1 =>
  let (l, m2) := alloc (Some bv) m1 in
  let E := s_env (declare "super" l S) in
  with_vm (inherit name bv) m2 (fun c m3 =>
  vbind (store E name (VClass c) m3) (fun _ m4 =>
  members E (k + match base with Some b => fns b | None => 0 end) (VClass c) es m4))).

(** Running the constructor of class [c], if it has one, on [self]. *)
Definition initialize (room : nat) (c : nat) (self : value) (args : list value) (m : memory) : answer :=
  with_vm (heap_get (class_method c "new")) m (fun new m1 =>
  match new with
  | Some f => i_call I room (VFnBound self f) args m1
  | None =>
      if 0 <? List.length args then AVal self m1
      else
        with_vm (heap_get (class_get c)) m1 (fun k m2 =>
        match cl_base k with
        | None => AVal self m2
        | Some b =>
            with_vm (heap_get (class_method b "new")) m2 (fun bn m3 =>
            match bn with Some _ => AFail CLASS_MUST_HAVE_NEW_IF_SUPER_HAS_NEW m3 | None => AVal self m3 end)
        end)
  end).

(** The end of a chain: a [?] that found null makes the whole chain null. *)
Definition chained (S : scene) (a : answer) : answer :=
  match a with ANull m => if s_chain S then ANull m else AVal VNull m | _ => a end.

(** Assignment. *)
Definition assign (S : scene) (k : nat) (op : assignop) (lhs rhs : expr) (m : memory) : answer :=
  match lhs with
  | ELitIdent x =>
      match compound op with
      | None => vbind (i_eval I (inner S) k rhs m) (fun v m1 => store (s_env S) x v m1)
      | Some o =>
          vbind (load (s_env S) x m) (fun old m1 =>
          vbind (i_eval I (deep 1 S) k rhs m1) (fun v m2 =>
          vbind (operate (s_room S) o old v m2) (fun y m3 => store (s_env S) x y m3)))
      end
  | EFieldAccess obj f =>
      vbind (i_eval I (inner S) k obj m) (fun t m1 =>
      match compound op with
      | None =>
          vbind (i_eval I (deep 1 S) (k + fns obj) rhs m1) (fun v m2 =>
          with_vm (set_field f t v) m2 (fun _ m3 => AVal v m3))
      | Some o =>
          with_vm (get_field f t) m1 (fun old m2 =>
          vbind (i_eval I (deep 2 S) (k + fns obj) rhs m2) (fun v m3 =>
          vbind (operate (s_room S - 1) o old v m3) (fun y m4 =>
          with_vm (set_field f t y) m4 (fun _ m5 => AVal VUnit m5))))
      end)
  | EIndex obj idx =>
      vbind (i_eval I (inner S) k obj m) (fun t m1 =>
      vbind (i_eval I (deep 1 S) (k + fns obj) idx m1) (fun i m2 =>
      match compound op with
      | None =>
          vbind (i_eval I (deep 2 S) (k + fns obj + fns idx) rhs m2) (fun v m3 =>
          with_vm (set_index t i v) m3 (fun _ m4 => AVal VUnit m4))
      | Some o =>
          with_vm (get_index t i) m2 (fun old m3 =>
          vbind (i_eval I (deep 3 S) (k + fns obj + fns idx) rhs m3) (fun v m4 =>
          vbind (operate (s_room S - 2) o old v m4) (fun y m5 =>
          with_vm (set_index t i y) m5 (fun _ m6 => AVal VUnit m6))))
      end))
  | _ => AUnknown
  end.

Definition binary_op (S : scene) (k : nat) (op : binop) (lhs rhs : expr) (m : memory) : answer :=
  match op with
  | BLogicalAnd =>
      vbind (i_eval I (inner S) k lhs m) (fun l m1 => as_logical l m1 (fun b =>
      if b then vbind (i_eval I (inner S) (k + fns lhs) rhs m1) (fun r m2 => as_logical r m2 (fun _ => AVal r m2))
      else AVal l m1))
  | BLogicalOr =>
      vbind (i_eval I (inner S) k lhs m) (fun l m1 => as_logical l m1 (fun b =>
      if b then AVal l m1
      else vbind (i_eval I (inner S) (k + fns lhs) rhs m1) (fun r m2 => as_logical r m2 (fun _ => AVal r m2))))
  | BCoalesce =>
      vbind (i_eval I (inner S) k lhs m) (fun l m1 =>
      match l with VNull => i_eval I (inner S) (k + fns lhs) rhs m1 | _ => AVal l m1 end)
  | BPipeline =>
      vbind (i_eval I (inner S) k rhs m) (fun f m1 =>
      vbind (i_eval I (deep 1 S) (k + fns rhs) lhs m1) (fun x m2 => i_call I (s_room S) f [x] m2))
  | _ =>
      vbind (i_eval I (inner S) k lhs m) (fun l m1 =>
      vbind (i_eval I (deep 1 S) (k + fns lhs) rhs m1) (fun r m2 =>
      match operation op with Some o => operate (s_room S) o l r m2 | None => AUnknown end))
  end.

(** [while] and [loop] after one evaluation of the body. *)
Definition again (a : answer) (repeat_loop : memory -> answer) : answer :=
  match a with
  | AVal _ m | AContinue m => repeat_loop m
  | ABreak m => AVal VUnit m
  | _ => a
  end.

Definition eval (S : scene) (k : nat) (e : expr) (m : memory) : answer :=
  if s_room S <? enough then AUnknown else
  match e with
  | ELitIdent x => load (s_env S) x m
  | ELitUnit => AVal VUnit m
  | ELitNull => AVal VNull m
  | ELitBool b => AVal (VBool b) m
  | ELitInt z => AVal (VInt z) m
  | ELitFloat x =>      (* a literal equal to 0.0 or 1.0 is that number: -0.0 cannot be written *)
      AVal (VFloat (if f64_eqb x f64_zero then f64_zero else if f64_eqb x f64_one then f64_one else x)) m
  | ELitString x => AVal (VString x) m
  | ELitAnonymousFn args ret body => make_fn k (Source "" args (Returning ret) body (k + 1)) (s_env S) m
  | ELitObject fields => with_vm new_any_object m (fun o m1 => eval_fields (deep 2 S) k o fields m1)
  | ELitList es => eval_list (inner S) k es m (fun vs m1 => with_vm (new_array vs) m1 AVal)
  | EAssignment op lhs rhs => assign S k op lhs rhs m
  | EPrefix op x => vbind (i_eval I (inner S) k x m) (prefix_op op)
  | EBinary op lhs rhs => binary_op S k op lhs rhs m
  | EIs x t =>
      vbind (i_eval I (inner S) k x m) (fun v m1 =>
      if ta_nullable t then
        match v with
        | VNull => AVal (VBool true) m1
        | _ =>
            vbind (i_eval I (inner S) (k + fns x) x m1) (fun v2 m2 =>
            vbind (load (s_env S) (ta_name t) m2) (fun c m3 => with_vm (is_type c v2) m3 (fun b m4 => AVal (VBool b) m4)))
        end
      else vbind (load (s_env S) (ta_name t) m1) (fun c m2 => with_vm (is_type c v) m2 (fun b m3 => AVal (VBool b) m3)))
  | EIf c p s =>
      vbind (i_eval I (inner S) k c m) (fun v m1 => as_condition v m1 (fun b =>
      if b then i_eval I (inner S) (k + fns c) p m1
      else match s with Some x => i_eval I (inner S) (k + fns c + fns p) x m1 | None => AVal VUnit m1 end))
  | EWhile c (EBlock es t) =>
      match i_eval I (inner S) k c m with
      | AVal v m1 => as_condition v m1 (fun b =>
          if b then again (block (inner S) (k + fns c) es t m1) (i_eval I S k e) else AVal VUnit m1)
      | a => again a (i_eval I S k e)
      end
  | ELoop (EBlock es t) => again (block (inner S) k es t m) (i_eval I S k e)
  | EFor x (EBinary ((BRangeInclusive | BRangeExclusive) as op) first last) body =>
      vbind (i_eval I (inner S) k last m) (fun limit m1 =>
      vbind (i_eval I (deep 1 S) (k + fns last) first m1) (fun v m2 =>
      i_range I (inner S) (k + fns last + fns first) (match op with BRangeInclusive => true | _ => false end) x body v limit m2))
  | EFor x e1 body =>
      vbind (i_eval I (inner S) k e1 m) (fun v m1 =>
      with_vm (get_field "iter" v) m1 (fun f m2 =>
      vbind (i_call I (s_room S) f [] m2) (fun it m3 =>
      with_vm (get_field "next" it) m3 (fun next m4 => i_iter I (inner S) (k + fns e1) x body next m4))))
  | EBreak => ABreak m
  | EContinue => AContinue m
  | EBlock es t => block (inner S) k es t m
  | EReturn r =>
      match s_fn S with
      | None => AUnknown
      | Some (Returning rt) =>
          vbind (match r with Some x => i_eval I (inner S) k x m | None => AVal VUnit m end) (fun v m1 =>
          check (s_env S) rt v m1 (fun m2 => AReturn v m2))
      | Some Constructing =>
          match r with
          | Some _ => AUnknown
          | None => vbind (load (s_env S) "self" m) (fun v m1 => AReturn v m1)
          end
      end
  | ENullPropagate x =>
      chained S (vbind (i_eval I (target S) k x m) (fun v m1 => match v with VNull => ANull m1 | _ => AVal v m1 end))
  | EErrorPropagate x =>
      chained S (vbind (i_eval I (target S) k x m) (fun v m1 =>
      with_vm (get_field "is_ok" v) m1 (fun ok m2 => as_condition ok m2 (fun b =>
      if b then with_vm (get_field "result" v) m2 AVal
      else match s_fn S with
           | Some (Returning rt) => check (s_env S) rt v m2 (fun m3 => AReturn v m3)
           | _ => AUnknown
           end))))
  | EFieldAccess x f => chained S (vbind (i_eval I (target S) k x m) (fun v m1 => with_vm (get_field f v) m1 AVal))
  | EFnCall f args =>
      chained S (vbind (i_eval I (target S) k f m) (fun fv m1 =>
      eval_list (deep 1 S) (k + fns f) args m1 (fun vs m2 => i_call I (s_room S) fv vs m2)))
  | EIndex x i =>
      chained S (vbind (i_eval I (target S) k x m) (fun v m1 =>
      vbind (i_eval I (deep 1 S) (k + fns x) i m1) (fun iv m2 => with_vm (get_index v iv) m2 AVal)))
  | EClassDecl name es base => class_decl (inner S) k name es base m
  | ESuperCall args =>
      vbind (load (s_env S) "self" m) (fun self m1 =>
      eval_list (deep 1 S) k args m1 (fun vs m2 =>
      vbind (load (s_env S) "super" m2) (fun c m3 =>
      with_vm (VM.lift (as_class c)) m3 (fun class m4 => initialize (s_room S) class self vs m4))))
  | ESuperAccess f c =>
      vbind (load (s_env S) (match c with Some x => x | None => "super" end) m) (fun class m1 =>
      vbind (load (s_env S) "self" m1) (fun self m2 => with_vm (super_method f class self) m2 AVal))
  | _ => AUnknown
  end.

(** * Loops over a range and over an iterator *)
Definition range (S : scene) (k : nat) (inclusive : bool) (x : string) (body : expr) (v limit : value) (m : memory) : answer :=
  if s_room S <? enough + 1 then AUnknown else
  vbind (operate (s_room S - 1) (if inclusive then OpLessThanOrEqual else OpLessThan) v limit m) (fun c m1 =>
  as_condition c m1 (fun b =>
  if b then
    let (l, m2) := alloc (Some v) m1 in
    match i_eval I (declare x l (deep 1 S)) k body m2 with
    | AVal _ m3 =>
        match nth_error (m_cells m3) l with
        | Some (Some y) =>
            vbind (operate (s_room S - 1) OpAdd y (VInt 1) m3) (fun next m4 => i_range I S k inclusive x body next limit m4)
        | _ => AUnknown
        end
    | ABreak m3 => AVal VUnit m3
    | AContinue _ => AUnknown
    | a => a
    end
  else AVal VUnit m1)).

Definition iter (S : scene) (k : nat) (x : string) (body : expr) (next : value) (m : memory) : answer :=
  if s_room S <? enough + 1 then AUnknown else
  vbind (i_call I (s_room S - 1) next [] m) (fun r m1 =>
  with_vm (get_field "is_done" r) m1 (fun d m2 =>
  as_condition d m2 (fun b =>
  if b then AVal VUnit m2
  else
    with_vm (get_field "value" r) m2 (fun v m3 =>
    let (l, m4) := alloc (Some v) m3 in
    match i_eval I (declare x l (deep 1 S)) k body m4 with
    | AVal _ m5 => i_iter I S k x body next m5
    | ABreak _ | AContinue _ => AUnknown
    | a => a
    end)))).

(** * Calls *)
Fixpoint bind_args (ps : list fn_arg) (args : list value) (S : scene) (m : memory) (next : scene -> memory -> answer) : answer :=
  match ps with
  | [] => next S m
  | p :: r =>
      let v := hd VNull args in
      let (l, m1) := alloc (Some v) m in
      let S1 := declare (fa_name p) l S in
      check (s_env S1) (fa_type p) v m1 (fun m2 => bind_args r (tl args) S1 m2 next)
  end.

(** Running function [n]: the receiver (or the function itself) and the parameters are new variables; missing
    arguments are null, extra ones are dropped. *)
Definition run_fn (room n : nat) (src : source) (E : env) (slot0 : value) (args : list value) (m : memory) : answer :=
  let need := 1 + List.length args + spare_slots (lit n) (List.length args) in
  if room <? need + enough then AUnknown else
  let (l, m1) := alloc (Some slot0) m in
  let S := Scene ((src_self src, l) :: E) (Some (src_role src)) (room - need) false in
  let '(es, t) := body_parts (src_body src) in
  bind_args (src_args src) args S m1 (fun S1 m2 =>
  match block S1 (src_first src) es t m2 with
  | AVal v m3 =>
      match src_role src with
      | Returning ret => check E ret v m3 (fun m4 => AVal v m4)
      | Constructing => match nth_error (m_cells m3) l with Some (Some self) => AVal self m3 | _ => AUnknown end
      end
  | AReturn v m3 => AVal v m3
  | AFail e m3 => AFail e m3
  | ACrash => ACrash
  | _ => AUnknown
  end).

Definition construct (room : nat) (c : nat) (args : list value) (m : memory) : answer :=
  with_vm (heap_alloc (object_new (Some c))) m (fun o m1 => initialize room c (VObject o) args m1).

(** Functions of the runtime.  The methods [first], [filter] and [map] of arrays call the function they are
    given for the elements in order; what they do when that fails is not described. *)
Definition called (a : answer) (next : value -> memory -> answer) : answer :=
  match a with AVal v m => next v m | ACrash => ACrash | _ => AUnknown end.
Fixpoint call_each (room : nat) (f : value) (vs : list value) (m : memory) (next : list value -> memory -> answer) : answer :=
  match vs with
  | [] => next [] m
  | v :: r => called (i_call I room f [v] m) (fun y m1 => call_each room f r m1 (fun ys m2 => next (y :: ys) m2))
  end.
Fixpoint call_until (room : nat) (f : value) (vs : list value) (m : memory) (next : value -> memory -> answer) : answer :=
  match vs with
  | [] => next VNull m
  | v :: r =>
      called (i_call I room f [v] m) (fun y m1 =>
      match y with VBool true => next v m1 | _ => call_until room f r m1 next end)
  end.
(** While a method goes through the elements of an array, the array cannot be changed. *)
Definition reading {A} (a : nat) (go : list value -> memory -> (A -> memory -> answer) -> answer) (m : memory) (next : A -> memory -> answer) : answer :=
  with_vm (heap_upd_ (array_set_borrows S a)) m (fun _ m1 =>
  with_vm (heap_get (array_elements a)) m1 (fun vs m2 =>
  go vs m2 (fun x m3 => with_vm (heap_upd_ (array_set_borrows pred a)) m3 (fun _ m4 => next x m4)))).
Definition closure_named (m : memory) (a : nat) : outcome string :=
  match nth_error (m_closures m) a with Some (Some c) => Ok (fn_name (lit (cl_number c))) | _ => NoFuel end.
Definition host_fn (room : nat) (n : native) (args : list value) (m : memory) : answer :=
  match n, args with
  | NArrayFirst, VArray a :: f :: _ => reading a (fun vs m1 next => call_until room f vs m1 next) m AVal
  | NArrayFilter, VArray a :: f :: _ =>
      reading a (fun vs m1 next => call_each room f vs m1 (fun ys m2 => next (kept vs ys) m2)) m (fun vs m1 => with_vm (new_array vs) m1 AVal)
  | NArrayMap, VArray a :: f :: _ =>
      reading a (fun vs m1 next => call_each room f vs m1 next) m (fun vs m1 => with_vm (new_array vs) m1 AVal)
  | _, _ =>
      match shown n args with
      | Some v => of_outcome (omap VString (value_text (closure_named m) (float_text w) (vm_heap (m_vm m)) v)) m
      | None => with_vm (call_native w no_calls n args) m AVal
      end
  end.

Definition call (room : nat) (callee : value) (args : list value) (m : memory) : answer :=
  if room <? 1 + List.length args then AUnknown else
  let '(function, slot0) := match callee with VFnBound receiver f => (f, receiver) | f => (f, f) end in
  match function with
  | VFnScript f =>
      match find (fun p => Nat.eqb (fst p) (fn_id f)) (m_fns m) with
      | Some (n, src) => if fn_eqb f (lit n) then run_fn room n src [] slot0 args m else AUnknown
      | None => AUnknown
      end
  | VFnClosure a =>
      match nth_error (m_closures m) a with
      | Some (Some c) => run_fn room (cl_number c) (cl_source c) (cl_env c) slot0 args m
      | _ => AUnknown
      end
  | VFnNative n => host_fn room n (slot0 :: args) m
  | VClass c => construct room c args m
  | _ => AFail TYPE_ASSERTION_FUNCTION_FAILURE m
  end.

(** * Imports *)
Definition import (room : nat) (name : string) (m : memory) : answer :=
  match assoc_get name (vm_modules (m_vm m)) with
  | Some v => AVal v m
  | None =>
      with_vm (begin_import name) m (fun o m1 =>
      match library (vm_loads (m_vm m)) name with
      | Ok md =>
          if room <? md_slots md + enough then AUnknown else
          let (l, m2) := alloc (Some (VObject o)) m1 in
          match i_eval I (Scene [("#export", l)] None (room - md_slots md) false) (md_first md) (md_tree md) m2 with
          | AVal _ m3 => match nth_error (m_cells m3) l with Some (Some v) => AVal v m3 | _ => AUnknown end
          | AFail e m3 => AFail e m3
          | ACrash => ACrash
          | _ => AUnknown
          end
      | Err e => AFail e m1
      | Panic => ACrash
      | NoFuel => AUnknown
      end)
  end.
End Eval.

(** Equality of compiled functions, used to recognise a function value. *)
Definition float_eqb (a b : f64) : bool :=
  match a, b with
  | S754_zero x, S754_zero y | S754_infinity x, S754_infinity y => Bool.eqb x y
  | S754_nan, S754_nan => true
  | S754_finite x m e, S754_finite y n f => Bool.eqb x y && Pos.eqb m n && Z.eqb e f
  | _, _ => false
  end.
Fixpoint fn_eqb (f g : fn_bytecode) : bool :=
  match f, g with
  | MkFn i a (MkBytecode d s u cs), MkFn j b (MkBytecode d' s' u' cs') =>
      Nat.eqb i j && String.eqb a b && Nat.eqb s s' && Nat.eqb u u' &&
      (if list_eq_dec Nat.eq_dec d d' then true else false) &&
      (fix go (l l' : list const) : bool :=
         match l, l' with
         | [], [] => true
         | c :: r, c' :: r' =>
             (match c, c' with
              | CInt x, CInt y => Z.eqb x y
              | CFloat x, CFloat y => float_eqb x y
              | CString x, CString y => String.eqb x y
              | CSymbol x, CSymbol y => String.eqb x y
              | CFunction x, CFunction y => fn_eqb x y
              | _, _ => false
              end) && go r r'
         | _, _ => false
         end) cs cs'
  end.

(** The interpreter with fuel. *)
Fixpoint interpreter (w : world) (pg : program) (fuel : nat) : interp :=
  match fuel with
  | O => Interp (fun _ _ _ _ => AUnknown) (fun _ _ _ _ => AUnknown) (fun _ _ _ _ _ _ _ _ => AUnknown) (fun _ _ _ _ _ _ => AUnknown)
           (fun _ _ _ => AUnknown)
  | S n =>
      let I := interpreter w pg n in
      Interp (eval w (pg_lit pg) I) (call w (pg_lit pg) fn_eqb I) (range w I) (iter I) (import (pg_library pg) I)
  end.
