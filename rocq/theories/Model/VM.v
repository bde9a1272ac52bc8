(** The interpreter: dice-runtime/src/interpreter/mod.rs, interpreter/helper.rs, runtime.rs, and the
    native functions of classes/*.rs.

    At the pinned commit the runtime crate is in the middle of a port to a garbage-collected heap:
    parts of it are commented out (runtime.rs:58-61, 79, 112-209, lib.rs `mod classes`) and the interpreter
    still calls them.  The model follows the interpreter's text and, where that text refers to something
    commented out (any_class, module_class, value_class_mapping setup, call_function, is_value_of_type,
    class_of, the native classes), the commented text.

    Error traces, contexts and tags are not modelled: an error is its code. *)
From Verif.Model Require Export Value Text Stack Cursor.

(** What the interpreter cannot decide by itself.
    - [w_dbg]: a debug build (overflow checks and debug assertions on) or a release build;
    - [w_load]: the module loader (module/mod.rs:25-27), which may answer differently each time: it is
      given the names requested before;
    - [w_native]: natives whose behaviour is not modelled (NExternal); they get the arguments and
      answer a value, or the elements of a fresh array, or an error. *)
Inductive native_answer : Type := AnsValue (v : value) | AnsArray (vs : list value) | AnsErr (e : errcode).
Record world := MkWorld {
  w_dbg : bool;
  w_load : list string -> string -> outcome bytecode;
  w_native : string -> string -> list value -> heap -> native_answer }.

(** State, runtime.rs:33-45 (any_class and module_class: commented fields, lines 42-43).
    [vm_loads] is a ghost: the module names requested from the loader, latest first. *)
Record vm := MkVm {
  vm_stack : stack value;
  vm_heap : heap;
  vm_open : list nat;               (* open_upvalues *)
  vm_globals : value_map;
  vm_modules : value_map;           (* loaded_modules *)
  vm_any : nat;
  vm_module_class : nat;
  vm_kinds : list (vkind * nat);    (* value_class_mapping *)
  vm_loads : list string }.

Definition set_stack x s := MkVm x (vm_heap s) (vm_open s) (vm_globals s) (vm_modules s) (vm_any s) (vm_module_class s) (vm_kinds s) (vm_loads s).
Definition set_heap x s := MkVm (vm_stack s) x (vm_open s) (vm_globals s) (vm_modules s) (vm_any s) (vm_module_class s) (vm_kinds s) (vm_loads s).
Definition set_open x s := MkVm (vm_stack s) (vm_heap s) x (vm_globals s) (vm_modules s) (vm_any s) (vm_module_class s) (vm_kinds s) (vm_loads s).
Definition set_globals x s := MkVm (vm_stack s) (vm_heap s) (vm_open s) x (vm_modules s) (vm_any s) (vm_module_class s) (vm_kinds s) (vm_loads s).
Definition set_modules x s := MkVm (vm_stack s) (vm_heap s) (vm_open s) (vm_globals s) x (vm_any s) (vm_module_class s) (vm_kinds s) (vm_loads s).
Definition set_loads x s := MkVm (vm_stack s) (vm_heap s) (vm_open s) (vm_globals s) (vm_modules s) (vm_any s) (vm_module_class s) (vm_kinds s) x.

(** Result of running part of the machine: like [outcome], but an error keeps the state it left behind,
    since the runtime outlives it. *)
Inductive res (A : Type) : Type :=
| ROk (a : A) (s : vm)
| RErr (e : errcode) (s : vm)
| RPanic
| RNoFuel.
Arguments ROk {A}. Arguments RErr {A}. Arguments RPanic {A}. Arguments RNoFuel {A}.

Definition run (A : Type) := vm -> res A.

Definition rret {A} (a : A) : run A := fun s => ROk a s.
Definition rbind {A B} (m : run A) (f : A -> run B) : run B := fun s =>
  match m s with ROk a s' => f a s' | RErr e s' => RErr e s' | RPanic => RPanic | RNoFuel => RNoFuel end.
Definition rfail {A} (e : errcode) : run A := fun s => RErr e s.
Definition rpanic {A} : run A := fun _ => RPanic.

Notation "'let*' x ':=' m 'in' f" := (rbind m (fun x => f)) (at level 200, x pattern, m at level 200, f at level 200).
Notation "m >>> f" := (rbind m (fun _ => f)) (at level 60, right associativity).

(** Lifting computations on the state's parts. *)
Definition lift {A} (o : outcome A) : run A := fun s =>
  match o with Ok a => ROk a s | Err e => RErr e s | Panic => RPanic | NoFuel => RNoFuel end.
Definition on_stack {A} (f : stack value -> outcome (A * stack value)) : run A := fun s =>
  match f (vm_stack s) with
  | Ok (a, st) => ROk a (set_stack st s)
  | Err e => RErr e s
  | Panic => RPanic
  | NoFuel => RNoFuel
  end.
Definition on_stack_ (f : stack value -> outcome (stack value)) : run unit :=
  on_stack (fun st => omap (fun st' => (tt, st')) (f st)).
Definition heap_get {A} (f : heap -> outcome A) : run A := fun s => lift (f (vm_heap s)) s.
Definition heap_alloc {A} (f : heap -> A * heap) : run A := fun s =>
  let (a, h) := f (vm_heap s) in ROk a (set_heap h s).
Definition heap_upd {A} (f : heap -> outcome (A * heap)) : run A := fun s =>
  match f (vm_heap s) with
  | Ok (a, h) => ROk a (set_heap h s)
  | Err e => RErr e s
  | Panic => RPanic
  | NoFuel => RNoFuel
  end.
Definition heap_upd_ (f : heap -> outcome heap) : run unit := heap_upd (fun h => omap (fun h' => (tt, h')) (f h)).

Definition push (v : value) : run unit := on_stack_ (stack_push v).
Definition pop : run value := on_stack (stack_pop VNull).
Definition pop_count (n : nat) : run (list value) := on_stack (stack_pop_count VNull n).
Definition peek (n : nat) : run value := fun s => lift (stack_peek n (vm_stack s)) s.
Definition poke (n : nat) (v : value) : run unit := on_stack_ (stack_poke n v).
Definition frame_get (f : frame) (i : nat) : run value := fun s => lift (stack_frame_get f i (vm_stack s)) s.
Definition frame_set (f : frame) (i : nat) (v : value) : run unit := on_stack_ (stack_frame_set f i v).

(** bytecode.constants()[i]: indexing panics out of range. *)
Definition const_at (bc : bytecode) (i : nat) : run value :=
  match nth_error (bc_constants bc) i with Some c => rret (value_of_const c) | None => rpanic end.
Definition symbol_at (bc : bytecode) (i : nat) : run string := let* v := const_at bc i in lift (as_symbol v).

(** value_class_mapping.get(&kind). *)
Fixpoint kind_get (k : vkind) (m : list (vkind * nat)) : option nat :=
  match m with
  | [] => None
  | (k', c) :: t => if vkind_eqb k k' then Some c else kind_get k t
  end.

(** The class of a value as looked up by get_field (helper.rs:82-86), assert_type (mod.rs:208-212) and
    is_value_of_type (runtime.rs:199-207): the object's class, else the class registered for the kind. *)
Definition class_of_value (v : value) : run (option nat) := fun s =>
  match as_object v (vm_heap s) with
  | Ok o =>
      match object_class o (vm_heap s) with
      | Ok (Some c) => ROk (Some c) s
      | Ok None => ROk (kind_get (kind v) (vm_kinds s)) s
      | _ => RPanic
      end
  | Err _ => ROk (kind_get (kind v) (vm_kinds s)) s
  | Panic => RPanic
  | NoFuel => RNoFuel
  end.

(** is_value_of_type, runtime.rs:200-207. *)
Definition is_value_of_type (v : value) (class : nat) : run bool :=
  let* c := class_of_value v in
  match c with
  | Some c => heap_get (class_is_class c class)
  | None => rret false
  end.

(** get_method, helper.rs:92-102. *)
Definition get_method (class : option nat) (key : string) (receiver : value) : run value :=
  match class with
  | Some c =>
      let* m := heap_get (class_method c key) in
      match m with Some m => rret (VFnBound receiver m) | None => rret VNull end
  | None => rret VNull
  end.

(** get_field, helper.rs:66-90. *)
Definition get_field (key : string) (v : value) : run value :=
  let* own :=
    match kind v with
    | KdObject | KdClass | KdArray =>
        let* o := heap_get (as_object v) in heap_get (object_field o key)
    | _ => rret None
    end in
  match own with
  | Some x => rret x
  | None =>
      if String.eqb key "new" then rfail NEW_FUNCTION_CANNOT_BE_ACCESS_DIRECTLY
      else let* c := class_of_value v in get_method c key v
  end.

(** find_open_upvalue, helper.rs:20-32: the last match in the queue. *)
Fixpoint find_open (slot : nat) (opens : list nat) (index : nat) (h : heap) : outcome (option (nat * nat)) :=
  match opens with
  | [] => Ok None
  | u :: rest =>
      obind (find_open slot rest (S index) h) (fun later =>
      match later with
      | Some r => Ok (Some r)
      | None =>
          obind (upvalue_state_of u h) (fun st =>
          match st with
          | Open o => Ok (if Nat.eqb o slot then Some (index, u) else None)
          | Closed _ => Ok None
          end)
      end)
  end.
Definition find_open_upvalue (slot : nat) : run (option (nat * nat)) := fun s =>
  lift (find_open slot (vm_open s) 0 (vm_heap s)) s.

Fixpoint remove_nth {A} (i : nat) (l : list A) : list A :=
  match l, i with
  | [], _ => []
  | _ :: t, O => t
  | x :: t, S i' => x :: remove_nth i' t
  end.

(** Integer arithmetic: overflow panics with overflow checks and wraps without
    (mod.rs:244, 256, 298, 352). *)
Definition int_result (dbg : bool) (z : Z) : outcome Z :=
  if in_i64 z then Ok z else if dbg then Panic else Ok (i64_wrap z).
(** / and %: mod.rs:267-271, 283-287; i64::MIN / -1 and i64::MIN % -1 panic in every build. *)
Definition int_div (a b : Z) : outcome Z :=
  if (b =? 0)%Z then Err DIVIDE_BY_ZERO
  else if (a =? i64_min)%Z && (b =? -1)%Z then Panic
  else Ok (Z.quot a b).
Definition int_rem (a b : Z) : outcome Z :=
  if (b =? 0)%Z then Err DIVIDE_BY_ZERO
  else if (a =? i64_min)%Z && (b =? -1)%Z then Panic
  else Ok (Z.rem a b).

(** Bool comparisons: mod.rs:308, 319, 330, 341. *)
Definition bool_gt (l r : bool) : bool := l && negb r.
Definition bool_ge (l r : bool) : bool := l || negb r.
Definition bool_lt (l r : bool) : bool := negb l && r.
Definition bool_le (l r : bool) : bool := negb l || r.

(** The names of the overloadable operators: dice-core/src/protocol.rs:3-17. *)
Definition operator_name (o : opcode) : string :=
  match o with
  | OpMultiply => "#mul" | OpDivide => "#div" | OpRemainder => "#rem" | OpAdd => "#add"
  | OpSubtract => "#sub" | OpGreaterThan => "#gt" | OpGreaterThanOrEqual => "#gte"
  | OpLessThan => "#lt" | OpLessThanOrEqual => "#lte" | OpEqual => "#eq" | OpNotEqual => "#neq"
  | OpRangeInclusive => "#range_inclusive" | OpRangeExclusive => "#range_exclusive"
  | _ => ""
  end.

(** The built-in case of the binary operators (the first arms of mod.rs:254-392): [None] when the operands
    are not handled and the operator method is called instead. *)
Definition builtin_binary (dbg : bool) (o : opcode) (lhs rhs : value) : option (outcome value) :=
  match o, lhs, rhs with
  | OpMultiply, VInt l, VInt r => Some (omap VInt (int_result dbg (l * r)%Z))
  | OpMultiply, VFloat l, VFloat r => Some (Ok (VFloat (f64_mul l r)))
  | OpDivide, VInt l, VInt r => Some (omap VInt (int_div l r))
  | OpDivide, VFloat l, VFloat r => Some (Ok (VFloat (f64_div l r)))
  | OpRemainder, VInt l, VInt r => Some (omap VInt (int_rem l r))
  | OpRemainder, VFloat l, VFloat r => Some (Ok (VFloat (f64_rem l r)))
  | OpAdd, VInt l, VInt r => Some (omap VInt (int_result dbg (l + r)%Z))
  | OpAdd, VFloat l, VFloat r => Some (Ok (VFloat (f64_add l r)))
  | OpSubtract, VInt l, VInt r => Some (omap VInt (int_result dbg (l - r)%Z))
  | OpSubtract, VFloat l, VFloat r => Some (Ok (VFloat (f64_sub l r)))
  | OpGreaterThan, VBool l, VBool r => Some (Ok (VBool (bool_gt l r)))
  | OpGreaterThan, VInt l, VInt r => Some (Ok (VBool (r <? l)%Z))
  | OpGreaterThan, VFloat l, VFloat r => Some (Ok (VBool (f64_ltb r l)))
  | OpGreaterThanOrEqual, VBool l, VBool r => Some (Ok (VBool (bool_ge l r)))
  | OpGreaterThanOrEqual, VInt l, VInt r => Some (Ok (VBool (r <=? l)%Z))
  | OpGreaterThanOrEqual, VFloat l, VFloat r => Some (Ok (VBool (f64_leb r l)))
  | OpLessThan, VBool l, VBool r => Some (Ok (VBool (bool_lt l r)))
  | OpLessThan, VInt l, VInt r => Some (Ok (VBool (l <? r)%Z))
  | OpLessThan, VFloat l, VFloat r => Some (Ok (VBool (f64_ltb l r)))
  | OpLessThanOrEqual, VBool l, VBool r => Some (Ok (VBool (bool_le l r)))
  | OpLessThanOrEqual, VInt l, VInt r => Some (Ok (VBool (l <=? r)%Z))
  | OpLessThanOrEqual, VFloat l, VFloat r => Some (Ok (VBool (f64_leb l r)))
  | OpEqual, VNull, VNull => Some (Ok (VBool true))
  | OpEqual, _, VNull => Some (Ok (VBool false))
  | OpEqual, VNull, _ => Some (Ok (VBool false))
  | OpEqual, VUnit, VUnit => Some (Ok (VBool true))
  | OpEqual, _, VUnit => Some (Ok (VBool false))
  | OpEqual, VUnit, _ => Some (Ok (VBool false))
  | OpEqual, VBool l, VBool r => Some (Ok (VBool (Bool.eqb l r)))
  | OpEqual, VInt l, VInt r => Some (Ok (VBool (l =? r)%Z))
  | OpEqual, VFloat l, VFloat r => Some (Ok (VBool (f64_eqb l r)))
  | OpNotEqual, VNull, VNull => Some (Ok (VBool false))
  | OpNotEqual, _, VNull => Some (Ok (VBool true))
  | OpNotEqual, VNull, _ => Some (Ok (VBool true))
  | OpNotEqual, VUnit, VUnit => Some (Ok (VBool false))
  | OpNotEqual, _, VUnit => Some (Ok (VBool true))
  | OpNotEqual, VUnit, _ => Some (Ok (VBool true))
  | OpNotEqual, VBool l, VBool r => Some (Ok (VBool (negb (Bool.eqb l r))))
  | OpNotEqual, VInt l, VInt r => Some (Ok (VBool (negb (l =? r)%Z)))
  | OpNotEqual, VFloat l, VFloat r => Some (Ok (VBool (negb (f64_eqb l r))))
  | _, _, _ => None
  end.

(** [rec]: the two mutually recursive entry points, execution from a position on and calling a value;
    [machine], below, ties the knot with fuel. *)
Record rec := MkRec {
  r_loop : bytecode -> frame -> option (list nat) -> pos -> run unit;
  r_call : nat -> run unit }.

Section Interpreter.
Variable w : world.
Variable r : rec.

(** execute, mod.rs:32-133: runs the loop, checks (debug builds) that exactly one value was left, pops it. *)
Definition execute (bc : bytecode) (fr : frame) (ups : option (list nat)) : run value := fun s =>
  (r_loop r bc fr ups 0%Z >>>
   (fun s' =>
      if w_dbg w && negb (Nat.eqb (st_ptr (vm_stack s')) (S (st_ptr (vm_stack s)))) then RPanic
      else pop s')) s.

(** call_fn_script, helper.rs:174-199. *)
Definition call_fn_script (argc : nat) (receiver : option value) (f : fn_bytecode) (ups : option (list nat))
    : run value :=
  let slots := bc_slot_count (fn_code f) in
  let reserved := if argc <? slots then slots - argc else slots in
  let* fr0 := on_stack (stack_reserve (w_dbg w) reserved) in
  let* fr := lift (frame_prepend fr0 (argc + 1)) in
  match receiver with Some v => frame_set fr 0 v | None => rret tt end >>>
  let* v := execute (fn_code f) fr ups in
  on_stack_ (stack_release VNull (w_dbg w) fr) >>>
  rret v.

(** call_function, runtime.rs:175-182 (commented text): push the target and the arguments, call, pop. *)
Definition call_function (target : value) (args : list value) : run value :=
  push target >>>
  on_stack_ (stack_push_multiple args) >>>
  r_call r (List.length args) >>>
  pop.

(** Swallowing an error: Result::ok. *)
Definition try_ok {A} (m : run A) : run (option A) := fun s =>
  match m s with
  | ROk a s' => ROk (Some a) s'
  | RErr _ s' => ROk None s'
  | RPanic => RPanic
  | RNoFuel => RNoFuel
  end.

(** The predicate call shared by first and filter, classes/array.rs:75-80, 94-99. *)
Definition call_predicate (p v : value) : run bool :=
  let* x := try_ok (call_function p [v]) in
  match x with Some (VBool b) => rret b | _ => rret false end.

(** Iterator::find over the elements, classes/array.rs:72-83. *)
Fixpoint find_elements (p : value) (vs : list value) : run value :=
  match vs with
  | [] => rret VNull
  | v :: rest => let* b := call_predicate p v in if b then rret v else find_elements p rest
  end.
(** Iterator::filter, classes/array.rs:90-104. *)
Fixpoint filter_elements (p : value) (vs : list value) : run (list value) :=
  match vs with
  | [] => rret []
  | v :: rest =>
      let* b := call_predicate p v in
      let* l := filter_elements p rest in
      rret (if b then v :: l else l)
  end.
(** Iterator::map, classes/array.rs:111-123: a failing call gives null. *)
Fixpoint map_elements (f : value) (vs : list value) : run (list value) :=
  match vs with
  | [] => rret []
  | v :: rest =>
      let* x := try_ok (call_function f [v]) in
      let* l := map_elements f rest in
      rret (match x with Some y => y | None => VNull end :: l)
  end.

(** Iterating over elements() keeps a shared borrow of the vector until the iteration is finished. *)
Definition with_elements {A} (a : nat) (f : list value -> run A) : run A :=
  heap_upd_ (array_set_borrows S a) >>>
  let* vs := heap_get (array_elements a) in
  let* x := f vs in
  heap_upd_ (array_set_borrows pred a) >>>
  rret x.

Definition new_array (vs : list value) : run value := let* a := heap_alloc (array_from_vec vs) in rret (VArray a).
(** new_object, runtime.rs:143-147. *)
Definition new_any_object : run nat := fun s => heap_alloc (object_new (Some (vm_any s))) s.

(** Display for f64 (Rust's standard library) is external. *)
Definition float_text (x : f64) : string :=
  match w_native w "Float" "fmt" [VFloat x] heap_empty with AnsValue (VString t) => t | _ => ""%string end.
(** The name of the function of a closure, fn_closure.rs:43-47. *)
Definition closure_name (h : heap) (a : nat) : outcome string :=
  match nth_error (h_closures h) a with Some c => Ok (fn_name (fc_script c)) | None => Panic end.
Definition to_text (v : value) : run value :=
  let* t := heap_get (fun h => value_text (closure_name h) float_text h v) in rret (VString t).

(** i64::pow(exp as u32), classes/int.rs:76-82: overflow as in the other operators. *)
Definition int_pow (dbg : bool) (a e : Z) : outcome Z := int_result dbg (Z.pow a (e mod 2 ^ 32)%Z).

(** Fn::call of a native: classes/*.rs.  args[0] is the callee or, for a bound method, the receiver. *)
Definition call_native (n : native) (args : list value) : run value :=
  match n with
  | NArrayNew =>                                    (* classes/array.rs:34-39 *)
      match args with _ :: rest => new_array rest | _ => rret VNull end
  | NArrayPush =>                                   (* classes/array.rs:41-49 *)
      match args with
      | VArray a :: x :: _ => heap_upd_ (array_push a x) >>> rret VUnit
      | _ => rret VNull
      end
  | NArrayPop =>                                    (* classes/array.rs:51-59 *)
      match args with
      | VArray a :: _ =>
          let* x := heap_upd (array_pop a) in
          rret (match x with Some v => v | None => VUnit end)
      | _ => rret VNull
      end
  | NArrayLength =>                                 (* classes/array.rs:61-67 *)
      match args with
      | VArray a :: _ => let* vs := heap_get (array_elements a) in rret (VInt (Z.of_nat (List.length vs)))
      | _ => rret VNull
      end
  | NArrayFirst =>                                  (* classes/array.rs:69-87 *)
      match args with
      | VArray a :: p :: _ => with_elements a (find_elements p)
      | VArray a :: _ =>
          let* vs := heap_get (array_elements a) in rret (match vs with v :: _ => v | [] => VNull end)
      | _ => rret VNull
      end
  | NArrayFilter =>                                 (* classes/array.rs:89-107 *)
      match args with
      | VArray a :: p :: _ => let* vs := with_elements a (filter_elements p) in new_array vs
      | _ => rret VNull
      end
  | NArrayMap =>                                    (* classes/array.rs:109-125 *)
      match args with
      | VArray a :: f :: _ => let* vs := with_elements a (map_elements f) in new_array vs
      | _ => rret VNull
      end
  | NArrayIter =>                                   (* classes/array.rs:127-154 *)
      match args with
      | VArray a :: _ =>
          let* cell := heap_alloc (fun h => (List.length (h_iters h), hset_iters (h_iters h ++ [(a, 0)]) h)) in
          let* o := new_any_object in
          heap_upd_ (object_set_field o "next" (VFnNative (NArrayNext cell))) >>>
          rret (VObject o)
      | _ => rret VNull
      end
  | NArrayNext cell =>                              (* classes/array.rs:132-144 *)
      let* o := new_any_object in
      let* ac := heap_get (fun h => match nth_error (h_iters h) cell with Some x => Ok x | None => Panic end) in
      let '(a, current) := ac in
      let* vs := heap_get (array_elements a) in
      match nth_error vs current with
      | Some v =>
          heap_upd_ (object_set_field o "value" v) >>>
          heap_upd_ (object_set_field o "is_done" (VBool false)) >>>
          heap_upd_ (fun h => Ok (hset_iters (set_nth (h_iters h) cell (a, S current)) h)) >>>
          rret (VObject o)
      | None =>
          heap_upd_ (object_set_field o "is_done" (VBool true)) >>>
          rret (VObject o)
      end
  | NClassOf =>                                     (* classes/any.rs:63-68, runtime.rs:188-197 *)
      match args with
      | v :: _ =>
          let* c := class_of_value v in
          (fun s => ROk (VClass (match c with Some c => c | None => vm_any s end)) s)
      | _ => rret VNull
      end
  | NToString =>                                    (* classes/any.rs:27-32 *)
      match args with v :: _ => to_text v | _ => rret VNull end
  | NFields =>                                      (* classes/any.rs:34-45 *)
      match args with
      | (VObject _ | VClass _ | VArray _) as v :: _ =>
          let* o := heap_get (as_object v) in
          let* m := heap_get (object_map o) in
          new_array (map (fun kv => VString (fst kv)) m)
      | _ => rret VNull
      end
  | NMethods =>                                     (* classes/any.rs:47-61, runtime.rs:188-197 *)
      match args with
      | v :: _ =>
          let* c := class_of_value v in
          let* k := (fun s => lift (class_get (match c with Some c => c | None => vm_any s end) (vm_heap s)) s) in
          new_array (map (fun kv => VString (fst kv)) (cl_methods k))
      | _ => rret VNull
      end
  | NStringNew =>                                   (* classes/string.rs:25-30 *)
      match args with _ :: v :: _ => to_text v | _ => rret VNull end
  | NFloatNew =>                                    (* classes/float.rs:69-79; parsing external *)
      match args with
      | _ :: VFloat x :: _ => rret (VFloat x)
      | _ :: VInt z :: _ => rret (VFloat (f64_of_i64 z))
      | _ :: VString _ :: _ =>
          (fun s => match w_native w "Float" "new" args heap_empty with
                    | AnsValue v => ROk v s | AnsErr e => RErr e s | AnsArray _ => ROk VNull s end)
      | _ => rret VNull
      end
  | NFloatFn f => rret (float_call f args)          (* classes/float.rs:81-100 *)
  | NBoolNew =>                                     (* classes/bool.rs:21-30; parse::<bool> *)
      match args with
      | _ :: VBool b :: _ => rret (VBool b)
      | _ :: VString x :: _ =>
          rret (if String.eqb x "true" then VBool true else if String.eqb x "false" then VBool false else VNull)
      | _ => rret VNull
      end
  | NClassName =>                                   (* classes/class.rs:21-26 *)
      match args with
      | VClass c :: _ => let* k := heap_get (class_get c) in rret (VString (cl_name k))
      | _ => rret VNull
      end
  | NClassBase =>                                   (* classes/class.rs:28-36 *)
      match args with
      | VClass c :: _ =>
          let* k := heap_get (class_get c) in
          rret (match cl_base k with Some b => VClass b | None => VNull end)
      | _ => rret VNull
      end
  | NFunctionNew =>                                 (* classes/function.rs:21-32 *)
      match args with
      | _ :: f :: _ => rret (match kind f with KdFunction => f | _ => VNull end)
      | _ => rret VNull
      end
  | NIntNew =>                                      (* classes/int.rs:43-53 *)
      match args with
      | _ :: VInt z :: _ => rret (VInt z)
      | _ :: VFloat x :: _ => rret (VInt (f64_to_i64 x))
      | _ :: VString t :: _ => rret (match i64_of_text t with Some z => VInt z | None => VNull end)
      | _ => rret VNull
      end
  | NIntAbs =>                                      (* classes/int.rs:17, 55-60 *)
      match args with VInt z :: _ => let* x := lift (int_result (w_dbg w) (Z.abs z)) in rret (VInt x) | _ => rret VNull end
  | NIntPow =>                                      (* classes/int.rs:76-82 *)
      match args with
      | VInt z :: VInt e :: _ => let* x := lift (int_pow (w_dbg w) z e) in rret (VInt x)
      | _ => rret VNull
      end
  | NIntIsPositive => match args with VInt z :: _ => rret (VBool (0 <? z)%Z) | _ => rret VNull end
  | NIntIsNegative => match args with VInt z :: _ => rret (VBool (z <? 0)%Z) | _ => rret VNull end
  | NIntMin => match args with VInt a :: VInt b :: _ => rret (VInt (Z.min a b)) | _ => rret VNull end
  | NIntMax => match args with VInt a :: VInt b :: _ => rret (VInt (Z.max a b)) | _ => rret VNull end
  | NStringConcat =>                                (* classes/string.rs:31-36 *)
      match args with
      | VString a :: VString b :: _ => rret (VString (a ++ b)%string)
      | _ => rret VNull
      end
  | NExternal c m =>
      (fun s => match w_native w c m args (vm_heap s) with
                | AnsValue v => ROk v s
                | AnsErr e => RErr e s
                | AnsArray vs => new_array vs s
                end)
  end.

(** call_fn_native, helper.rs:157-172. *)
Definition call_fn_native (argc : nat) (receiver : option value) (n : native) : run value :=
  let* args := pop_count (argc + 1) in
  call_native n (match receiver, args with
                 | Some v, _ :: rest => v :: rest
                 | _, _ => args
                 end).

(** call_class_constructor, helper.rs:127-155. *)
Definition call_class_constructor (argc : nat) (class : nat) (object : value) : run value :=
  let* new := heap_get (class_method class "new") in
  let* result :=
    match new with
    | Some m =>
        poke argc (VFnBound object m) >>>
        r_call r argc >>>
        peek 0
    | None =>
        if 0 <? argc then pop_count argc >>> rret object
        else
          let* k := heap_get (class_get class) in
          match cl_base k with
          | Some b =>
              let* bn := heap_get (class_method b "new") in
              match bn with
              | Some _ => rfail CLASS_MUST_HAVE_NEW_IF_SUPER_HAS_NEW
              | None => rret object
              end
          | None => rret object
          end
    end in
  pop >>>
  rret result.

(** call_fn, helper.rs:104-125. *)
Definition call_fn (argc : nat) : run unit :=
  let* callee := peek argc in
  let '(function, receiver) :=
    match callee with VFnBound rcv f => (f, Some rcv) | v => (v, None) end in
  let* v :=
    match function with
    | VFnClosure a =>
        let* c := heap_get (fun h => match nth_error (h_closures h) a with Some c => Ok c | None => Panic end) in
        call_fn_script argc receiver (fc_script c) (Some (fc_upvalues c))
    | VFnScript f => call_fn_script argc receiver f None
    | VClass c =>
        let* o := heap_alloc (object_new (Some c)) in
        call_class_constructor argc c (VObject o)
    | VFnNative n => call_fn_native argc receiver n
    | _ => rfail TYPE_ASSERTION_FUNCTION_FAILURE
    end in
  push v.

(** call_binary_op, helper.rs:34-64; the right operand has been popped. *)
Definition call_binary_op (operator : string) (rhs : value) : run unit :=
  let* lhs := pop in
  let* method := get_field operator lhs in
  match method with
  | VNull => fun s =>
      match assoc_get operator (vm_globals s) with
      | Some f => (push f >>> push lhs >>> push rhs >>> r_call r 2) s
      | None => RErr GLOBAL_OPERATOR_UNDEFINED s
      end
  | _ => push method >>> push rhs >>> r_call r 1
  end.

(** mul .. neq, mod.rs:254-392: built-in on two ints, two floats (and bools, null, unit), else the
    operator method. *)
Definition binary (o : opcode) : run unit :=
  let* rhs := pop in
  let* lhs := peek 0 in
  match builtin_binary (w_dbg w) o lhs rhs with
  | Some x => let* v := lift x in poke 0 v
  | None => call_binary_op (operator_name o) rhs
  end.

(** assert_type, mod.rs:207-231. *)
Definition assert_type (class : nat) (v : value) : run unit :=
  let* b := is_value_of_type v class in
  if b then rret tt else rfail TYPE_ASSERTION_FAILURE.

(** assert_type_for_local and assert_type_or_null_for_local, mod.rs:155-181. *)
Definition assert_type_for_local (nullable : bool) (fr : frame) (slot : nat) : run unit :=
  let* c := pop in
  let* class := lift (as_class c) in
  let* v := frame_get fr slot in
  match v with
  | VNull => if nullable then rret tt else rfail TYPE_ASSERTION_NULLABILITY_FAILURE
  | _ => assert_type class v
  end.

(** assert_type_and_return and assert_type_or_null_and_return, mod.rs:183-205. *)
Definition assert_type_and_return (nullable : bool) : run unit :=
  let* c := pop in
  let* class := lift (as_class c) in
  let* v := peek 0 in
  match v with
  | VNull => if nullable then rret tt else rfail TYPE_ASSERTION_NULLABILITY_FAILURE
  | _ => assert_type class v
  end.

(** inherit_class, mod.rs:428-448. *)
Fixpoint is_value_class (base : nat) (m : list (vkind * nat)) (h : heap) : outcome bool :=
  match m with
  | [] => Ok false
  | (_, c) :: t => obind (class_eqb base c h) (fun b => if b then Ok true else is_value_class base t h)
  end.
Definition inherit_class (name : string) : run unit :=
  let* b := pop in
  let* base := lift (as_class b) in
  let* same := (fun s => lift (class_eqb base (vm_any s) (vm_heap s)) s) in
  let* bad := (fun s => lift (is_value_class base (vm_kinds s) (vm_heap s)) s) in
  if negb same && bad then rfail CLASS_CANNOT_INHERIT_VALUE_TYPE
  else
    let* c := heap_upd (class_with_base name base) in
    push (VClass c).

(** load_upvalue, mod.rs:507-522; a missing closure environment is unreachable!. *)
Definition upvalue_at (ups : option (list nat)) (i : nat) : run nat :=
  match ups with
  | Some l => match nth_error l i with Some u => rret u | None => rpanic end
  | None => rpanic
  end.
Definition load_upvalue (ups : option (list nat)) (i : nat) : run unit :=
  let* u := upvalue_at ups i in
  let* st := heap_get (upvalue_state_of u) in
  match st with
  | Open slot => let* v := (fun s => lift (stack_get slot (vm_stack s)) s) in push v
  | Closed v => push v
  end.

(** The write of store_upvalue (mod.rs:529-538) and assign_upvalue (mod.rs:557-560). *)
Definition write_upvalue (u : nat) (v : value) : run unit :=
  let* st := heap_get (upvalue_state_of u) in
  match st with
  | Open slot => on_stack_ (stack_set slot v)
  | Closed _ => heap_upd_ (upvalue_write u (Closed v))
  end.

(** close_upvalue, mod.rs:570-583. *)
Definition close_upvalue (fr : frame) (i : nat) : run unit :=
  let* v := frame_get fr i in
  frame_set fr i VNull >>>
  let* found := find_open_upvalue (fr_start fr + i) in
  match found with
  | Some (index, u) =>
      (fun s => ROk tt (set_open (remove_nth index (vm_open s)) s)) >>>
      heap_upd_ (upvalue_write u (Closed v))
  | None => rret tt
  end.

(** The loop of create_closure, mod.rs:786-807. *)
Fixpoint capture (fr : frame) (ups : option (list nat)) (descs : list (byte * byte)) : run (list nat) :=
  match descs with
  | [] => rret []
  | (is_parent_local, index) :: rest =>
      let* u :=
        (if Nat.eqb is_parent_local 1 then
           let* found := find_open_upvalue (fr_start fr + index) in
           match found with
           | None =>
               let* u := heap_alloc (upvalue_new_open (fr_start fr + index)) in
               (fun s => ROk u (set_open (vm_open s ++ [u]) s))
           | Some (_, u) => rret u
           end
         else upvalue_at ups index) in
      let* us := capture fr ups rest in
      rret (u :: us)
  end.
(** create_closure, mod.rs:772-816. *)
Definition create_closure (bc : bytecode) (fr : frame) (ups : option (list nat)) (c : byte)
    (descs : list (byte * byte)) : run unit :=
  let* k := const_at bc c in
  match k with
  | VFnScript f =>
      let* us := capture fr ups descs in
      let* a := heap_alloc (closure_new f us) in
      push (VFnClosure a)
  | _ => rfail TYPE_ASSERTION_FUNCTION_FAILURE
  end.

(** store_global, mod.rs:585-603. *)
Definition store_global (name : string) : run unit :=
  let* v := pop in
  (fun s => match assoc_get name (vm_globals s) with
            | Some _ => RErr GLOBAL_VARIABLE_ALREADY_DEFINED s
            | None => ROk tt (set_globals (assoc_set name v (vm_globals s)) s)
            end).
(** load_global, mod.rs:605-617. *)
Definition load_global (name : string) : run unit := fun s =>
  match assoc_get name (vm_globals s) with
  | Some v => push v s
  | None => RErr GLOBAL_VARIABLE_UNDEFINED s
  end.

(** store_field (mod.rs:631-642) and assign_field (mod.rs:644-655) differ in the value pushed. *)
Definition write_field (assign : bool) (key : string) : run unit :=
  let* v := pop in
  let* t := pop in
  let* o := heap_get (as_object t) in
  heap_upd_ (object_set_field o key v) >>>
  push (if assign then VUnit else v).

(** load_index, mod.rs:657-676.  [index as usize] makes a negative index a huge one. *)
Definition element_at (vs : list value) (i : Z) : option value :=
  if (i <? 0)%Z then None else nth_error vs (Z.to_nat i).
Definition load_index : run unit :=
  let* index := pop in
  let* target := peek 0 in
  let* result :=
    match target, index with
    | VArray a, VInt i =>
        let* vs := heap_get (array_elements a) in
        rret (match element_at vs i with Some v => v | None => VNull end)
    | _, _ => let* key := lift (as_symbol index) in get_field key target
    end in
  poke 0 result.

(** store_index (mod.rs:678-700) and assign_index (mod.rs:702-724). *)
Definition write_index (assign : bool) : run unit :=
  let* v := pop in
  let* index := pop in
  let* target := peek 0 in
  match target, index with
  | VArray a, VInt i =>
      let* vs := heap_get (array_elements a) in
      match element_at vs i with
      | Some _ => heap_upd_ (array_update a (set_nth vs (Z.to_nat i) v))
      | None => rpanic
      end
  | _, _ =>
      let* o := heap_get (as_object target) in
      let* key := lift (as_symbol index) in
      heap_upd_ (object_set_field o key v)
  end >>>
  poke 0 (if assign then VUnit else v).

(** load_method, mod.rs:726-740. *)
Definition load_method (key : string) : run unit :=
  let* receiver := pop in
  let* c := pop in
  let* class := lift (as_class c) in
  let* b := is_value_of_type receiver class in
  if b then let* m := get_method (Some class) key receiver in push m
  else rfail TYPE_ASSERTION_SUPER_FAILURE.

(** store_method, mod.rs:742-752. *)
Definition store_method (key : string) : run unit :=
  let* v := pop in
  let* c := pop in
  let* class := lift (as_class c) in
  heap_upd_ (class_set_method class key v).

(** run_module, runtime.rs:101-110. *)
Definition run_module (bc : bytecode) (export : value) : run value :=
  let* fr := on_stack (stack_reserve (w_dbg w) (bc_slot_count bc)) in
  on_stack_ (stack_set (fr_start fr) export) >>>
  let* v := execute bc fr None in
  on_stack_ (stack_release VNull (w_dbg w) fr) >>>
  rret v.

(** load_module, mod.rs:834-851. *)
Definition load_module (name : string) : run unit := fun s =>
  match assoc_get name (vm_modules s) with
  | Some m => push m s
  | None =>
      (let* o := heap_alloc (object_new (Some (vm_module_class s))) in
       (fun s1 => ROk tt (set_modules (assoc_set name (VObject o) (vm_modules s1)) s1)) >>>
       (fun s1 =>
          let s2 := set_loads (name :: vm_loads s1) s1 in
          (let* bc := lift (w_load w (vm_loads s1) name) in
           let* m := run_module bc (VObject o) in
           push m) s2)) s
  end.

(** run, runtime.rs:90-99. *)
Definition run_script (bc : bytecode) : run value :=
  let* fr := on_stack (stack_reserve (w_dbg w) (bc_slot_count bc)) in
  let* v := execute bc fr None in
  on_stack_ (stack_release VNull (w_dbg w) fr) >>>
  rret v.

(** What to do after an instruction: continue at a position or leave the loop. *)
Inductive next : Type := Continue (p : pos) | Stop.

(** One instruction, mod.rs:48-117; [p] is the position after its operands.  Operands are read before
    the stack is touched, where the code sometimes reads them between two stack accesses; this only
    matters for truncated bytecode. *)
Definition step (bc : bytecode) (fr : frame) (ups : option (list nat)) (i : instr) (p : pos) : run next :=
  let continue (m : run unit) : run next := m >>> rret (Continue p) in
  match i with
  | INone o =>
      match o with
      | OpPushNull => continue (push VNull)
      | OpPushUnit => continue (push VUnit)
      | OpPushFalse => continue (push (VBool false))
      | OpPushTrue => continue (push (VBool true))
      | OpPushI0 => continue (push (VInt 0))
      | OpPushI1 => continue (push (VInt 1))
      | OpPushF0 => continue (push (VFloat f64_zero))
      | OpPushF1 => continue (push (VFloat f64_one))
      | OpPop => continue (pop >>> rret tt)
      | OpSwap => continue (on_stack_ stack_swap)
      | OpCreateObject => continue (let* o := new_any_object in push (VObject o))
      | OpNegate =>                                                            (* mod.rs:242-252 *)
          continue (let* v := peek 0 in
                    match v with
                    | VInt z => let* x := lift (int_result (w_dbg w) (- z)%Z) in poke 0 (VInt x)
                    | VFloat f => poke 0 (VFloat (f64_opp f))
                    | _ => rfail TYPE_ASSERTION_NUMBER_FAILURE
                    end)
      | OpNot =>                                                               (* mod.rs:233-240 *)
          continue (let* v := peek 0 in
                    match v with
                    | VBool b => poke 0 (VBool (negb b))
                    | _ => rfail TYPE_ASSERTION_BOOL_FAILURE
                    end)
      | OpMultiply | OpDivide | OpRemainder | OpAdd | OpSubtract | OpGreaterThan | OpGreaterThanOrEqual
      | OpLessThan | OpLessThanOrEqual | OpEqual | OpNotEqual => continue (binary o)
      | OpIs =>                                                                (* mod.rs:404-413 *)
          continue (let* c := pop in
                    let* class := lift (as_class c) in
                    let* v := peek 0 in
                    let* b := is_value_of_type v class in
                    poke 0 (VBool b))
      | OpRangeExclusive | OpRangeInclusive =>                                 (* mod.rs:394-402 *)
          continue (let* rhs := pop in call_binary_op (operator_name o) rhs)
      | OpLoadIndex => continue load_index
      | OpStoreIndex => continue (write_index false)
      | OpAssignIndex => continue (write_index true)
      | OpAssertBool =>                                                        (* mod.rs:147-153 *)
          continue (let* v := peek 0 in
                    match v with VBool _ => rret tt | _ => rfail TYPE_ASSERTION_BOOL_FAILURE end)
      | OpAssertTypeAndReturn => assert_type_and_return false >>> rret Stop
      | OpAssertTypeOrNullAndReturn => assert_type_and_return true >>> rret Stop
      | OpReturn => rret Stop
      | _ => rpanic
      end
  | IByte o b =>
      match o with
      | OpPushConst => continue (let* v := const_at bc b in push v)              (* mod.rs:450-454 *)
      | OpDup => continue (let* v := peek b in push v)                           (* mod.rs:142-145 *)
      | OpCreateArray =>                                                       (* mod.rs:415-420 *)
          continue (let* vs := pop_count b in let* v := new_array vs in push v)
      | OpInheritClass => continue (let* name := symbol_at bc b in inherit_class name)
      | OpLoadModule => continue (let* name := symbol_at bc b in load_module name)
      | OpLoadGlobal => continue (let* name := symbol_at bc b in load_global name)
      | OpStoreGlobal => continue (let* name := symbol_at bc b in store_global name)
      | OpLoadLocal => continue (let* v := frame_get fr b in push v)             (* mod.rs:478-485 *)
      | OpStoreLocal => continue (let* v := pop in frame_set fr b v >>> push v)  (* mod.rs:487-495 *)
      | OpAssignLocal => continue (let* v := pop in frame_set fr b v >>> push VUnit) (* mod.rs:497-505 *)
      | OpLoadField =>                                                         (* mod.rs:619-629 *)
          continue (let* key := symbol_at bc b in let* v := pop in let* x := get_field key v in push x)
      | OpStoreField => continue (let* key := symbol_at bc b in write_field false key)
      | OpAssignField => continue (let* key := symbol_at bc b in write_field true key)
      | OpLoadUpvalue => continue (load_upvalue ups b)
      | OpStoreUpvalue =>                                                      (* mod.rs:524-546 *)
          continue (let* u := upvalue_at ups b in let* v := pop in write_upvalue u v >>> push v)
      | OpAssignUpvalue =>                                                     (* mod.rs:548-568 *)
          continue (let* u := upvalue_at ups b in let* v := pop in write_upvalue u v >>> push VUnit)
      | OpCloseUpvalue => continue (close_upvalue fr b)
      | OpLoadMethod => continue (let* key := symbol_at bc b in load_method key)
      | OpStoreMethod => continue (let* key := symbol_at bc b in store_method key)
      | OpCall => continue (r_call r b)                                        (* mod.rs:818-821 *)
      | OpCallSuper =>                                                         (* mod.rs:823-832 *)
          continue (let* c := pop in
                    let* class := lift (as_class c) in
                    let* receiver := peek b in
                    let* v := call_class_constructor b class receiver in
                    push v)
      | OpAssertTypeForLocal => continue (assert_type_for_local false fr b)
      | OpAssertTypeOrNullForLocal => continue (assert_type_for_local true fr b)
      | _ => rpanic
      end
  | ITwo o a b =>
      match o with
      | OpLoadFieldToLocal =>                                                  (* mod.rs:754-770 *)
          continue (let* key := symbol_at bc a in
                    let* v := pop in
                    let* x := get_field key v in
                    frame_set fr b x >>>
                    push x)
      | _ => rpanic
      end
  | IOffset o off =>
      match o with
      | OpJump => rret (Continue (offset_position p off))                      (* mod.rs:135-140 *)
      | OpJumpIfFalse =>                                                       (* mod.rs:456-465 *)
          let* v := pop in let* b := lift (as_bool v) in
          rret (Continue (if b then p else offset_position p off))
      | OpJumpIfTrue =>                                                        (* mod.rs:467-476 *)
          let* v := pop in let* b := lift (as_bool v) in
          rret (Continue (if b then offset_position p off else p))
      | _ => rpanic
      end
  | IClosure c descs => continue (create_closure bc fr ups c descs)
  end.

(** The while loop of execute, mod.rs:47-118: one iteration, then the rest through [r]. *)
Definition loop (bc : bytecode) (fr : frame) (ups : option (list nat)) (p : pos) : run unit :=
  let* f := lift (fetch vm_operands (bc_constants bc) (bc_data bc) p) in
  match f with
  | None => rret tt
  | Some (i, p') =>
      let* n := step bc fr ups i p' in
      match n with
      | Continue p'' => r_loop r bc fr ups p''
      | Stop => rret tt
      end
  end.
End Interpreter.

(** The machine with fuel: fuel bounds the nesting of calls plus the number of instructions. *)
Fixpoint machine (w : world) (fuel : nat) : rec :=
  match fuel with
  | O => MkRec (fun _ _ _ _ _ => RNoFuel) (fun _ _ => RNoFuel)
  | S fuel' => let r := machine w fuel' in MkRec (loop w r) (call_fn w r)
  end.

(** Setting up the runtime: Runtime::default, runtime.rs:71-82; State::new, runtime.rs:51-69;
    register_known_types, classes/mod.rs:14-26; set_value_class, runtime.rs:112-117. *)
Definition method_list := list (string * native).
Fixpoint add_methods (c : nat) (ms : method_list) (h : heap) : outcome heap :=
  match ms with
  | [] => Ok h
  | (name, n) :: rest => obind (class_set_method c name (VFnNative n) h) (add_methods c rest)
  end.
Fixpoint add_fields (c : nat) (fs : value_map) (h : heap) : outcome heap :=
  match fs with
  | [] => Ok h
  | (name, v) :: rest =>
      obind (class_get c h) (fun k => obind (object_set_field (cl_object k) name v h) (add_fields c rest))
  end.
(** One register_* function: derive from Any, add methods and static fields, set_value_class. *)
Definition register (name : string) (k : vkind) (ms : method_list) (fs : value_map) (s : vm) : outcome vm :=
  obind (class_with_base name (vm_any s) (vm_heap s)) (fun '(c, h1) =>
  obind (add_methods c ms h1) (fun h2 =>
  obind (add_fields c fs h2) (fun h3 =>
  Ok (MkVm (vm_stack s) h3 (vm_open s) (assoc_set name (VClass c) (vm_globals s)) (vm_modules s)
        (vm_any s) (vm_module_class s) (vm_kinds s ++ [(k, c)]) (vm_loads s))))).

(** classes/float.rs:14-62. *)
Definition float_methods : method_list :=
  ("new"%string, NFloatNew) ::
  map (fun p => (fst p, NFloatFn (snd p)))
    [("abs", FAbs); ("sqrt", FSqrt); ("floor", FFloor); ("ceil", FCeil); ("round", FRound); ("min", FMin); ("max", FMax);
     ("is_finite", FIsFinite); ("is_infinite", FIsInfinite); ("is_nan", FIsNan); ("is_normal", FIsNormal)]%string ++
  map (fun m => (m, NExternal "Float" m))
    ["cbrt"; "cos"; "sin"; "tan"; "acos"; "asin"; "atan"; "atan2"; "cosh"; "sinh"; "tanh"; "acosh"; "asinh"; "atanh";
     "log"; "log2"; "ln"; "log10"; "pow"; "to_degrees"; "to_radians"; "is_sign_negative"; "is_sign_positive"]%string.
Definition float_fields : value_map :=
  [("MAX"%string, VFloat (S754_finite false 9007199254740991 971));
   ("MIN"%string, VFloat (S754_finite true 9007199254740991 971));
   ("MIN_POSITIVE"%string, VFloat (S754_finite false 4503599627370496 (-1074)));
   ("EPSILON"%string, VFloat (S754_finite false 4503599627370496 (-104)));
   ("PI"%string, VFloat (S754_finite false 7074237752028440 (-51)));
   ("E"%string, VFloat (S754_finite false 6121026514868073 (-51)));
   ("NAN"%string, VFloat S754_nan);
   ("INFINITY"%string, VFloat (S754_infinity false));
   ("NEG_INFINITY"%string, VFloat (S754_infinity true))].
(** classes/int.rs:14-41. *)
Definition int_methods : method_list :=
  [("new"%string, NIntNew); ("abs"%string, NIntAbs); ("pow"%string, NIntPow);
   ("is_positive"%string, NIntIsPositive); ("is_negative"%string, NIntIsNegative);
   ("min"%string, NIntMin); ("max"%string, NIntMax)].
Definition int_fields : value_map :=
  [("MAX"%string, VInt i64_max); ("MIN"%string, VInt i64_min);
   ("I32_MAX"%string, VInt (2 ^ 31 - 1)); ("I32_MIN"%string, VInt (- 2 ^ 31));
   ("U32_MAX"%string, VInt (2 ^ 32 - 1)); ("U32_MIN"%string, VInt 0);
   ("I16_MAX"%string, VInt (2 ^ 15 - 1)); ("I16_MIN"%string, VInt (- 2 ^ 15));
   ("U16_MAX"%string, VInt (2 ^ 16 - 1)); ("U16_MIN"%string, VInt 0);
   ("I8_MAX"%string, VInt 127); ("I8_MIN"%string, VInt (-128));
   ("U8_MAX"%string, VInt 255); ("U8_MIN"%string, VInt 0)].

Definition runtime_new : outcome vm :=
  let (any, h0) := class_new "Any" heap_empty in                              (* classes/any.rs:16-25 *)
  obind (add_methods any [("to_string"%string, NToString); ("fields"%string, NFields); ("methods"%string, NMethods);
                          ("class_of"%string, NClassOf)] h0) (fun h1 =>
  obind (class_with_base "Module" any h1) (fun '(module_class, h2) =>          (* classes/module.rs:8-12 *)
  let globals := [("Any"%string, VClass any); ("Module"%string, VClass module_class)] in
  let s0 := MkVm (stack_new VNull) h2 [] globals [] any module_class [] [] in
  obind (register "Array" KdArray
           [("new"%string, NArrayNew); ("push"%string, NArrayPush); ("pop"%string, NArrayPop);
            ("length"%string, NArrayLength); ("first"%string, NArrayFirst); ("filter"%string, NArrayFilter);
            ("map"%string, NArrayMap); ("iter"%string, NArrayIter)] [] s0) (fun s1 =>
  obind (register "Bool" KdBool [("new"%string, NBoolNew)] [] s1) (fun s2 =>
  obind (register "Class" KdClass [("name"%string, NClassName); ("base"%string, NClassBase)] [] s2) (fun s3 =>
  obind (register "Float" KdFloat float_methods float_fields s3) (fun s4 =>
  obind (register "Function" KdFunction [("new"%string, NFunctionNew)] [] s4) (fun s5 =>
  obind (register "Int" KdInt int_methods int_fields s5) (fun s6 =>
  obind (register "String" KdString [("new"%string, NStringNew); ("#add"%string, NStringConcat)] [] s6)
    (fun s7 =>
  register "Unit" KdUnit [] [] s7))))))))).

(** Runtime::run on a runtime state. *)
Definition runtime_run (w : world) (fuel : nat) (bc : bytecode) (s : vm) : res value :=
  run_script w (machine w fuel) bc s.
