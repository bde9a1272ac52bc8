(** What it means for a run of a compiled script to agree with the interpreter of EvalSpec.v. *)
From Verif.Model Require Export Compiler Host.
From Verif.Spec Require Export SupportSpec VmSpec.
#[local] Open Scope string_scope.
#[local] Open Scope list_scope.
#[local] Open Scope nat_scope.

(** The functions compiled into some code, at any depth, and the table of them by number: the names by which
    the interpreter calls the function literals of the program. *)
Fixpoint functions (b : bytecode) : list fn_bytecode :=
  match b with MkBytecode _ _ _ cs => flat_map functions_c cs end
with functions_c (c : const) : list fn_bytecode :=
  match c with CFunction f => functions_f f | _ => [] end
with functions_f (f : fn_bytecode) : list fn_bytecode :=
  match f with MkFn _ _ b => f :: functions b end.
Definition table (b : bytecode) (n : nat) : fn_bytecode :=
  match find (fun f => Nat.eqb (fn_id f) n) (functions b) with
  | Some f => f
  | None => MkFn n "" (MkBytecode [] 0 0 [])
  end.

(** Code within the limits of the instruction format: two-byte jumps, one-byte variable numbers. *)
Definition limited (b : bytecode) : bool :=
  (Z.of_nat (List.length (bc_data b)) <=? 32767)%Z && (bc_slot_count b <=? 256) && (bc_upvalue_count b <=? 256).
Definition all_limited (b : bytecode) : bool := limited b && forallb (fun f => limited (fn_code f)) (functions b).

(** Host functions that do not look at the captured variables of functions. *)
Definition natives_blind (w : world) : Prop :=
  forall c m args h closures upvalues,
    w_native w c m args (hset_upvalues upvalues (hset_closures closures h)) = w_native w c m args h.

(** Equal up to the stack and the captured variables: objects, arrays, classes, globals, modules. *)
Record same_store (s s' : vm) : Prop := {
  ss_fields : h_fields (vm_heap s') = h_fields (vm_heap s);
  ss_objects : h_objects (vm_heap s') = h_objects (vm_heap s);
  ss_arrays : h_arrays (vm_heap s') = h_arrays (vm_heap s);
  ss_classes : h_classes (vm_heap s') = h_classes (vm_heap s);
  ss_iters : h_iters (vm_heap s') = h_iters (vm_heap s);
  ss_globals : vm_globals s' = vm_globals s;
  ss_modules : vm_modules s' = vm_modules s;
  ss_any : vm_any s' = vm_any s;
  ss_module_class : vm_module_class s' = vm_module_class s;
  ss_kinds : vm_kinds s' = vm_kinds s;
  ss_loads : vm_loads s' = vm_loads s }.

(** A runtime between runs: [below] are the cells in use, no variable is on the stack. *)
Definition ready (below : list value) (s : vm) : Prop := vm_stack s = stack_with below [] /\ vm_open s = [].

(** * Programs of several modules
    Compilation that numbers its functions from [first] on.  (The implementation names functions by random
    identifiers, decl_fn.rs:29, decl_op.rs:32, literal_anonymous_fn.rs:11; distinct numbers for the functions of distinct modules stand for this.) *)
Definition compile_from (first : nat) (kind : compiler_kind) (root : expr) : outcome bytecode :=
  omap fst (compile_m kind root (CState [context_new kind] first)).

(** The code of a module is compiled from its text. *)
Record module_linked (pg : program) (md : module) (mb : bytecode) : Prop := {
  ml_code : compile_from (md_first md) KModule (md_tree md) = Ok mb;
  ml_slots : md_slots md = bc_slot_count mb;
  ml_supported : supported_module (md_tree md) = true;
  ml_limited : all_limited mb = true;
  ml_names : forall f, In f (functions mb) -> pg_lit pg (fn_id f) = f }.
(** A script within the sub-language, its code, and the modules it can import: the loader of [w] gives the code
    of the modules in the library of [pg].  Functions are named apart. *)
Record linked (w : world) (pg : program) (root : expr) (bc : bytecode) : Prop := {
  lk_code : compile KScript root = Ok bc;
  lk_supported : supported script_place root = true;
  lk_limited : all_limited bc = true;
  lk_names : forall f, In f (functions bc) -> pg_lit pg (fn_id f) = f;
  lk_modules : forall seen name,
    match pg_library pg seen name with
    | Ok md => exists mb, w_load w seen name = Ok mb /\ module_linked pg md mb
    | Err e => w_load w seen name = Err e
    | Panic => w_load w seen name = Panic
    | NoFuel => True
    end }.
(** The program that is one script: what modules do, once loaded, is left open. *)
Definition alone (w : world) (b : bytecode) : program :=
  Program (table b) (fun seen name => match w_load w seen name with Err e => Err e | Panic => Panic | _ => NoFuel end).

(** The meaning of a script with [room] free stack cells, in runtime [s]. *)
Definition start (s : vm) : memory := Memory s [] (map (fun _ => None) (h_closures (vm_heap s))) [].
Definition meaning (w : world) (pg : program) (fuel room : nat) (root : expr) (s : vm) : answer :=
  i_eval (interpreter w pg fuel) (Scene [] None room false) 0 root (start s).

(** A run (by amount of fuel) agrees with an answer: for all large enough amounts of fuel it has the same
    result, and leaves the same store; a successful run leaves the runtime as ready as before.  (A [return] outside of functions would
    end the script with its value; the compiler rejects it.) *)
Definition from {A} (r : nat -> res A) (x : res A) : Prop := exists n0, forall n, n0 <= n -> r n = x.
Definition agrees (below : list value) (r : nat -> res value) (a : answer) : Prop :=
  match a with
  | AVal v m | AReturn v m => exists s', from r (ROk v s') /\ same_store (m_vm m) s' /\ ready below s'
  | AFail e m => exists s', from r (RErr e s') /\ same_store (m_vm m) s'
  | ACrash => from r RPanic
  | AUnknown => True
  | ABreak _ | AContinue _ | ANull _ => False
  end.
