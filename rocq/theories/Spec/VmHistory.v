(** A small vocabulary of elementary state changes of the runtime: which parts of the state can change,
    and how.  [vm_steps] (histories) is what the theorems about "all executions" quantify over; that every
    execution of the interpreter is such a history is proved in Proofs/VmStepsP.v. *)
From Verif.Model Require Export VM.

(** Elementary changes of the heap: one constructor per operation on objects, arrays, classes, closures,
    captured variables and iterator cells. *)
Inductive heap_change : heap -> heap -> Prop :=
| HNewObject h class o h' : object_new class h = (o, h') -> heap_change h h'
| HSetField h o name v h' : object_set_field o name v h = Ok h' -> heap_change h h'
| HNewArray h vs a h' : array_from_vec vs h = (a, h') -> heap_change h h'
| HWriteArray h a vs h' : array_update a vs h = Ok h' -> heap_change h h'
| HBorrowArray h f a h' : array_set_borrows f a h = Ok h' -> heap_change h h'
| HNewClass h name base c h' : class_with_base name base h = Ok (c, h') -> heap_change h h'
| HSetMethod h c name m h' : class_set_method c name m h = Ok h' -> heap_change h h'
| HNewClosure h f ups c h' : closure_new f ups h = (c, h') -> heap_change h h'
| HNewUpvalue h slot u h' : upvalue_new_open slot h = (u, h') -> heap_change h h'
| HWriteUpvalue h u x h' : upvalue_write u x h = Ok h' -> heap_change h h'
| HIterators h l : heap_change h (hset_iters l h).

(** Elementary changes of the runtime state.  A global can only be added under a vacant name; a module is
    requested from the loader exactly when its name is vacant in the table of loaded modules, and is
    registered there at that moment. *)
Inductive vm_change : vm -> vm -> Prop :=
| CStack s st : vm_change s (set_stack st s)
| CHeap s h' : heap_change (vm_heap s) h' -> vm_change s (set_heap h' s)
| COpen s l : vm_change s (set_open l s)
| CGlobal s name v :
    assoc_get name (vm_globals s) = None ->
    vm_change s (set_globals (assoc_set name v (vm_globals s)) s)
| CLoad s name v :
    assoc_get name (vm_modules s) = None ->
    vm_change s (set_loads (name :: vm_loads s) (set_modules (assoc_set name v (vm_modules s)) s)).

(** Histories: finite sequences of changes. *)
Inductive vm_steps : vm -> vm -> Prop :=
| vs_refl s : vm_steps s s
| vs_step s1 s2 s3 : vm_change s1 s2 -> vm_steps s2 s3 -> vm_steps s1 s3.
