(** Vocabulary for calls. *)
From Verif.Spec Require Export StoreSpec.

(** A value that runs bytecode when called: a script function, or a closure with its captured variables. *)
Inductive runs_code (h : heap) : value -> fn_bytecode -> option (list nat) -> Prop :=
| RunsScript f : runs_code h (VFnScript f) f None
| RunsClosure a f ups : nth_error (h_closures h) a = Some (MkClosure f ups) -> runs_code h (VFnClosure a) f (Some ups).

(** Calling [callee] runs [f] with [slot0] in slot 0: the callee itself or, for a bound method, its receiver. *)
Inductive calls_code (h : heap) : value -> fn_bytecode -> option (list nat) -> value -> Prop :=
| CallsPlain v f ups : runs_code h v f ups -> calls_code h v f ups v
| CallsBound receiver v f ups : runs_code h v f ups -> calls_code h (VFnBound receiver v) f ups receiver.

(** Number of slots above the arguments. *)
Definition spare_slots (f : fn_bytecode) (argc : nat) : nat :=
  let slots := bc_slot_count (fn_code f) in if argc <? slots then slots - argc else slots.

(** The frame of a call whose callee lies at index [at_] of the stack. *)
Definition call_frame (f : fn_bytecode) (at_ argc : nat) : frame :=
  Frame at_ (at_ + (1 + argc + spare_slots f argc)).

(** The cells of that frame when the body starts. *)
Definition call_cells (f : fn_bytecode) (slot0 : value) (args : list value) : list value :=
  slot0 :: args ++ repeat VNull (spare_slots f (List.length args)).

(** The stack has room for the frame (and one more cell, for the callee's result). *)
Definition room_for_call (f : fn_bytecode) (caller : list value) (argc : nat) : Prop :=
  List.length caller + (1 + argc + spare_slots f argc) < max_stack_size.

(** [s'] is [s] with one more object [o], of class [c] and without fields. *)
Definition one_more_object (s : vm) (c o : nat) (s' : vm) : Prop :=
  o = List.length (h_objects (vm_heap s)) /\
  (exists h', s' = set_heap h' s) /\
  has_class s' (VObject o) c /\ (forall name, field (vm_heap s') o name = None) /\
  (forall o', o' < o -> nth_error (h_objects (vm_heap s')) o' = nth_error (h_objects (vm_heap s)) o') /\
  (forall t, t < List.length (h_fields (vm_heap s)) -> nth_error (h_fields (vm_heap s')) t = nth_error (h_fields (vm_heap s)) t) /\
  h_arrays (vm_heap s') = h_arrays (vm_heap s) /\ h_classes (vm_heap s') = h_classes (vm_heap s) /\
  h_closures (vm_heap s') = h_closures (vm_heap s) /\ h_upvalues (vm_heap s') = h_upvalues (vm_heap s).

(** The class a class was derived from. *)
Definition base_of (h : heap) (c : nat) : option nat :=
  match nth_error (h_classes h) c with Some k => cl_base k | None => None end.
