(** The host interface of the runtime: impl dice_core::runtime::Runtime for Runtime,
    dice-runtime/src/runtime.rs:120-209.  At the pinned commit this block is commented out while the
    runtime is moved to a garbage-collecting arena; the model follows the commented text.
    call_function (lines 177-184) is in Model/VM.v, any_class, class_of and is_value_of_type (186-208)
    are the field [vm_any] and [class_of_value], [is_value_of_type] there. *)
From Verif.Model Require Export Compiler VM.

Section WithWorld.
Variable w : world.

(** new_module, runtime.rs:124-138: the table is updated before the check. *)
Definition new_module (name : string) : run value :=
  let* o := heap_alloc (object_new None) in
  fun s =>
    let s' := set_modules (assoc_set name (VObject o) (vm_modules s)) s in
    match assoc_get name (vm_modules s) with
    | Some _ => RErr MODULE_ALREADY_EXISTS s'
    | None => ROk (VObject o) s'
    end.

(** new_class, runtime.rs:140-144. *)
Definition new_class (name : string) : run value := fun s =>
  (let* c := heap_upd (class_with_base name (vm_any s)) in rret (VClass c)) s.

(** new_object, runtime.rs:146-150. *)
Definition new_object : run value := fun s =>
  (let* o := heap_alloc (object_new (Some (vm_any s))) in rret (VObject o)) s.

(** add_global, runtime.rs:167-175: the table is updated before the check. *)
Definition add_global (name : string) (v : value) : run unit := fun s =>
  let s' := set_globals (assoc_set name v (vm_globals s)) s in
  match assoc_get name (vm_globals s) with
  | Some _ => RErr GLOBAL_ALREADY_EXISTS s'
  | None => ROk tt s'
  end.

(** load_prelude, runtime.rs:152-165.  The exported fields become globals where the name is vacant; the
    iteration order of the field table does not matter because its names are distinct. *)
Fixpoint globals_from (fields : value_map) (globals : value_map) : value_map :=
  match fields with
  | [] => globals
  | (k, v) :: rest =>
      globals_from rest (match assoc_get k globals with Some _ => globals | None => assoc_set k v globals end)
  end.
Definition load_prelude (n : nat) (path : string) : run unit := fun s0 =>
  (let* bc := lift (w_load w (vm_loads s0) path) in
   let* o := heap_alloc (object_new (Some (vm_module_class s0))) in
   (fun s => ROk tt (set_modules (assoc_set path (VObject o) (vm_modules s)) s)) >>>
   let* m := run_module w (machine w n) bc (VObject o) in
   let* e := heap_get (as_object m) in
   fun s =>
     match nth_error (h_objects (vm_heap s)) e with
     | Some ob =>
         match nth_error (h_fields (vm_heap s)) (ob_fields ob) with
         | Some fields => ROk tt (set_globals (globals_from fields (vm_globals s)) s)
         | None => RPanic
         end
     | None => RPanic
     end) (set_loads (path :: vm_loads s0) s0).

End WithWorld.

(** Dice::run_script, dice/src/lib.rs:12-18, after parsing. *)
Definition dice_run (w : world) (fuel : nat) (root : expr) : run value := fun s =>
  match compile KScript root with
  | Ok bc => runtime_run w fuel bc s
  | Err e => RErr e s
  | Panic => RPanic
  | NoFuel => RNoFuel
  end.
