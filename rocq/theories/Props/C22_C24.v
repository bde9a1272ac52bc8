(** Properties C22-C24: globals and modules; C45: module files. *)
From Verif.Model Require Import FileLoader Host.
From Verif.Spec Require Import VmSpec StoreSpec.
From Verif.Proofs Require Import GlobalsP SampleP HostP HostClassP ChangeP.

(** C22.  The value of a global is [assoc_get name (vm_globals s)].  Nothing a program can do changes it
    once it is there ... *)
Theorem C22_globals_persist : forall w s s' name v, executes w s s' ->
  assoc_get name (vm_globals s) = Some v -> assoc_get name (vm_globals s') = Some v.
Proof. exact executes_globals. Qed.
Print Assumptions C22_globals_persist.
(** ... a read yields it ... *)
Theorem C22_read : forall w r bc fr ups p c name, nth_error (bc_constants bc) c = Some (CSymbol name) ->
  forall below temps s v, assoc_get name (vm_globals s) = Some v -> fits below temps 1 ->
  step w r bc fr ups (IByte OpLoadGlobal c) p (with_stack below temps s)
  = ROk (Continue p) (with_stack below (v :: temps) s).
Proof. exact step_load_global. Qed.
Print Assumptions C22_read.
(** ... a second definition is an error (which leaves the globals as they are) ... *)
Theorem C22_redefinition_is_an_error : forall w r bc fr ups p c name, nth_error (bc_constants bc) c = Some (CSymbol name) ->
  forall below temps s v x, assoc_get name (vm_globals s) = Some v -> fits below temps 1 ->
  step w r bc fr ups (IByte OpStoreGlobal c) p (with_stack below (x :: temps) s)
  = RErr GLOBAL_VARIABLE_ALREADY_DEFINED (with_stack below temps s).
Proof. exact step_store_global_defined. Qed.
Print Assumptions C22_redefinition_is_an_error.
(** ... the first definition succeeds ... *)
Theorem C22_definition : forall w r bc fr ups p c name, nth_error (bc_constants bc) c = Some (CSymbol name) ->
  forall below temps s x, assoc_get name (vm_globals s) = None -> fits below temps 1 ->
  step w r bc fr ups (IByte OpStoreGlobal c) p (with_stack below (x :: temps) s)
  = ROk (Continue p) (with_stack below temps (set_globals (assoc_set name x (vm_globals s)) s)).
Proof. exact step_store_global_vacant. Qed.
Print Assumptions C22_definition.
(** ... and reading an undefined global is an error. *)
Theorem C22_undefined_read : forall w r bc fr ups p c name, nth_error (bc_constants bc) c = Some (CSymbol name) ->
  forall s, assoc_get name (vm_globals s) = None ->
  step w r bc fr ups (IByte OpLoadGlobal c) p s = RErr GLOBAL_VARIABLE_UNDEFINED s.
Proof. exact step_load_global_undefined. Qed.
Print Assumptions C22_undefined_read.
(** A new runtime has the global Int and no global x. *)
Example C22_nonvacuous :
  (match assoc_get "Int" (vm_globals new_vm) with Some (VClass _) => true | _ => false end) = true /\
  assoc_get "x" (vm_globals new_vm) = None /\ reachable sample_world new_vm.
Proof. split; [vm_compute; reflexivity|]. split; [vm_compute; reflexivity|]. apply new_vm_reachable. Qed.

(** The host interface does not keep the rule: defining an existing global reports an error and replaces
    the value all the same. *)
Theorem C22_host_definition_refuted : forall name v old s, assoc_get name (vm_globals s) = Some old ->
  exists s', add_global name v s = RErr GLOBAL_ALREADY_EXISTS s' /\ assoc_get name (vm_globals s') = Some v.
Proof. exact add_global_replaces. Qed.
Print Assumptions C22_host_definition_refuted.

(** Loading a prelude never replaces a global, and makes every other name it exports global: [s1] is the runtime after the
    code of the prelude, [x] what that code gives back. *)
Theorem C22_prelude_keeps_globals : forall w n path s s', load_prelude w n path s = ROk tt s' ->
  exists o x s1, assoc_get path (vm_modules s') = Some (VObject o) /\ vm_heap s' = vm_heap s1 /\
    (forall name v, assoc_get name (vm_globals s) = Some v -> assoc_get name (vm_globals s1) = Some v) /\
    (forall name, assoc_get name (vm_globals s') = match assoc_get name (vm_globals s1) with Some v => Some v | None => own_field (vm_heap s') x name end).
Proof. exact host_prelude. Qed.
Print Assumptions C22_prelude_keeps_globals.
Example C22_prelude_nonvacuous : exists s', load_prelude answer_world 100 "prelude" new_vm = ROk tt s' /\ assoc_get "answer" (vm_globals s') = Some (VInt 42).
Proof. exact answer_loads. Qed.

(** C23.  [vm_loads s] lists the names the loader has been asked for, in the whole life of the runtime. *)
Theorem C23_loader_asked_at_most_once : forall w s, reachable w s -> NoDup (vm_loads s).
Proof. exact reachable_loads. Qed.
Print Assumptions C23_loader_asked_at_most_once.
(** Once a module is registered, its export object stays the same for good ... *)
Theorem C23_export_object_persists : forall w s s' name v, executes w s s' ->
  assoc_get name (vm_modules s) = Some v -> assoc_get name (vm_modules s') = Some v.
Proof. exact modules_persist. Qed.
Print Assumptions C23_export_object_persists.
(** ... and every import yields it without asking the loader or running anything. *)
Theorem C23_later_imports : forall w r bc fr ups p c name, nth_error (bc_constants bc) c = Some (CSymbol name) ->
  forall below temps s m, assoc_get name (vm_modules s) = Some m -> fits below temps 1 ->
  step w r bc fr ups (IByte OpLoadModule c) p (with_stack below temps s)
  = ROk (Continue p) (with_stack below (m :: temps) s).
Proof. exact step_load_module_known. Qed.
Print Assumptions C23_later_imports.
(** A reachable state in which two modules have been loaded. *)
Example C23_nonvacuous : exists s, reachable two_names_world s /\ vm_loads s = ["./m.dm"; "m.dm"]%string.
Proof. destruct same_file_twice as (s & R & L & _). eauto. Qed.

(** "Module" means the name written in the import: one file imported under two names is loaded and run
    twice. *)
Theorem C23_per_file_refuted : exists s, reachable two_names_world s /\ vm_loads s = ["./m.dm"; "m.dm"]%string /\
  os_canonicalize two_names "./m.dm" = os_canonicalize two_names "m.dm".
Proof. exact same_file_twice. Qed.
Print Assumptions C23_per_file_refuted.

(** A module that the host makes under a new name is a new object, registered under that name only. *)
Theorem C23_host_module : forall name s, assoc_get name (vm_modules s) = None ->
  exists o s', new_module name s = ROk (VObject o) s' /\ o = List.length (h_objects (vm_heap s)) /\
    forall x, assoc_get x (vm_modules s') = if String.eqb x name then Some (VObject o) else assoc_get x (vm_modules s).
Proof. exact host_module. Qed.
Print Assumptions C23_host_module.
(** Refuted: a host's second registration changes nothing.  It reports an error, and later imports get the new, empty module. *)
Theorem C23_host_module_refuted : forall name m s, assoc_get name (vm_modules s) = Some m ->
  exists o s', new_module name s = RErr MODULE_ALREADY_EXISTS s' /\ o = List.length (h_objects (vm_heap s)) /\
    assoc_get name (vm_modules s') = Some (VObject o).
Proof. exact new_module_replaces. Qed.
Print Assumptions C23_host_module_refuted.
Example C23_host_module_nonvacuous : assoc_get "m" (vm_modules new_vm) = None.
Proof. reflexivity. Qed.

(** C24 is false: after a failed import (whether loading or running failed), every later import of that
    module, at any later point of the runtime's life, succeeds. *)
Theorem C24_failed_import_refuted : forall w n m name s e s' r bc fr ups c p below temps,
  assoc_get name (vm_modules s) = None ->
  load_module w (machine w n) name s = RErr e s' ->
  (exists s1, executes w s' s1 /\ m = s1) ->
  nth_error (bc_constants bc) c = Some (CSymbol name) -> fits below temps 1 ->
  exists o, step w r bc fr ups (IByte OpLoadModule c) p (with_stack below temps m)
            = ROk (Continue p) (with_stack below (VObject o :: temps) m).
Proof. exact failed_import_then_known. Qed.
Print Assumptions C24_failed_import_refuted.
(** The program [import a from "m.dm"] run twice where m.dm cannot be read: an error, then success. *)
Theorem C24_program_refuted :
  let first := dice_run sample_world 50 import_once new_vm in
  outcome_of first = Some (Some IO_ERROR) /\
  outcome_of (dice_run sample_world 50 import_once (state_of first new_vm)) = Some None.
Proof. exact import_fails_then_succeeds. Qed.
Print Assumptions C24_program_refuted.

(** C45.  The second component of [file_load_module] lists the files read. *)
Theorem C45_reads_only_below_working_directory : forall o compile name p,
  In p (snd (file_load_module o compile name)) ->
  exists dir rest, os_working_dir o = Ok dir /\ os_canonicalize o name = Ok p /\ p = dir ++ rest.
Proof. exact file_reads. Qed.
Print Assumptions C45_reads_only_below_working_directory.
Theorem C45_outside_is_an_error : forall o compile name path dir,
  os_canonicalize o name = Ok path -> os_working_dir o = Ok dir -> (~ exists rest, path = dir ++ rest) ->
  file_load_module o compile name = (Err INVALID_SCRIPT_LOCATION, []).
Proof. exact file_outside. Qed.
Print Assumptions C45_outside_is_an_error.
Theorem C45_inside_is_compiled : forall o compile name dir rest text,
  os_canonicalize o name = Ok (dir ++ rest) -> os_working_dir o = Ok dir ->
  os_read o (dir ++ rest) = Ok text -> fst (file_load_module o compile name) = compile text.
Proof. exact file_inside. Qed.
Print Assumptions C45_inside_is_compiled.
(** /home/ab/x.dm is not below /home/a. *)
Example C45_nonvacuous :
  let o := MkOs (fun _ => Ok ["home"; "ab"; "x.dm"]%string) (Ok ["home"; "a"]%string) (fun _ => Ok ""%string) in
  file_load_module o compile_nothing "x" = (Err INVALID_SCRIPT_LOCATION, []).
Proof. reflexivity. Qed.
