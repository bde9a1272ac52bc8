(** Properties C09 and C23 of running programs: variables that are not [mut], and the objects of modules. *)
From Verif.Spec Require Import ConstantSpec.
From Verif.Proofs Require Import ConstantP ConstantSampleP.
#[local] Open Scope string_scope.
#[local] Open Scope list_scope.
#[local] Open Scope nat_scope.

(** * C09: a variable declared without [mut] keeps its value
    A script [before...; let x = e0; after...; x] that completes returns the value that e0 had when it was evaluated,
    whatever the statements after it do (closures that capture x, loops, calls, imports, inner variables of the
    same name), as long as none of them declares x anew in the same block. *)
Theorem C09_immutable_variable_keeps_value : forall w pg before x e0 t after bc below s room r m',
  let es := reads_back before x e0 t after in
  runnable w pg (EBlock es (Some (ELitIdent x))) bc below s room -> ~ In x (flat_map declared after) ->
  evaluates w pg (top_scene room 0) 0 (EBlock es (Some (ELitIdent x))) (MeaningSpec.start s) (AVal r m') ->
  exists S1 m1 v m2 s',
    completes w pg (fst (opened es (Some (ELitIdent x)) room s)) 0 before (snd (opened es (Some (ELitIdent x)) room s)) S1 m1 /\
    evaluates w pg S1 (literals before) e0 m1 (AVal v m2) /\
    from (fun n => runtime_run w n bc s) (ROk v s') /\ same_store (m_vm m') s' /\ ready below s'.
Proof. exact let_kept. Qed.
Print Assumptions C09_immutable_variable_keeps_value.
(** x is captured by a closure, shadowed by a loop variable, a parameter and an assigned variable; it stays 5. *)
Example C09_value_nonvacuous :
  runnable sample_world (solo constant_text) (EBlock (reads_back constant_before "x" constant_init None constant_after) (Some (ELitIdent "x"))) (coded constant_text) [] new_vm 200 /\
  ~ In "x" (flat_map declared constant_after) /\ List.length constant_after = 5 /\
  exists m', evaluates sample_world (solo constant_text) (top_scene 200 0) 0 (EBlock (reads_back constant_before "x" constant_init None constant_after) (Some (ELitIdent "x")))
    (MeaningSpec.start new_vm) (AVal (VInt 5) m').
Proof. exact constant_ok. Qed.

(** The last condition is needed: [let x = 1; class x { }] is accepted, and the class is stored in the variable. *)
Theorem C09_class_replaces_variable_refuted :
  (exists bc, compile KScript (parsed replaced) = Ok bc) /\ value_of (run_of sample_world replaced) = Some (VBool true).
Proof. exact replaced_ok. Qed.
Print Assumptions C09_class_replaces_variable_refuted.

(** * C23: every import of a module yields its registered object
    A script that ends with [import * as x, { names } from path; x], whatever it did before, returns the object that
    is registered for [path] from then on, and the one registered before if there was one. *)
Theorem C23_every_import_yields_the_module : forall w pg before x names path bc below s room r m',
  let root := EBlock (imports_last before x names path) (Some (ELitIdent x)) in
  runnable w pg root bc below s room ->
  evaluates w pg (top_scene room 0) 0 root (MeaningSpec.start s) (AVal r m') ->
  exists s', from (fun n => runtime_run w n bc s) (ROk r s') /\ assoc_get path (vm_modules s') = Some r /\
    (forall v, assoc_get path (vm_modules s) = Some v -> r = v) /\ ready below s'.
Proof. exact import_object. Qed.
Print Assumptions C23_every_import_yields_the_module.
(** a.dm and b.dm import each other; the script imports a.dm twice and b.dm once. *)
Example C23_import_nonvacuous : runnable (text_world ring) (text_program ring_main ring) ring_root (coded ring_main) [] new_vm 300 /\
  exists o m', evaluates (text_world ring) (text_program ring_main ring) (top_scene 300 0) 0 ring_root (MeaningSpec.start new_vm) (AVal (VObject o) m').
Proof. exact ring_ok. Qed.
