(** Property C41: the runtime after an error. *)
From Verif.Spec Require Import VmSpec.
From Verif.Proofs Require Import RunP SampleP HostP.

(** After a run that succeeded, the stack is where it was (debug build; a release build does not check). *)
Theorem C41_success_restores_the_stack : forall w n bc s v s', w_dbg w = true ->
  runtime_run w n bc s = ROk v s' -> st_ptr (vm_stack s') = st_ptr (vm_stack s).
Proof. exact run_restores. Qed.
Print Assumptions C41_success_restores_the_stack.
(** After a run that failed it is not: { let x = null nope } leaves its local slot behind, whatever the
    stack was ... *)
Theorem C41_failure_leaks_refuted : forall w n cells s, assoc_get "nope" (vm_globals s) = None ->
  List.length cells + 2 <= max_stack_size ->
  compile KScript failing_program = Ok failing_code /\
  runtime_run w (5 + n) failing_code (with_stack cells [] s)
  = RErr GLOBAL_VARIABLE_UNDEFINED (with_stack (cells ++ [VNull]) [] s).
Proof. intros w n cells s G L. split; [exact failing_compiles|exact (failing_run w n cells s G L)]. Qed.
Print Assumptions C41_failure_leaks_refuted.
(** ... each time anew ... *)
Theorem C41_failures_accumulate_refuted : forall w s k, assoc_get "nope" (vm_globals s) = None -> S k <= max_stack_size ->
  fails_times w k (with_stack [] [] s) = Some (with_stack (repeat VNull k) [] s).
Proof. exact fails_times_leak. Qed.
Print Assumptions C41_failures_accumulate_refuted.
(** ... until no program with a local slot can run at all (debug build). *)
Theorem C41_full_stack_refuted : forall w n bc s cells, w_dbg w = true -> S (List.length cells) = max_stack_size ->
  0 < bc_slot_count bc -> runtime_run w n bc (with_stack cells [] s) = RPanic.
Proof. exact full_stack_panics. Qed.
Print Assumptions C41_full_stack_refuted.
(** A new runtime meets the hypotheses. *)
Example C41_nonvacuous : new_vm = with_stack [] [] new_vm /\ assoc_get "nope" (vm_globals new_vm) = None.
Proof. split; [exact new_vm_stack|exact new_vm_nope]. Qed.
