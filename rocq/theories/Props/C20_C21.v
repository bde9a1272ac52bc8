(** Properties C20 and C21: captured variables. *)
From Verif.Spec Require Import VmSpec StoreSpec CallSpec SharingSpec.
From Verif.Proofs Require Import SharingP SampleP HostP CallExamplesP.

(** C20.  Any sequence of reads and writes of locals, closure creations (capturing locals and variables of
    enclosing closures), reads and writes of captured variables and ends of scopes, in any frames of the
    stack, observes on the machine exactly what it observes when variables are locations that closures hold:
    [var_run].  In particular different activations have different variables, whatever slots they reuse. *)
Theorem C20_captured_variables_are_shared : forall w r bc c p f ops cells temps s os,
  nth_error (bc_constants bc) c = Some (CFunction f) -> vm_open s = [] -> fits cells temps 2 ->
  var_run (List.length cells) (vars_of cells) ops = Some os ->
  exists cells' s', machine_run w r bc c p [] ops (with_stack cells temps s) = ROk os (with_stack cells' temps s').
Proof. exact captured_shared. Qed.
Print Assumptions C20_captured_variables_are_shared.
(** Two closures over slot 0 of one frame, one nested in the other's environment, and one over the slot after
    its scope ended: writes are seen by the first two, before and after the end of the scope, not by the third. *)
Example C20_nonvacuous :
  let fr := Frame 0 1 in
  var_run 1 (vars_of [VInt 5])
    [NewClosure fr None [(true, 0)]; NewClosure fr (Some 0) [(false, 0); (true, 0)]; WriteLocal fr 0 (VInt 6); ReadCaptured 0 0;
     WriteCaptured 1 1 (VInt 7); ReadLocal fr 0; EndScope fr 0; WriteLocal fr 0 (VInt 1); ReadCaptured 0 0;
     WriteCaptured 0 0 (VInt 8); ReadCaptured 1 0; NewClosure fr None [(true, 0)]; ReadCaptured 2 0]
  = Some [None; None; None; Some (VInt 6); None; Some (VInt 7); None; None; Some (VInt 7); None; Some (VInt 8); None; Some (VInt 1)].
Proof. vm_compute. reflexivity. Qed.

(** C21.  The closure returned at the end of the body still sees 7; returned by [return] or [!!] it does not. *)
Theorem C21_return_refuted :
  value_of (dice_run sample_world 200 exit_by_end new_vm) = Some (VInt 7) /\
  value_of (dice_run sample_world 200 exit_by_return new_vm) = Some VNull.
Proof. split; vm_compute; reflexivity. Qed.
Print Assumptions C21_return_refuted.
Theorem C21_propagation_refuted :
  value_of (dice_run sample_world 200 exit_by_end_with_object new_vm) = Some (VInt 7) /\
  value_of (dice_run sample_world 200 exit_by_propagation new_vm) = Some VNull.
Proof. split; vm_compute; reflexivity. Qed.
Print Assumptions C21_propagation_refuted.
(** Worse, assigning through such a closure overwrites an argument of an unrelated function. *)
Theorem C21_unrelated_variable_refuted :
  value_of (dice_run sample_world 200 (corrupts by_end) new_vm) = Some (VInt 1) /\
  value_of (dice_run sample_world 200 (corrupts by_return) new_vm) = Some (VInt 99).
Proof. split; vm_compute; reflexivity. Qed.
Print Assumptions C21_unrelated_variable_refuted.
