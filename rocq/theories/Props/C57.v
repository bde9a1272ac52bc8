(** C57: large programs: list literals, calls and functions with more than 255 elements, arguments or variables.
    The counts and slots are written in one byte without a check. *)
From Verif.Spec Require Import WideSpec MeaningSpec.
From Verif.Proofs Require Import WideP FlowSampleP.
From Verif.Model Require Import Script.
Import ListNotations.

(** A list literal of at most 255 elements is an array of exactly these elements. *)
Theorem C57_list_literals : forall w bs below s,
  vm_stack s = stack_with below [] -> List.length below + List.length bs + 1 <= max_stack_size ->
  List.length bs <= 255 ->
  exists a s', from (fun n => dice_run_script w n (list_text bs) s) (ROk (VArray a) s') /\ elements (vm_heap s') a = Some (map VBool bs).
Proof. exact short_list_source. Qed.
Print Assumptions C57_list_literals.

(** One of any length: the array has the length modulo 256.  A debug build panics if elements are left over. *)
Theorem C57_long_list_literals_refuted : forall w bs below s,
  vm_stack s = stack_with below [] -> List.length below + List.length bs + 1 <= max_stack_size ->
  if w_dbg w && (256 <=? List.length bs) then from (fun n => dice_run_script w n (list_text bs) s) RPanic
  else exists a s', from (fun n => dice_run_script w n (list_text bs) s) (ROk (VArray a) s') /\
         elements (vm_heap s') a = Some (map VBool (last_elements (List.length bs mod 256) bs)).
Proof. exact wide_list_source. Qed.
Print Assumptions C57_long_list_literals_refuted.
Example C57_nonvacuous : vm_stack new_vm = stack_with [] [] /\ utf8 (list_text [true; false]) = "[ true , false ] "%string /\
  last_elements (258 mod 256) (repeat true 257 ++ [false]) = [true; false].
Proof. exact (conj (proj1 new_vm_ready) (conj eq_refl eq_refl)). Qed.

(** The 257th variable of a function shares the storage of the first: a program whose first variable is true
    reads false, in every build. *)
Theorem C57_many_variables_refuted :
  value_of (dice_run_script sample_world 3000 (chars (many_variables 255)) new_vm) = Some (VBool true) /\
  value_of (dice_run_script sample_world 3000 (chars (many_variables 256)) new_vm) = Some (VBool false) /\
  value_of (dice_run_script release_world 3000 (chars (many_variables 256)) new_vm) = Some (VBool false).
Proof. split; [|split]; vm_compute; reflexivity. Qed.
Print Assumptions C57_many_variables_refuted.

(** A call with 256 arguments calls its last argument; a debug build then panics. *)
Theorem C57_many_arguments_refuted :
  value_of (dice_run_script release_world 3000 (chars (many_arguments 255)) new_vm) = Some (VInt 1) /\
  value_of (dice_run_script release_world 3000 (chars (many_arguments 256)) new_vm) = Some (VInt 2) /\
  panics (dice_run_script sample_world 3000 (chars (many_arguments 256)) new_vm) = true.
Proof. split; [|split]; vm_compute; reflexivity. Qed.
Print Assumptions C57_many_arguments_refuted.
