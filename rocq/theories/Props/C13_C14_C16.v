(** Properties C13, C14 and C16: what compiled code does. *)
From Verif.Model Require Import Script.
From Verif.Spec Require Import FlowSpec.
From Verif.Proofs Require Import CompileP MonoP FlowP FlowSampleP ModuleSampleP.
#[local] Open Scope string_scope.
#[local] Open Scope list_scope.
#[local] Open Scope nat_scope.

(** * C14: compilation preserves meaning
    For every script of the sub-language (SupportSpec.v) with the modules it can import, every runtime and every
    world: if the interpreter of EvalSpec.v says what the syntax tree means, running the compiled code gives the
    same value, the same error or the same panic, with the same objects, arrays, classes, globals and modules, and
    leaves the stack as it was. *)
Theorem C14_compilation_preserves_meaning_partial : forall w pg root bc below s fuel room,
  linked w pg root bc -> natives_blind w ->
  ready below s -> List.length below + bc_slot_count bc + room <= max_stack_size ->
  agrees below (fun n => runtime_run w n bc s) (meaning w pg fuel room root s).
Proof. exact script_meaning. Qed.
Print Assumptions C14_compilation_preserves_meaning_partial.

(** A script by itself needs no more than to be compiled, in the sub-language and not too long; what the modules
    it imports do is then left open. *)
Theorem C14_linked_alone : forall w root bc,
  compile KScript root = Ok bc -> supported script_place root = true -> all_limited bc = true -> linked w (alone w bc) root bc.
Proof. exact linked_alone. Qed.
Print Assumptions C14_linked_alone.

(** The same from source text. *)
Theorem C14_running_a_script_partial : forall w pg text root bc below s fuel room,
  parse text = Ok root -> runnable w pg root bc below s room ->
  agrees below (fun n => dice_run_script w n text s) (meaning w pg fuel room root s).
Proof. exact text_meaning. Qed.
Print Assumptions C14_running_a_script_partial.

(** What a script means does not depend on how long one is prepared to evaluate it. *)
Theorem C14_meaning_is_stable : forall w pg room root s n n',
  n <= n' -> meaning w pg n room root s <> AUnknown -> meaning w pg n' room root s = meaning w pg n room root s.
Proof. exact meaning_stable. Qed.
Print Assumptions C14_meaning_is_stable.

(** A program with closures, recursion, early return, both kinds of for, break and null chains: it is in the
    sub-language, and means 75. *)
Example C14_nonvacuous : parse (chars tour) = Ok (parsed tour) /\ runnable sample_world (solo tour) (parsed tour) (coded tour) [] new_vm 200 /\
  value_meant (meaning sample_world (solo tour) 60 200 (parsed tour) new_vm) = Some (VInt 75).
Proof. exact (conj (checks_parse _ _ tour_checks) (conj (checks_runnable _ _ _ tour_checks sample_blind) tour_means)). Qed.

(** The same for a program with two classes, constructors, super calls, a static method and an operator. *)
Example C14_classes_nonvacuous : parse (chars shapes) = Ok (parsed shapes) /\ runnable sample_world (solo shapes) (parsed shapes) (coded shapes) [] new_vm 200 /\
  value_meant (meaning sample_world (solo shapes) 60 200 (parsed shapes) new_vm) = Some (VInt 90).
Proof. exact (conj (checks_parse _ _ shapes_checks) (conj (checks_runnable _ _ _ shapes_checks sample_blind) shapes_means)). Qed.

(** The same for array methods that are given closures, and the text of values. *)
Example C14_host_nonvacuous : parse (chars host) = Ok (parsed host) /\ runnable sample_world (solo host) (parsed host) (coded host) [] new_vm 200 /\
  value_meant (meaning sample_world (solo host) 60 200 (parsed host) new_vm) =
    Some (VString "[30, [20, 30], 6, closure{__anonymous_fn_0}, Any]-6!").
Proof. exact (conj (checks_parse _ _ host_checks) (conj (checks_runnable _ _ _ host_checks sample_blind) host_means)). Qed.

(** The same for a script that imports two modules: one keeps a counter that both others use, the other exports a
    class and an object of it. *)
Example C14_modules_nonvacuous : parse (chars importer) = Ok (parsed importer) /\
  runnable (text_world library) (text_program importer library) (parsed importer) (coded importer) [] new_vm 300 /\
  value_meant (meaning (text_world library) (text_program importer library) 80 300 (parsed importer) new_vm) = Some (VInt 1010050220).
Proof. exact (conj (proj1 (program_runnable _ _ _ importer_checks)) (conj (proj2 (program_runnable _ _ _ importer_checks)) importer_means)). Qed.

(** Outside the sub-language it is false: a release build of 10 + f(), where f returns 2 from inside an
    operand, fails, and a debug build panics. *)
Theorem C14_return_in_operand_refuted :
  error_of (run_of release_world return_in_operand_used) = Some GLOBAL_OPERATOR_UNDEFINED /\
  panics (run_of sample_world return_in_operand_used) = true.
Proof. split; vm_compute; reflexivity. Qed.
Print Assumptions C14_return_in_operand_refuted.

(** * C13: an expression leaves exactly one value
    The code of an expression of the sub-language, run on any stack, adds its value on top; what is below the
    frame and the operands above it are as before, and the frame has as many cells as before. *)
Theorem C13_one_value : forall w pg root bc below cells temps s fuel room v m,
  linked w pg root bc -> natives_blind w ->
  vm_open s = [] -> List.length cells = bc_slot_count bc -> List.length below + List.length cells + List.length temps + room <= max_stack_size ->
  meaning w pg fuel room root s = AVal v m ->
  exists cells' s', List.length cells' = List.length cells /\
    from (fun n => r_loop (machine w n) bc (Frame (List.length below) (List.length below + List.length cells)) None 0%Z (with_stack (below ++ cells) temps s)) (ROk tt s') /\
    vm_stack s' = stack_with (below ++ cells') (v :: temps) /\ same_store (m_vm m) s'.
Proof. exact expression_pushes. Qed.
Print Assumptions C13_one_value.
Example C13_nonvacuous : runnable sample_world (solo tour) (parsed tour) (coded tour) [] new_vm 200 /\
  value_meant (meaning sample_world (solo tour) 60 200 (parsed tour) new_vm) = Some (VInt 75).
Proof. exact (conj (checks_runnable _ _ _ tour_checks sample_blind) tour_means). Qed.

(** Outside the sub-language it is false.  A return while an operand is on the stack: the debug build's check
    panics; a release build leaves a value behind. *)
Theorem C13_return_in_operand_refuted :
  panics (run_of sample_world return_in_operand) = true /\
  value_of (run_of release_world return_in_operand) = Some (VInt 2) /\ height_of (run_of release_world return_in_operand) = Some 1.
Proof. split; [|split]; vm_compute; reflexivity. Qed.
Print Assumptions C13_return_in_operand_refuted.
(** A return inside a for. *)
Theorem C13_return_in_for_refuted :
  panics (run_of sample_world return_in_for) = true /\
  value_of (run_of release_world return_in_for) = Some (VInt 0) /\ height_of (run_of release_world return_in_for) = Some 1.
Proof. split; [|split]; vm_compute; reflexivity. Qed.
Print Assumptions C13_return_in_for_refuted.
(** A break in a for over an iterator. *)
Theorem C13_break_in_for_refuted :
  panics (run_of sample_world break_in_for) = true /\ panics (run_of release_world break_in_for) = true.
Proof. split; vm_compute; reflexivity. Qed.
Print Assumptions C13_break_in_for_refuted.

(** * C16: short circuits
    L is how the left operand ends; the right operand is evaluated, in the memory the left one left, only when
    the left one does not decide; the result is a bool or the type error.  FlowSpec.v spells out the cases. *)
Theorem C16_and : forall w pg l r bc below s room L a,
  runnable w pg (script_of (EBinary BLogicalAnd l r)) bc below s room -> enough <= room ->
  evaluates w pg (top_scene room 0) 0 l (MeaningSpec.start s) L ->
  logical false L (fun m x => evaluates w pg (top_scene room 0) (fns l) r m x) a ->
  agrees below (fun n => runtime_run w n bc s) a.
Proof. exact (fun w pg => logical_runs w pg true). Qed.
Print Assumptions C16_and.
Theorem C16_or : forall w pg l r bc below s room L a,
  runnable w pg (script_of (EBinary BLogicalOr l r)) bc below s room -> enough <= room ->
  evaluates w pg (top_scene room 0) 0 l (MeaningSpec.start s) L ->
  logical true L (fun m x => evaluates w pg (top_scene room 0) (fns l) r m x) a ->
  agrees below (fun n => runtime_run w n bc s) a.
Proof. exact (fun w pg => logical_runs w pg false). Qed.
Print Assumptions C16_or.
Theorem C16_coalesce : forall w pg l r bc below s room L a,
  runnable w pg (script_of (EBinary BCoalesce l r)) bc below s room -> enough <= room ->
  evaluates w pg (top_scene room 0) 0 l (MeaningSpec.start s) L ->
  coalesced L (fun m x => evaluates w pg (top_scene room 0) (fns l) r m x) a ->
  agrees below (fun n => runtime_run w n bc s) a.
Proof. exact coalesce_runs. Qed.
Print Assumptions C16_coalesce.
(** The same wherever the operators stand, in the meaning of a program that C14 is about. *)
Theorem C16_anywhere : forall w pg S k l r m L a, enough <= s_room S -> evaluates w pg (inner S) k l m L ->
  (logical false L (fun m x => evaluates w pg (inner S) (k + fns l) r m x) a -> evaluates w pg S k (EBinary BLogicalAnd l r) m a) /\
  (logical true L (fun m x => evaluates w pg (inner S) (k + fns l) r m x) a -> evaluates w pg S k (EBinary BLogicalOr l r) m a) /\
  (coalesced L (fun m x => evaluates w pg (inner S) (k + fns l) r m x) a -> evaluates w pg S k (EBinary BCoalesce l r) m a).
Proof. exact short_circuits_anywhere. Qed.
Print Assumptions C16_anywhere.
(** 1 < 0 && nope: the left operand decides, and nope, which is not defined, is not evaluated. *)
Example C16_nonvacuous : runnable sample_world (solo and_sample) (parsed and_sample) (coded and_sample) [] new_vm 200 /\
  parsed and_sample = script_of (EBinary BLogicalAnd (left_of and_sample) (ELitIdent "nope")) /\
  exists m, evaluates sample_world (solo and_sample) (top_scene 200 0) 0 (left_of and_sample) (MeaningSpec.start new_vm) (AVal (VBool false) m) /\
    logical false (AVal (VBool false) m) (fun m x => evaluates sample_world (solo and_sample) (top_scene 200 0) 0 (ELitIdent "nope") m x) (AVal (VBool false) m).
Proof. exact and_sample_ok. Qed.
Example C16_coalesce_nonvacuous : runnable sample_world (solo coalesce_sample) (parsed coalesce_sample) (coded coalesce_sample) [] new_vm 200 /\
  parsed coalesce_sample = script_of (EBinary BCoalesce (left_of coalesce_sample) (ELitInt 7)) /\
  exists m m', evaluates sample_world (solo coalesce_sample) (top_scene 200 0) 0 (left_of coalesce_sample) (MeaningSpec.start new_vm) (AVal VNull m) /\
    coalesced (AVal VNull m) (fun m x => evaluates sample_world (solo coalesce_sample) (top_scene 200 0) 0 (ELitInt 7) m x) (AVal (VInt 7) m').
Proof. exact coalesce_sample_ok. Qed.
