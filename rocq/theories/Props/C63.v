(** Property C63: the interactive tool reads entries and runs them one after the other. *)
From Verif.Model Require Import Cli.
From Verif.Spec Require Import VmSpec StoreSpec LexSpec ParseSpec MeaningSpec CliSpec.
From Verif.Proofs Require Import CliP CliRunP FlowSampleP HostClassP.
#[local] Open Scope string_scope.
#[local] Open Scope list_scope.
#[local] Open Scope nat_scope.

(** Before the first entry the prelude is loaded and [print] and [panic] are the tool's functions; every other name the prelude exports is
    global, and no global that was there is replaced.  ([s1] is the runtime after the code of the prelude, [x] what that code gives back.) *)
Theorem C63_start : forall w n print panic s s', startup w n print panic s = ROk tt s' ->
  exists o x s1, assoc_get "prelude.dm" (vm_modules s') = Some (VObject o) /\ vm_heap s' = vm_heap s1 /\
    (forall name v, assoc_get name (vm_globals s) = Some v -> assoc_get name (vm_globals s1) = Some v) /\
    assoc_get "print" (vm_globals s') = Some print /\ assoc_get "panic" (vm_globals s') = Some panic /\
    forall name, name <> "print" -> name <> "panic" ->
      assoc_get name (vm_globals s') = match assoc_get name (vm_globals s1) with Some v => Some v | None => own_field (vm_heap s') x name end.
Proof. exact tool_starts. Qed.
Print Assumptions C63_start.
Example C63_start_nonvacuous : exists s', startup answer_world 100 VUnit VNull new_vm = ROk tt s'.
Proof. exact answer_starts. Qed.
(** Entries that are typed one after the other are run as their lines without the white space at their ends, in order, each on
    the runtime the one before left, whether that one gave a value or an error; the rest of the input is not touched. *)
Theorem C63_entries_in_order : forall w fuel es ts s rest, Forall2 entry es ts ->
  repl w fuel (List.length es) s (flat_map typed es ++ rest) = one_by_one w fuel ts s rest.
Proof. exact session_runs. Qed.
Print Assumptions C63_entries_in_order.
(** The last line of the input needs no newline. *)
Theorem C63_last_line : forall ls l t, entry (ls ++ [l]) t -> read_entry (typed ls ++ l) = (t, []).
Proof. exact last_entry_read. Qed.
Print Assumptions C63_last_line.
(** Three entries; a space and a carriage return follow the first, the second fails, the last has a comment that is continued. *)
Example C63_nonvacuous :
  let es := [[chars "1 + 1 " ++ [13%N]]; [chars "nope"]; [chars "3 // three \ "; chars "* 2"]] in
  Forall2 entry es [chars "1 + 1" ++ [10%N]; chars "nope" ++ [10%N]; chars "3 // three \" ++ [10%N] ++ chars "* 2" ++ [10%N]] /\
  fst (repl sample_world 100 3 new_vm (flat_map typed es)) = [PResult (VInt 2); PError GLOBAL_VARIABLE_UNDEFINED; PResult (VInt 6)].
Proof. exact entries_sample. Qed.

(** Entries that have a meaning print it: their value, the error they end with, or the tool is gone with a panic.  A text that is not
    accepted prints its error and changes nothing. *)
Theorem C63_entries_mean : forall w es ts s out alive rest, natives_blind w -> ready [] s -> Forall2 entry es ts -> dialogue w ts s out alive ->
  exists n0, forall fuel, n0 <= fuel -> exists last, repl w fuel (List.length es) s (flat_map typed es ++ rest) = (out, last) /\
    if alive then exists s', last = Waiting s' rest else last = Crashed.
Proof. exact dialogue_shown. Qed.
Print Assumptions C63_entries_mean.
Example C63_entries_mean_nonvacuous :
  let es := [[chars "2"]; [chars "let 3"]; [chars "nope"]] in
  let ts := [chars "2" ++ [10%N]; chars "let 3" ++ [10%N]; chars "nope" ++ [10%N]] in
  Forall2 entry es ts /\ dialogue sample_world ts new_vm [PResult (VInt 2); PError UNEXPECTED_TOKEN; PError GLOBAL_VARIABLE_UNDEFINED] true.
Proof. exact dialogue_sample. Qed.

(** A backslash at the end of a line continues an entry, but it stays in the text.  Refuted: a line can be continued.  Where the
    backslash is the only one and not in a comment, the entry is not accepted: it ends with an error or a panic. *)
Theorem C63_continuation_refuted : forall a b, no_backslash a -> no_backslash b -> outside_comment a ->
  braces_match (tokenize (a ++ chars "\" ++ 10%N :: b)) -> forall e, parse (a ++ chars "\" ++ 10%N :: b) <> Ok e.
Proof. exact continued_refused. Qed.
Print Assumptions C63_continuation_refuted.
(** "1 + \" and "2" end the tool. *)
Example C63_continuation_nonvacuous :
  let t := chars "1 + " ++ chars "\" ++ 10%N :: chars "2" ++ [10%N] in
  entry [chars "1 + \"; chars "2"] t /\ no_backslash (chars "1 + ") /\ no_backslash (chars "2" ++ [10%N]) /\ outside_comment (chars "1 + ") /\ braces_match (tokenize t) /\
  snd (repl sample_world 100 1 new_vm (typed [chars "1 + \"; chars "2"])) = Crashed.
Proof. exact continuation_sample. Qed.

(** Refuted: the tool ends with its input.  At the end of the input it goes on to run the empty script and to print its value. *)
Theorem C63_ends_with_the_input_refuted : forall w n, natives_blind w -> forall s, ready [] s ->
  exists n0 s', (forall fuel, n0 <= fuel -> repl w fuel n s [] = (repeat (PResult VUnit) n, Waiting s' [])) /\ same_store s s' /\ ready [] s'.
Proof. exact end_never. Qed.
Print Assumptions C63_ends_with_the_input_refuted.
Example C63_end_nonvacuous : natives_blind sample_world /\ ready [] new_vm.
Proof. exact (conj sample_blind new_vm_ready). Qed.

(** Refuted: mistakes at the console do no harm.  Each entry that fails while it has a variable leaves a stack cell in use (C41);
    when all cells but one are in use, the next entry with a variable ends the tool (debug build), however good it is. *)
Theorem C63_mistakes_do_no_harm_refuted : forall w fuel s k l t bc rest, w_dbg w = true -> assoc_get "nope" (vm_globals s) = None -> k + 1 = max_stack_size ->
  entry l t -> compile_source KScript t = Ok bc -> 0 < bc_slot_count bc ->
  repl w (5 + fuel) (k + 1) (with_stack [] [] s) (flat_map typed (repeat [chars "let x = null nope"] k ++ [l]) ++ rest) = (repeat (PError GLOBAL_VARIABLE_UNDEFINED) k, Crashed).
Proof. exact mistakes_end. Qed.
Print Assumptions C63_mistakes_do_no_harm_refuted.
Example C63_mistakes_nonvacuous : w_dbg sample_world = true /\ assoc_get "nope" (vm_globals new_vm) = None /\ new_vm = with_stack [] [] new_vm /\
  entry [chars "let y = 1 y"] (chars "let y = 1 y" ++ [10%N]) /\ exists bc, compile_source KScript (chars "let y = 1 y" ++ [10%N]) = Ok bc /\ 0 < bc_slot_count bc.
Proof. exact mistakes_sample. Qed.
