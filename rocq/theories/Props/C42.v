(** Property C42: the methods of arrays. *)
From Verif.Spec Require Import ArraySpec.
From Verif.Proofs Require Import ArrayMethodP FlowSampleP ArraySampleP.
#[local] Open Scope string_scope.
#[local] Open Scope list_scope.
#[local] Open Scope nat_scope.

(** * C42: push, pop, length, first, map, filter and iter
    a.push(x): x is appended to a; nothing else changes. *)
Theorem C42_push : forall w n below temps a vs x s, fits below temps 2 -> elements (vm_heap s) a = Some vs -> unborrowed (vm_heap s) a ->
  exists s', answers w (S n) below temps (method_of a NArrayPush) [x] s VUnit s' /\ elements_become a (vs ++ [x]) s s'.
Proof. exact array_push_method. Qed.
Print Assumptions C42_push.
(** a.pop(): the last element is removed and returned; unit if there is none. *)
Theorem C42_pop : forall w n below temps a vs x s, fits below temps 1 -> elements (vm_heap s) a = Some (vs ++ [x]) -> unborrowed (vm_heap s) a ->
  exists s', answers w (S n) below temps (method_of a NArrayPop) [] s x s' /\ elements_become a vs s s'.
Proof. exact array_pop_method. Qed.
Print Assumptions C42_pop.
Theorem C42_pop_empty : forall w n below temps a s, fits below temps 1 -> elements (vm_heap s) a = Some [] -> unborrowed (vm_heap s) a ->
  exists s', answers w (S n) below temps (method_of a NArrayPop) [] s VUnit s' /\ elements_become a [] s s'.
Proof. exact array_pop_empty. Qed.
Print Assumptions C42_pop_empty.
(** a.length(). *)
Theorem C42_length : forall w n below temps a vs s, fits below temps 1 -> elements (vm_heap s) a = Some vs ->
  answers w (S n) below temps (method_of a NArrayLength) [] s (VInt (Z.of_nat (List.length vs))) s.
Proof. exact array_length_method. Qed.
Print Assumptions C42_length.
(** a.map(f): f is called for each element in order; the results are the elements of a new array.  What the calls
    do to the state is kept; otherwise only the new array is added. *)
Theorem C42_map : forall w n below temps a vs f s s1 ys s2, fits below temps 2 -> elements (vm_heap s) a = Some vs -> starts_reading a s s1 ->
  in_turn (answers_with w n below temps f) vs s1 ys s2 -> a < List.length (h_arrays (vm_heap s2)) ->
  exists s3 v s', answers w (S n) below temps (method_of a NArrayMap) [f] s v s' /\ stops_reading a s2 s3 /\ new_array_of ys s3 v s'.
Proof. exact array_map_method. Qed.
Print Assumptions C42_map.
(** a.filter(f): the same with the elements for which f answers true. *)
Theorem C42_filter : forall w n below temps a vs f s s1 ys s2, fits below temps 2 -> elements (vm_heap s) a = Some vs -> starts_reading a s s1 ->
  in_turn (answers_with w n below temps f) vs s1 ys s2 -> a < List.length (h_arrays (vm_heap s2)) ->
  exists s3 v s', answers w (S n) below temps (method_of a NArrayFilter) [f] s v s' /\ stops_reading a s2 s3 /\ new_array_of (chosen vs ys) s3 v s'.
Proof. exact array_filter_method. Qed.
Print Assumptions C42_filter.
(** a.first(f): the first element for which f answers true, or null; f is not called any more after that.
    a.first(): the first element, or null. *)
Theorem C42_first_such : forall w n below temps a vs f s s1 r s2, fits below temps 2 -> elements (vm_heap s) a = Some vs -> starts_reading a s s1 ->
  until_true (answers_with w n below temps f) vs s1 r s2 -> a < List.length (h_arrays (vm_heap s2)) ->
  exists s', answers w (S n) below temps (method_of a NArrayFirst) [f] s (match r with Some v => v | None => VNull end) s' /\ stops_reading a s2 s'.
Proof. exact array_first_method. Qed.
Print Assumptions C42_first_such.
Theorem C42_first : forall w n below temps a vs s, fits below temps 1 -> elements (vm_heap s) a = Some vs ->
  answers w (S n) below temps (method_of a NArrayFirst) [] s (nth 0 vs VNull) s.
Proof. exact array_first_plain. Qed.
Print Assumptions C42_first.
(** a.iter(): an object whose next yields the elements in order and then is done, whatever is done in between to
    other arrays and other iterators. *)
Theorem C42_iter : forall w n below temps a vs s, fits below temps 1 -> elements (vm_heap s) a = Some vs ->
  exists o c s', answers w (S n) below temps (method_of a NArrayIter) [] s (VObject o) s' /\
    field (vm_heap s') o "next" = Some (VFnNative (NArrayNext c)) /\ h_arrays (vm_heap s') = h_arrays (vm_heap s) /\
    forall s'', undisturbed a c s' s'' -> yields w a c vs s''.
Proof. exact array_iter_yields. Qed.
Print Assumptions C42_iter.

(** An array of four values, and Bool's constructor called for each of them. *)
Example C42_nonvacuous : forall w n below temps s, fits below temps 2 -> exists s0 a s1, elements (vm_heap s0) a = Some four_words /\ unborrowed (vm_heap s0) a /\ starts_reading a s0 s1 /\
  in_turn (answers_with w (S n) below temps (VFnNative NBoolNew)) four_words s1 [VBool true; VNull; VBool false; VBool true] s1 /\ a < List.length (h_arrays (vm_heap s1)) /\
  chosen four_words [VBool true; VNull; VBool false; VBool true] = [VString "true"; VBool true] /\ s0 = with_array four_words s.
Proof. exact words_sample. Qed.
Example C42_first_nonvacuous : forall w n below temps s, fits below temps 2 ->
  until_true (answers_with w (S n) below temps (VFnNative NBoolNew)) (tl four_words) s (Some (VBool true)) s.
Proof. exact words_until. Qed.
(** The names of the methods, on an array of a new runtime; and a script using them. *)
Example C42_names : map (fun m => value_of (get_field (fst m) (VArray 0) (with_array four_words new_vm))) array_names = map (fun m => Some (method_of 0 (snd m))) array_names.
Proof. exact names_ok. Qed.
Example C42_script : value_of (run_of sample_world methods_script) = Some (VInt 5724).
Proof. exact methods_ok. Qed.

(** A function that fails, given to map: the failure is not seen, and what the failed call had put on the stack
    stays there, which a debug build's check turns into a panic. *)
Theorem C42_failing_function_refuted :
  panics (run_of sample_world failing_function) = true /\
  value_of (run_of release_world failing_function) = Some (VInt 2) /\ height_of (run_of release_world failing_function) = Some 6.
Proof. split; [|split]; vm_compute; reflexivity. Qed.
Print Assumptions C42_failing_function_refuted.
(** A function that changes the array it is called for makes the program panic. *)
Theorem C42_push_while_mapping_refuted : panics (run_of sample_world push_while_mapping) = true /\ panics (run_of release_world push_while_mapping) = true.
Proof. split; vm_compute; reflexivity. Qed.
Print Assumptions C42_push_while_mapping_refuted.
