(** Vocabulary for the methods of arrays. *)
From Verif.Spec Require Export StoreSpec.
#[local] Open Scope string_scope.
#[local] Open Scope list_scope.
#[local] Open Scope nat_scope.

(** Calling [f] with [args] in state [s], on the stack [below], [temps], leaves [v] on that stack and ends in [s']. *)
Definition answers (w : world) (n : nat) (below temps : list value) (f : value) (args : list value) (s : vm) (v : value) (s' : vm) : Prop :=
  r_call (machine w n) (List.length args) (with_stack below (rev args ++ f :: temps) s) = ROk tt (with_stack below (v :: temps) s').

(** The same with one argument, as a relation between that argument and the result. *)
Definition answers_with (w : world) (n : nat) (below temps : list value) (f v : value) (s : vm) (y : value) (s' : vm) : Prop :=
  answers w n below temps f [v] s y s'.

(** A method of array [a]: what the field of that name yields. *)
Definition method_of (a : nat) (n : native) : value := VFnBound (VArray a) (VFnNative n).

(** [s'] is [s] but for the elements of array [a], now [vs]. *)
Definition elements_become (a : nat) (vs : list value) (s s' : vm) : Prop :=
  (exists arrays, s' = set_heap (hset_arrays arrays (vm_heap s)) s) /\
  List.length (h_arrays (vm_heap s')) = List.length (h_arrays (vm_heap s)) /\
  elements (vm_heap s') a = Some vs /\
  (forall b, b <> a -> nth_error (h_arrays (vm_heap s')) b = nth_error (h_arrays (vm_heap s)) b) /\
  (unborrowed (vm_heap s) a -> unborrowed (vm_heap s') a).

(** How many methods are going through the elements of [a]; they cannot be changed while that is not zero. *)
Definition readers (h : heap) (a : nat) : nat := match nth_error (h_arrays h) a with Some ar => ar_borrows ar | None => 0 end.
(** [s'] is [s] with one more method going through the elements of [a]. *)
Definition starts_reading (a : nat) (s s' : vm) : Prop :=
  (exists arrays, s' = set_heap (hset_arrays arrays (vm_heap s)) s) /\
  List.length (h_arrays (vm_heap s')) = List.length (h_arrays (vm_heap s)) /\
  readers (vm_heap s') a = S (readers (vm_heap s) a) /\
  (forall b, b <> a -> nth_error (h_arrays (vm_heap s')) b = nth_error (h_arrays (vm_heap s)) b) /\
  option_map (fun ar => (ar_elements ar, ar_object ar)) (nth_error (h_arrays (vm_heap s')) a) =
  option_map (fun ar => (ar_elements ar, ar_object ar)) (nth_error (h_arrays (vm_heap s)) a).

(** The calls for the elements, one after the other. *)
Inductive in_turn (call : value -> vm -> value -> vm -> Prop) : list value -> vm -> list value -> vm -> Prop :=
| it_none s : in_turn call [] s [] s
| it_call v vs s y s1 ys s2 : call v s y s1 -> in_turn call vs s1 ys s2 -> in_turn call (v :: vs) s (y :: ys) s2.

(** The elements whose call answered true. *)
Fixpoint chosen (vs ys : list value) : list value :=
  match vs, ys with
  | v :: vs, VBool true :: ys => v :: chosen vs ys
  | _ :: vs, _ :: ys => chosen vs ys
  | _, _ => []
  end.

(** Up to the first call that answered true: the calls made, and the element. *)
Inductive until_true (call : value -> vm -> value -> vm -> Prop) : list value -> vm -> option value -> vm -> Prop :=
| ut_none s : until_true call [] s None s
| ut_found v vs s s1 : call v s (VBool true) s1 -> until_true call (v :: vs) s (Some v) s1
| ut_next v vs s y s1 r s2 : call v s y s1 -> y <> VBool true -> until_true call vs s1 r s2 -> until_true call (v :: vs) s r s2.

(** [s'] is [s2] with one method less going through the elements of [a]. *)
Definition stops_reading (a : nat) (s2 s' : vm) : Prop :=
  (exists arrays, s' = set_heap (hset_arrays arrays (vm_heap s2)) s2) /\
  List.length (h_arrays (vm_heap s')) = List.length (h_arrays (vm_heap s2)) /\
  (forall b, elements (vm_heap s') b = elements (vm_heap s2) b) /\
  (forall b, readers (vm_heap s') b = if Nat.eqb b a then pred (readers (vm_heap s2) b) else readers (vm_heap s2) b).
(** [s'] is [s2] with a new array holding [vs]; the arrays that there were are as they were. *)
Definition new_array_of (vs : list value) (s2 : vm) (v : value) (s' : vm) : Prop :=
  v = VArray (List.length (h_arrays (vm_heap s2))) /\
  elements (vm_heap s') (List.length (h_arrays (vm_heap s2))) = Some vs /\
  (forall b, b < List.length (h_arrays (vm_heap s2)) -> nth_error (h_arrays (vm_heap s')) b = nth_error (h_arrays (vm_heap s2)) b) /\
  (exists h, s' = set_heap h s2 /\ firstn (List.length (h_objects (vm_heap s2))) (h_objects h) = h_objects (vm_heap s2) /\
     firstn (List.length (h_fields (vm_heap s2))) (h_fields h) = h_fields (vm_heap s2) /\
     (h_classes h, h_closures h, h_upvalues h, h_iters h) = (h_classes (vm_heap s2), h_closures (vm_heap s2), h_upvalues (vm_heap s2), h_iters (vm_heap s2))).

(** Iterator number [c] is at position [i] of array [a]. *)
Definition iter_at (s : vm) (c a i : nat) : Prop := nth_error (h_iters (vm_heap s)) c = Some (a, i).
(** Iterator [next], of array [a] and number [c], yields [vs] and then stops, whatever happens in between that
    leaves the array and the iterator alone. *)
Definition undisturbed (a c : nat) (s s' : vm) : Prop :=
  elements (vm_heap s') a = elements (vm_heap s) a /\ nth_error (h_iters (vm_heap s')) c = nth_error (h_iters (vm_heap s)) c.
Inductive yields (w : world) (a c : nat) : list value -> vm -> Prop :=
| yl_done s : (forall n below temps, fits below temps 1 -> exists o s',
      answers w (S n) below temps (VFnNative (NArrayNext c)) [] s (VObject o) s' /\ field (vm_heap s') o "is_done" = Some (VBool true)) ->
    yields w a c [] s
| yl_next v vs s : (forall n below temps, fits below temps 1 -> exists o s',
      answers w (S n) below temps (VFnNative (NArrayNext c)) [] s (VObject o) s' /\
      field (vm_heap s') o "is_done" = Some (VBool false) /\ field (vm_heap s') o "value" = Some v /\
      (forall s'', undisturbed a c s' s'' -> yields w a c vs s'')) ->
    yields w a c (v :: vs) s.
