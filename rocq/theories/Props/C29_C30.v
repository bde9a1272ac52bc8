(** Properties C29 and C30: arrays and fields. *)
From Verif.Spec Require Import VmSpec ClassSpec StoreSpec VmHistory.
From Verif.Proofs Require Import ClassP StoreP SampleP HostP ChangeP.

(** C29. *)
Theorem C29_read : forall w r bc fr ups p below temps a i vs s,
  elements (vm_heap s) a = Some vs -> fits below temps 2 ->
  step w r bc fr ups (INone OpLoadIndex) p (with_stack below (VInt i :: VArray a :: temps) s)
  = ROk (Continue p) (with_stack below
      ((if (0 <=? i)%Z then match nth_error vs (Z.to_nat i) with Some v => v | None => VNull end else VNull) :: temps) s).
Proof. exact step_load_index. Qed.
Print Assumptions C29_read.
(** [a[i] = x] ([assign]: the form whose value is unit) and the other store. *)
Theorem C29_write : forall w r bc fr ups p (assign : bool) below temps a i x vs s,
  elements (vm_heap s) a = Some vs -> unborrowed (vm_heap s) a -> (0 <= i < Z.of_nat (List.length vs))%Z -> fits below temps 3 ->
  exists h', step w r bc fr ups (INone (if assign then OpAssignIndex else OpStoreIndex)) p
               (with_stack below (x :: VInt i :: VArray a :: temps) s)
    = ROk (Continue p) (with_stack below ((if assign then VUnit else x) :: temps) (set_heap h' s)) /\
    (forall a', elements h' a' = if Nat.eqb a' a then Some (set_nth vs (Z.to_nat i) x) else elements (vm_heap s) a') /\
    h_fields h' = h_fields (vm_heap s) /\ h_objects h' = h_objects (vm_heap s) /\ h_classes h' = h_classes (vm_heap s) /\
    h_closures h' = h_closures (vm_heap s) /\ h_upvalues h' = h_upvalues (vm_heap s).
Proof. exact step_write_index. Qed.
Print Assumptions C29_write.
(** [set_nth] is replacement at one position. *)
Theorem C29_set_nth : forall (vs : list value) i x j, i < List.length vs ->
  List.length (set_nth vs i x) = List.length vs /\
  nth_error (set_nth vs i x) j = if Nat.eqb j i then Some x else nth_error vs j.
Proof. exact set_nth_spec. Qed.
Print Assumptions C29_set_nth.
(** Out of range: a panic, nothing stored. *)
Theorem C29_write_out_of_range : forall w r bc fr ups p (assign : bool) below temps a i x vs s,
  elements (vm_heap s) a = Some vs -> (i < 0 \/ Z.of_nat (List.length vs) <= i)%Z -> fits below temps 3 ->
  step w r bc fr ups (INone (if assign then OpAssignIndex else OpStoreIndex)) p
    (with_stack below (x :: VInt i :: VArray a :: temps) s) = RPanic.
Proof. exact step_write_index_out. Qed.
Print Assumptions C29_write_out_of_range.
(** Every execution is a sequence of elementary changes (VmHistory.v); each of them leaves the elements of a given array as
    they are, or is an update of that very array and of nothing else.  Partial: that the updates come from stores to an
    index, push and pop only is not stated; what these do is said above and in C42. *)
Theorem C29_no_other_change_partial : forall w s a, (forall s', executes w s s' -> vm_steps s s') /\
  forall s', vm_change s s' -> a < List.length (h_arrays (vm_heap s)) ->
    elements (vm_heap s') a = elements (vm_heap s) a \/ exists vs, array_update a vs (vm_heap s) = Ok (vm_heap s').
Proof. exact array_changes. Qed.
Print Assumptions C29_no_other_change_partial.
Example C29_nonvacuous :
  let h := hset_arrays [MkArray [VInt 1; VInt 2] 0 0; MkArray [VInt 3] 0 0] heap_empty in
  elements h 1 = Some [VInt 3] /\ unborrowed h 0 /\ (0 <= 1 < Z.of_nat (List.length [VInt 1; VInt 2]))%Z.
Proof. cbv zeta. split; [reflexivity|]. split; [exists (MkArray [VInt 1; VInt 2] 0 0); auto|cbn; lia]. Qed.

(** C30.  After any sequence of field stores on instances, in any reachable state, every field of every
    object holds the last value stored there, or what it held before. *)
Theorem C30_last_store_wins : forall w s l s', reachable w s -> field_stores s l s' ->
  (forall o name x, In (o, name, x) l -> exists c, has_class s (VObject o) c) ->
  forall o name, field (vm_heap s') o name = last_store o name l (field (vm_heap s) o name).
Proof. exact field_stores_reachable. Qed.
Print Assumptions C30_last_store_wins.
(** A store is possible on every instance. *)
Theorem C30_store : forall w r bc fr ups op c p name below temps x o s, reachable w s ->
  (op = OpStoreField \/ op = OpAssignField) -> nth_error (bc_constants bc) c = Some (CSymbol name) ->
  (exists k, has_class s (VObject o) k) -> fits below temps 2 ->
  exists h', step w r bc fr ups (IByte op c) p (with_stack below (x :: VObject o :: temps) s)
    = ROk (Continue p) (with_stack below (match op with OpStoreField => x | _ => VUnit end :: temps) (set_heap h' s)) /\
    forall o' name', field h' o' name' = if (Nat.eqb o' o && String.eqb name' name)%bool then Some x
                                         else field (vm_heap s) o' name'.
Proof. exact step_store_field_reachable. Qed.
Print Assumptions C30_store.
(** Reading a field: the object's own field, else (unless the name is [new]) the bound method of its class,
    else null. *)
Theorem C30_read : forall w r bc fr ups p c name below temps v s,
  nth_error (bc_constants bc) c = Some (CSymbol name) ->
  reachable w s -> live (vm_heap s) v -> fits below temps 1 ->
  let result := step w r bc fr ups (IByte OpLoadField c) p (with_stack below (v :: temps) s) in
  let yields x := result = ROk (Continue p) (with_stack below (x :: temps) s) in
  match own_field (vm_heap s) v name with
  | Some x => yields x
  | None =>
      if String.eqb name "new"
      then result = RErr NEW_FUNCTION_CANNOT_BE_ACCESS_DIRECTLY (with_stack below temps s)
      else (exists k m, has_class s v k /\ method (vm_heap s) k name = Some m /\ yields (VFnBound v m)) \/
           ((forall k, has_class s v k -> method (vm_heap s) k name = None) /\ yields VNull)
  end.
Proof. exact (fun w r bc fr ups p c name below temps v s Ec R =>
  step_load_field w r bc fr ups p c name below temps v s Ec (reachable_state w s R)). Qed.
Print Assumptions C30_read.
(** Each of the elementary changes that executions consist of leaves a given field of a given instance as it is, or is a
    store to that field of that object.  Partial: which instructions make these stores is not stated. *)
Theorem C30_no_other_change_partial : forall w s o n, reachable w s -> (exists c, has_class s (VObject o) c) ->
  (forall s', executes w s s' -> vm_steps s s') /\
  forall s', vm_change s s' -> field (vm_heap s') o n = field (vm_heap s) o n \/ exists x, object_set_field o n x (vm_heap s) = Ok (vm_heap s').
Proof. exact field_changes. Qed.
Print Assumptions C30_no_other_change_partial.
Example C30_nonvacuous :
  last_store 3 "a" [(3, "a", VInt 1); (3, "b", VInt 2); (4, "a", VInt 3); (3, "a", VInt 4)]%string None = Some (VInt 4).
Proof. reflexivity. Qed.
(** { let a = {}; let b = {x: 7}; a.x = 1; a.x = 2; [a.x, b.x, a.y] } yields [2, 7, null]. *)
Example C30_program :
  match dice_run sample_world 50 field_program new_vm with
  | ROk (VArray a) s => elements (vm_heap s) a = Some [VInt 2; VInt 7; VNull]
  | _ => False
  end.
Proof. vm_compute. reflexivity. Qed.
