(** Properties C25-C28: classes, methods, static fields, type annotations. *)
From Verif.Spec Require Import VmSpec ClassSpec StoreSpec VmHistory DefinitionSpec.
From Verif.Proofs Require Import ClassP StoreP SampleP HostP HostClassP DefinitionP FlowSampleP DefinitionSampleP.

(** C25.  [x is C] in any reachable state. *)
Theorem C25_is_tests_the_hierarchy : forall w r bc fr ups p below temps v d s,
  reachable w s -> live (vm_heap s) v -> d < List.length (h_classes (vm_heap s)) -> fits below temps 2 ->
  exists x, step w r bc fr ups (INone OpIs) p (with_stack below (VClass d :: v :: temps) s)
            = ROk (Continue p) (with_stack below (VBool x :: temps) s) /\ (x = true <-> instance_of s v d).
Proof. exact (fun w r bc fr ups p below temps v d s R => step_is w r bc fr ups p below temps v d s (reachable_state w s R)). Qed.
Print Assumptions C25_is_tests_the_hierarchy.
Theorem C25_reflexive : forall h c, c < List.length (h_classes h) -> derives h c c.
Proof. exact derives_refl. Qed.
Print Assumptions C25_reflexive.
Theorem C25_transitive : forall h a b c, derives h a b -> derives h b c -> derives h a c.
Proof. exact derives_trans. Qed.
Print Assumptions C25_transitive.
Theorem C25_antisymmetric : forall w s a b, reachable w s ->
  derives (vm_heap s) a b -> derives (vm_heap s) b a -> a = b.
Proof. exact (fun w s a b R => derives_antisym (vm_heap s) a b (reachable_inv w s R)). Qed.
Print Assumptions C25_antisymmetric.
Theorem C25_unaffected_by_later_execution : forall w s s' c d, reachable w s -> executes w s s' ->
  c < List.length (h_classes (vm_heap s)) -> (derives (vm_heap s') c d <-> derives (vm_heap s) c d).
Proof. exact derives_stable. Qed.
Print Assumptions C25_unaffected_by_later_execution.
Theorem C25_class_of_a_value_is_fixed : forall w s s' v c, executes w s s' -> live (vm_heap s) v ->
  (has_class s' v c <-> has_class s v c).
Proof. exact has_class_stable. Qed.
Print Assumptions C25_class_of_a_value_is_fixed.
(** In a new runtime the class Module (1) derives from Any (0) and not conversely. *)
Example C25_nonvacuous : derives (vm_heap new_vm) 1 0 /\ ~ derives (vm_heap new_vm) 0 1.
Proof.
  assert (K : match nth_error (h_classes (vm_heap new_vm)) 1 with Some k => cl_base k | None => None end = Some 0) by (vm_compute; reflexivity).
  assert (D : derives (vm_heap new_vm) 1 0).
  { destruct (nth_error (h_classes (vm_heap new_vm)) 1) as [k|] eqn:E; [|discriminate].
    eapply derives_base; [exact E|exact K|]. apply derives_self. apply nth_error_lt in E. lia. }
  split; [exact D|]. intros D'. pose proof (derives_antisym _ _ _ (reachable_inv sample_world _ (new_vm_reachable _)) D D'). discriminate.
Qed.

(** C26.  Deriving a class: a new class (the next index), derived from the base, with the base's methods
    except [new]; the methods of all existing classes stay. *)
Theorem C26_derivation : forall w r bc fr ups c p below temps base s s' name,
  nth_error (bc_constants bc) c = Some (CSymbol name) -> fits below temps 1 ->
  step w r bc fr ups (IByte OpInheritClass c) p (with_stack below (VClass base :: temps) s) = ROk (Continue p) s' ->
  exists h', s' = with_stack below (VClass (List.length (h_classes (vm_heap s))) :: temps) (set_heap h' s) /\
    derives h' (List.length (h_classes (vm_heap s))) base /\
    (forall m, method h' (List.length (h_classes (vm_heap s))) m
               = if String.eqb m "new" then None else method (vm_heap s) base m) /\
    (forall d m, d < List.length (h_classes (vm_heap s)) -> method h' d m = method (vm_heap s) d m).
Proof. exact step_inherit_methods. Qed.
Print Assumptions C26_derivation.
(** A class that the host makes derives from Any and has its methods; no other class changes. *)
Theorem C26_host_class : forall w s name, reachable w s ->
  exists h', new_class name s = ROk (VClass (List.length (h_classes (vm_heap s)))) (set_heap h' s) /\
    derives h' (List.length (h_classes (vm_heap s))) (vm_any s) /\
    (forall m, method h' (List.length (h_classes (vm_heap s))) m = if String.eqb m "new" then None else method (vm_heap s) (vm_any s) m) /\
    (forall d m, d < List.length (h_classes (vm_heap s)) -> method h' d m = method (vm_heap s) d m).
Proof. exact host_class. Qed.
Print Assumptions C26_host_class.
Example C26_host_class_nonvacuous : reachable sample_world new_vm /\ method (vm_heap new_vm) (vm_any new_vm) "to_string" <> None.
Proof. split; [exact (new_vm_reachable sample_world)|]. vm_compute. discriminate. Qed.
(** An object that the host makes is a new one, of class Any. *)
Theorem C25_host_object : forall s, exists o h', new_object s = ROk (VObject o) (set_heap h' s) /\ o = List.length (h_objects (vm_heap s)) /\
  has_class (set_heap h' s) (VObject o) (vm_any s) /\
  (forall p x, nth_error (h_objects (vm_heap s)) p = Some x -> nth_error (h_objects h') p = Some x).
Proof. exact host_object. Qed.
Print Assumptions C25_host_object.
(** Defining a method changes that method of that class and nothing else. *)
Theorem C26_definition : forall w r bc fr ups c p below temps d f s name,
  nth_error (bc_constants bc) c = Some (CSymbol name) -> fits below temps 2 ->
  d < List.length (h_classes (vm_heap s)) -> kind f = KdFunction ->
  exists h', step w r bc fr ups (IByte OpStoreMethod c) p (with_stack below (f :: VClass d :: temps) s)
             = ROk (Continue p) (with_stack below temps (set_heap h' s)) /\
    forall d' n, method h' d' n = if (Nat.eqb d' d && String.eqb n name)%bool then Some f else method (vm_heap s) d' n.
Proof. exact step_store_method_spec. Qed.
Print Assumptions C26_definition.
(** Nothing else changes methods.  [without n]: the interpreter that stops where an instruction defining a method called
    [n] would be executed (DefinitionSpec.v).  A run that does not come to such an instruction is the same with it, and no
    class that was there before has another method called [n] after it. *)
Theorem C26_no_other_change : forall w fuel n bc s,
  (run_script w (without n w fuel) bc s = RNoFuel \/ run_script w (without n w fuel) bc s = runtime_run w fuel bc s) /\
  forall s' c, final_state (run_script w (without n w fuel) bc s) = Some s' -> c < List.length (h_classes (vm_heap s)) ->
    method (vm_heap s') c n = method (vm_heap s) c n.
Proof. exact only_definitions. Qed.
Print Assumptions C26_no_other_change.
(** The same for a call of a function by the host. *)
Theorem C26_no_other_change_by_calls : forall w fuel n args s,
  (r_call (without n w fuel) args s = RNoFuel \/ r_call (without n w fuel) args s = r_call (machine w fuel) args s) /\
  forall s' c, final_state (r_call (without n w fuel) args s) = Some s' -> c < List.length (h_classes (vm_heap s)) ->
    method (vm_heap s') c n = method (vm_heap s) c n.
Proof. exact only_definitions_call. Qed.
Print Assumptions C26_no_other_change_by_calls.
(** A script that defines m runs to its end without definitions of to_string, but not without those of m. *)
Example C26_no_other_change_nonvacuous :
  (value_of (run_without "to_string"), stopped (run_without "m"), value_of (runtime_run sample_world 100 (coded definition_script) new_vm))
  = (Some (VInt 42), true, Some (VInt 42)).
Proof. exact definition_runs. Qed.

(** C27 is false, for every pair of classes: in every reachable state, storing a static field on one class
    stores it on every other class as well. *)
Theorem C27_static_fields_refuted : forall w r bc fr ups cn p name below temps x c d s,
  reachable w s -> nth_error (bc_constants bc) cn = Some (CSymbol name) -> fits below temps 2 ->
  c < List.length (h_classes (vm_heap s)) -> d < List.length (h_classes (vm_heap s)) ->
  exists h', step w r bc fr ups (IByte OpAssignField cn) p (with_stack below (x :: VClass c :: temps) s)
             = ROk (Continue p) (with_stack below (VUnit :: temps) (set_heap h' s)) /\
    own_field h' (VClass d) name = Some x.
Proof. exact step_static_shared. Qed.
Print Assumptions C27_static_fields_refuted.
(** Consequence in a new runtime: the constants of Int and Float share one table, and Float.MAX is the
    largest integer. *)
Theorem C27_float_max_refuted :
  match assoc_get "Float" (vm_globals new_vm) with
  | Some v => own_field (vm_heap new_vm) v "MAX" = Some (VInt (2 ^ 63 - 1))
  | None => False
  end.
Proof. vm_compute. reflexivity. Qed.
Print Assumptions C27_float_max_refuted.

(** C28.  The check of an annotated variable or parameter (in local [slot] of the frame). *)
Theorem C28_variable_check : forall w r bc fr ups slot p below temps d v s (nullable : bool),
  reachable w s -> live (vm_heap s) v -> d < List.length (h_classes (vm_heap s)) -> fits below temps 1 ->
  nth_error below (fr_start fr + slot) = Some v -> fr_start fr + slot < fr_end fr -> fr_end fr <= List.length below ->
  let result := step w r bc fr ups (IByte (if nullable then OpAssertTypeOrNullForLocal else OpAssertTypeForLocal) slot) p
              (with_stack below (VClass d :: temps) s) in
  (accepts nullable s v d /\ result = ROk (Continue p) (with_stack below temps s)) \/
  (~ accepts nullable s v d /\ exists e, result = RErr e (with_stack below temps s) /\
     e = if is_null v then TYPE_ASSERTION_NULLABILITY_FAILURE else TYPE_ASSERTION_FAILURE).
Proof. exact (fun w r bc fr ups slot p below temps d v s nullable R =>
  step_assert_local w r bc fr ups slot p below temps d v s nullable (reachable_state w s R)). Qed.
Print Assumptions C28_variable_check.
(** The check of an annotated return value, which also returns. *)
Theorem C28_return_check : forall w r bc fr ups p below temps d v s (nullable : bool),
  reachable w s -> live (vm_heap s) v -> d < List.length (h_classes (vm_heap s)) -> fits below temps 2 ->
  let result := step w r bc fr ups (INone (if nullable then OpAssertTypeOrNullAndReturn else OpAssertTypeAndReturn)) p
              (with_stack below (VClass d :: v :: temps) s) in
  (accepts nullable s v d /\ result = ROk Stop (with_stack below (v :: temps) s)) \/
  (~ accepts nullable s v d /\ exists e, result = RErr e (with_stack below (v :: temps) s) /\
     e = if is_null v then TYPE_ASSERTION_NULLABILITY_FAILURE else TYPE_ASSERTION_FAILURE).
Proof. exact (fun w r bc fr ups p below temps d v s nullable R =>
  step_assert_return w r bc fr ups p below temps d v s nullable (reachable_state w s R)). Qed.
Print Assumptions C28_return_check.
(** Null is accepted exactly by nullable annotations. *)
Theorem C28_null : forall w s d nullable, reachable w s -> (accepts nullable s VNull d <-> nullable = true).
Proof. exact accepts_null. Qed.
Print Assumptions C28_null.
(** In a new runtime 5 is an instance of Int's class and of no other built-in class but Any. *)
Example C28_nonvacuous :
  match assoc_get "Int" (vm_globals new_vm), assoc_get "String" (vm_globals new_vm) with
  | Some (VClass i), Some (VClass t) =>
      value_of (is_value_of_type (VInt 5) i new_vm) = Some true /\ value_of (is_value_of_type (VInt 5) t new_vm) = Some false
  | _, _ => False
  end.
Proof. vm_compute. auto. Qed.
(** The annotation of a variable is not checked on reassignment: this program runs to its end and yields
    the string. *)
Theorem C28_reassignment_refuted : 
  (* { let mut x: Int = 5; x = "text"; x } *)
  match dice_run sample_world 50 (EBlock [EVarDecl (Singular "x") true (ELitInt 5) (Some (TypeAnn "Int" false));
                               EAssignment AAssign (ELitIdent "x") (ELitString "text")]
                              (Some (ELitIdent "x"))) new_vm with
  | ROk v _ => v = VString "text"
  | _ => False
  end.
Proof. exact reassignment_unchecked. Qed.
Print Assumptions C28_reassignment_refuted.
