(** Properties C12 and C43: calls and constructors. *)
From Verif.Spec Require Import VmSpec ClassSpec StoreSpec CallSpec.
From Verif.Proofs Require Import CallP RunP SampleP HostP CallExamplesP.

(** C12.  The instruction [OpCall n] is [r_call]; the callee lies below its arguments.  Entering: the body
    runs in a frame that starts at the callee, on a stack whose cells are those of [call_cells]; afterwards
    the frame is released and the result pushed. *)
Theorem C12_enter : forall w r below temps callee args f ups slot0 s,
  calls_code (vm_heap s) callee f ups slot0 ->
  room_for_call f (below ++ rev temps) (List.length args) ->
  call_fn w r (List.length args) (with_stack below (rev args ++ callee :: temps) s)
  = (let* v := execute w r (fn_code f) (call_frame f (List.length (below ++ rev temps)) (List.length args)) ups in
     on_stack_ (stack_release VNull (w_dbg w) (call_frame f (List.length (below ++ rev temps)) (List.length args))) >>>
     push v) (with_stack ((below ++ rev temps) ++ call_cells f slot0 args) [] s).
Proof. exact call_fn_enter. Qed.
Print Assumptions C12_enter.
(** Slot 0 holds the callee or receiver, slots 1..n the arguments in order, the others null. *)
Theorem C12_slots : forall f slot0 args i, i < List.length (call_cells f slot0 args) ->
  nth_error (call_cells f slot0 args) i
  = Some (match i with 0 => slot0 | S j => match nth_error args j with Some v => v | None => VNull end end).
Proof. exact call_cells_slots. Qed.
Print Assumptions C12_slots.
(** There are at least as many as the function has local slots, however many arguments are passed. *)
Theorem C12_enough_slots : forall f slot0 args, bc_slot_count (fn_code f) < List.length (call_cells f slot0 args).
Proof. exact call_cells_enough. Qed.
Print Assumptions C12_enough_slots.
(** Returning: when the body ends with its result [v] above the frame, the caller's cells (as the body left
    them: it may have assigned captured variables there) are all that remains, plus the result. *)
Theorem C12_return : forall w n below temps callee args f ups slot0 s caller' cells' v s',
  calls_code (vm_heap s) callee f ups slot0 ->
  room_for_call f (below ++ rev temps) (List.length args) ->
  r_loop (machine w n) (fn_code f) (call_frame f (List.length (below ++ rev temps)) (List.length args)) ups 0%Z
    (with_stack ((below ++ rev temps) ++ call_cells f slot0 args) [] s)
  = ROk tt (with_stack (caller' ++ cells') [v] s') ->
  List.length caller' = List.length (below ++ rev temps) ->
  List.length cells' = List.length (call_cells f slot0 args) ->
  r_call (machine w (S n)) (List.length args) (with_stack below (rev args ++ callee :: temps) s)
  = ROk tt (with_stack caller' [v] s').
Proof. exact call_returns. Qed.
Print Assumptions C12_return.
(** An error in the body is the error of the call. *)
Theorem C12_error : forall w n below temps callee args f ups slot0 s e s',
  calls_code (vm_heap s) callee f ups slot0 ->
  room_for_call f (below ++ rev temps) (List.length args) ->
  r_loop (machine w n) (fn_code f) (call_frame f (List.length (below ++ rev temps)) (List.length args)) ups 0%Z
    (with_stack ((below ++ rev temps) ++ call_cells f slot0 args) [] s) = RErr e s' ->
  r_call (machine w (S n)) (List.length args) (with_stack below (rev args ++ callee :: temps) s) = RErr e s'.
Proof. exact call_fails. Qed.
Print Assumptions C12_error.
(** fn id(a) { a }: called on any value, on any stack with four free cells. *)
Example C12_nonvacuous : forall w n below temps x s, List.length below + List.length temps + 4 <= max_stack_size ->
  r_call (machine w (3 + n)) 1 (with_stack below (x :: VFnScript id_fn :: temps) s)
  = ROk tt (with_stack (below ++ rev temps) [x] s).
Proof. exact id_call. Qed.

(** C43.  Without [new]: a fresh object, and the stack balanced for any number of arguments. *)
Theorem C43_without_new : forall w n below temps args c s,
  c < List.length (h_classes (vm_heap s)) -> method (vm_heap s) c "new" = None ->
  (args <> [] \/ match base_of (vm_heap s) c with
                 | Some b => b < List.length (h_classes (vm_heap s)) /\ method (vm_heap s) b "new" = None
                 | None => True end) ->
  fits below temps (S (List.length args)) ->
  exists o s', one_more_object s c o s' /\
    r_call (machine w (S n)) (List.length args) (with_stack below (rev args ++ VClass c :: temps) s)
    = ROk tt (with_stack below (VObject o :: temps) s').
Proof. exact construct_without_new. Qed.
Print Assumptions C43_without_new.
(** With [new]: the call of the method [m] bound to a fresh object decides the result ... *)
Theorem C43_with_new : forall w n below temps args c m s,
  method (vm_heap s) c "new" = Some m -> fits below temps (S (List.length args)) ->
  exists o s', one_more_object s c o s' /\
    forall below' v temps' s2, fits below' temps' 1 ->
    r_call (machine w n) (List.length args) (with_stack below (rev args ++ VFnBound (VObject o) m :: temps) s')
    = ROk tt (with_stack below' (v :: temps') s2) ->
    r_call (machine w (S n)) (List.length args) (with_stack below (rev args ++ VClass c :: temps) s)
    = ROk tt (with_stack below' (v :: temps') s2).
Proof. exact construct_with_new. Qed.
Print Assumptions C43_with_new.
(** ... or the error. *)
Theorem C43_new_fails : forall w n below temps args c m s,
  method (vm_heap s) c "new" = Some m -> fits below temps (S (List.length args)) ->
  exists o s', one_more_object s c o s' /\
    forall e s2,
    r_call (machine w n) (List.length args) (with_stack below (rev args ++ VFnBound (VObject o) m :: temps) s') = RErr e s2 ->
    r_call (machine w (S n)) (List.length args) (with_stack below (rev args ++ VClass c :: temps) s) = RErr e s2.
Proof. exact construct_new_fails. Qed.
Print Assumptions C43_new_fails.
(** A class without [new] whose base has one cannot be constructed without arguments ... *)
Theorem C43_base_has_new : forall w n below temps c b m s,
  method (vm_heap s) c "new" = None -> base_of (vm_heap s) c = Some b -> method (vm_heap s) b "new" = Some m ->
  exists s', r_call (machine w (S n)) 0 (with_stack below (VClass c :: temps) s)
    = RErr CLASS_MUST_HAVE_NEW_IF_SUPER_HAS_NEW s'.
Proof. exact construct_base_new. Qed.
Print Assumptions C43_base_has_new.
(** ... but with an argument it can: the object is created and no [new] runs. *)
Theorem C43_base_has_new_refuted :
  outcome_of (dice_run sample_world 200 (derived_construction []) new_vm) = Some (Some CLASS_MUST_HAVE_NEW_IF_SUPER_HAS_NEW) /\
  value_of (dice_run sample_world 200 (derived_construction [ELitInt 5]) new_vm) = Some VNull.
Proof. split; vm_compute; reflexivity. Qed.
Print Assumptions C43_base_has_new_refuted.
Example C43_nonvacuous : value_of (dice_run sample_world 200 base_construction new_vm) = Some (VInt 1).
Proof. vm_compute. reflexivity. Qed.
