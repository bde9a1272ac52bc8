(** Properties C06-C08: slots, scoping and captured variables. *)
From Verif.Model Require Import CompilerStack.
From Verif.Spec Require Import ScopeSpec ScopeRun CaptureSpec.
From Verif.Proofs Require Import ScopeP CaptureP.

(** C06: whatever scopes are opened, closed and filled, the variables in scope occupy exactly the slots
    0..n-1, each once, all below the recorded slot count. *)
Theorem C06_slots_are_distinct : forall st h s,
  balanced_from 0 h -> run st h (scope_stack_new KBlock) = Ok s ->
  map snd (flat (ss_scopes s)) = rev (seq 0 (now_visible h)) /\ now_visible h <= ss_slot_count s.
Proof. exact history_slots. Qed.
Print Assumptions C06_slots_are_distinct.

(** C06: no history fails, and the recorded slot count is the largest number of variables ever in scope at once. *)
Theorem C06_slot_count_is_peak : forall st h,
  balanced_from 0 h -> exists s, run st h (scope_stack_new KBlock) = Ok s /\ is_peak h (ss_slot_count s).
Proof. exact history_peak. Qed.
Print Assumptions C06_slot_count_is_peak.

(** C06: a declaration gets the first free slot. *)
Theorem C06_new_slot_is_free : forall st h s x,
  balanced_from 0 h -> run st h (scope_stack_new KBlock) = Ok s ->
  exists s', add_local x (st x) s = Ok (now_visible h, s').
Proof. exact history_add. Qed.
Print Assumptions C06_new_slot_is_free.

(** C06: as long as the scopes open after [h1] stay open, the variables then in scope keep their slots,
    and what is declared later uses other slots. *)
Theorem C06_outer_variables_keep_slots : forall st h1 h2 s1 s2,
  balanced_from 0 h1 -> balanced_from 0 h2 ->
  run st h1 (scope_stack_new KBlock) = Ok s1 -> run st h2 s1 = Ok s2 ->
  exists new, flat (ss_scopes s2) = new ++ flat (ss_scopes s1) /\
              (forall x n, In (x, n) new -> List.length (flat (ss_scopes s1)) <= n).
Proof. exact inside_keeps. Qed.
Print Assumptions C06_outer_variables_keep_slots.
Definition c06_history : list event :=
  [Declare "a"; Open; Declare "b"; Capture "a"; Open; Declare "c"; Declare "b"; Close; Declare "d"; Close; Declare "e"; Initialize "e"]%string.
Example C06_nonvacuous :
  balanced_from 0 c06_history /\
  omap (fun s => (flat (ss_scopes s), ss_slot_count s)) (run (fun _ => state_initialized true) c06_history (scope_stack_new KBlock))
  = Ok ([("e", 1); ("a", 0)], 4)%string.
Proof. split; [cbn; tauto|vm_compute; reflexivity]. Qed.
Example C06_peak_nonvacuous :
  omap (fun s => (flat (ss_scopes s), ss_slot_count s)) (run (fun _ => state_initialized true) (firstn 7 c06_history) (scope_stack_new KBlock))
  = Ok ([("b", 3); ("c", 2); ("b", 1); ("a", 0)], 4)%string.
Proof. vm_compute. reflexivity. Qed.

(** C07: looking a name up gives the latest declaration that is still in scope. *)
Theorem C07_lookup_is_lexical : forall st h s x,
  balanced_from 0 h -> run st h (scope_stack_new KBlock) = Ok s ->
  option_map sv_slot (local x s) = resolve x (visible (rev h) 0).
Proof. exact history_lookup. Qed.
Print Assumptions C07_lookup_is_lexical.
Example C07_nonvacuous :
  option_map sv_slot (match run (fun _ => state_initialized true) (firstn 7 c06_history) (scope_stack_new KBlock) with
                      | Ok s => local "b"%string s | _ => None end) = Some 3 /\
  resolve "b"%string (visible (rev (firstn 8 c06_history)) 0) = Some 1 /\
  resolve "b"%string (visible (rev c06_history) 0) = None.
Proof. vm_compute. auto. Qed.

(** C08: a name resolved as a captured variable is the one of the nearest enclosing function that
    declares it, the chain of descriptors leads to its slot, its mutability is kept, it is marked
    captured, and nothing else changes in any function. *)
Theorem C08_upvalue_is_nearest_enclosing : forall x stack i stack',
  resolve_upvalue x stack = Some (i, stack') ->
  Forall2 extends stack stack' /\
  exists k v d c, declared_at stack x k v /\
    refers_to stack' i k (sv_slot v) /\
    (exists cur, nth_error stack' 0 = Some cur /\ nth_error (cx_upvalues cur) i = Some d) /\
    upvalue_is_mutable d = sv_is_mutable v /\
    nth_error stack' k = Some c /\ local x (cx_scopes c) = Some (set_captured v).
Proof. exact resolve_spec. Qed.
Print Assumptions C08_upvalue_is_nearest_enclosing.

(** C08: resolution fails exactly when no enclosing function declares the name. *)
Theorem C08_unresolved_iff_undeclared : forall x stack,
  resolve_upvalue x stack = None <->
  (forall k c, 0 < k -> nth_error stack k = Some c -> local x (cx_scopes c) = None).
Proof. exact resolve_none. Qed.
Print Assumptions C08_unresolved_iff_undeclared.

(** C08: using the name again gives the same index and changes nothing. *)
Theorem C08_same_index_again : forall x stack i stack',
  resolve_upvalue x stack = Some (i, stack') -> resolve_upvalue x stack' = Some (i, stack').
Proof. exact resolve_again. Qed.
Print Assumptions C08_same_index_again.

(** C08: what earlier indices refer to is not disturbed. *)
Theorem C08_other_indices_keep_meaning : forall x stack i stack' j k slot,
  resolve_upvalue x stack = Some (i, stack') -> refers_to stack j k slot -> refers_to stack' j k slot.
Proof. exact (fun x stack i stack' j k slot H => refers_extends stack stack' j k slot (proj1 (resolve_spec x stack i stack' H))). Qed.
Print Assumptions C08_other_indices_keep_meaning.

Definition c08_outer : context :=
  match run (fun _ => state_initialized true) [Declare "y"; Declare "x"]%string (scope_stack_new KBlock) with
  | Ok s => set_scopes s (context_new KScript)
  | _ => context_new KScript
  end.
Definition c08_stack : list context := [context_new (KFunction None); context_new (KFunction None); c08_outer].
Example C08_nonvacuous :
  match resolve_upvalue "x"%string c08_stack with
  | Some (i, st) => i = 0 /\ map cx_upvalues st = [[Outer 0 true]; [ParentLocal 1 true]; []] /\
      (match resolve_upvalue "y"%string st with
       | Some (j, st') => j = 1 /\ map cx_upvalues st' = [[Outer 0 true; Outer 1 true]; [ParentLocal 1 true; ParentLocal 0 true]; []]
       | None => False end)
  | None => False
  end.
Proof. vm_compute. auto. Qed.
