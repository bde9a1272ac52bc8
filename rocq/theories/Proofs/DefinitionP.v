(** Only the instruction that defines a method called [nm] changes methods called [nm]. *)
From Verif.Spec Require Import DefinitionSpec.
From Verif.Proofs Require Import ClassP.
#[local] Open Scope string_scope.
#[local] Open Scope list_scope.
#[local] Open Scope nat_scope.

Section Name.
Variable nm : string.

(** The changes of VmHistory.v, without definitions of methods called [nm]. *)
Inductive quiet_heap : heap -> heap -> Prop :=
| QNewObject h class o h' : object_new class h = (o, h') -> quiet_heap h h'
| QSetField h o name v h' : object_set_field o name v h = Ok h' -> quiet_heap h h'
| QNewArray h vs a h' : array_from_vec vs h = (a, h') -> quiet_heap h h'
| QWriteArray h a vs h' : array_update a vs h = Ok h' -> quiet_heap h h'
| QBorrowArray h f a h' : array_set_borrows f a h = Ok h' -> quiet_heap h h'
| QNewClass h name base c h' : class_with_base name base h = Ok (c, h') -> quiet_heap h h'
| QSetMethod h c name m h' : name <> nm -> class_set_method c name m h = Ok h' -> quiet_heap h h'
| QNewClosure h f ups c h' : closure_new f ups h = (c, h') -> quiet_heap h h'
| QNewUpvalue h slot u h' : upvalue_new_open slot h = (u, h') -> quiet_heap h h'
| QWriteUpvalue h u x h' : upvalue_write u x h = Ok h' -> quiet_heap h h'
| QIterators h l : quiet_heap h (hset_iters l h).

Inductive quiet_change : vm -> vm -> Prop :=
| QStack s st : quiet_change s (set_stack st s)
| QHeap s h' : quiet_heap (vm_heap s) h' -> quiet_change s (set_heap h' s)
| QOpen s l : quiet_change s (set_open l s)
| QGlobal s name v :
    assoc_get name (vm_globals s) = None ->
    quiet_change s (set_globals (assoc_set name v (vm_globals s)) s)
| QLoad s name v :
    assoc_get name (vm_modules s) = None ->
    quiet_change s (set_loads (name :: vm_loads s) (set_modules (assoc_set name v (vm_modules s)) s)).

Inductive quiet_steps : vm -> vm -> Prop :=
| qs_refl s : quiet_steps s s
| qs_step s1 s2 s3 : quiet_change s1 s2 -> quiet_steps s2 s3 -> quiet_steps s1 s3.

Lemma qs_trans s1 s2 s3 : quiet_steps s1 s2 -> quiet_steps s2 s3 -> quiet_steps s1 s3.
Proof. induction 1; intros; [assumption|]. econstructor; eauto. Qed.
Lemma qs_one s s' : quiet_change s s' -> quiet_steps s s'.
Proof. intros. econstructor; [eassumption|constructor]. Qed.

Definition spares {A} (m : run A) : Prop := forall s,
  match m s with ROk _ s' | RErr _ s' => quiet_steps s s' | RPanic | RNoFuel => True end.

Lemma spares_ret {A} (a : A) : spares (rret a).
Proof. intro s. constructor. Qed.
Lemma spares_fail {A} e : spares (@rfail A e).
Proof. intro s. constructor. Qed.
Lemma spares_panic {A} : spares (@rpanic A).
Proof. intro s. exact I. Qed.
Lemma spares_bind {A B} (m : run A) (f : A -> run B) : spares m -> (forall a, spares (f a)) -> spares (rbind m f).
Proof.
  intros Hm Hf s. unfold rbind. specialize (Hm s). destruct (m s) as [a s1|e s1| |]; auto.
  specialize (Hf a s1). destruct (f a s1); auto; eapply qs_trans; eauto.
Qed.
Lemma spares_lift {A} (o : outcome A) : spares (lift o).
Proof. intro s. unfold lift. destruct o; try exact I; constructor. Qed.
Lemma spares_on_stack {A} (f : stack value -> outcome (A * stack value)) : spares (on_stack f).
Proof.
  intro s. unfold on_stack. destruct (f (vm_stack s)) as [[a st]|e| |]; try exact I; try constructor.
  apply qs_one. constructor.
Qed.
Lemma spares_on_stack_ f : spares (on_stack_ f).
Proof. apply spares_on_stack. Qed.
Lemma spares_heap_get {A} (f : heap -> outcome A) : spares (heap_get f).
Proof. intro s. apply spares_lift. Qed.
Lemma spares_read {A} (f : vm -> outcome A) : spares (fun s => lift (f s) s).
Proof. intro s. apply spares_lift. Qed.
Lemma spares_heap_alloc {A} (f : heap -> A * heap) :
  (forall h a h', f h = (a, h') -> quiet_heap h h') -> spares (heap_alloc f).
Proof.
  intros Hf s. unfold heap_alloc. destruct (f (vm_heap s)) as [a h] eqn:E.
  apply qs_one. constructor. eapply Hf; eauto.
Qed.
Lemma spares_heap_upd {A} (f : heap -> outcome (A * heap)) :
  (forall h a h', f h = Ok (a, h') -> quiet_heap h h') -> spares (heap_upd f).
Proof.
  intros Hf s. unfold heap_upd. destruct (f (vm_heap s)) as [[a h]|e| |] eqn:E; try exact I; [|constructor].
  apply qs_one. constructor. eapply Hf; eauto.
Qed.
Lemma spares_heap_upd_ (f : heap -> outcome heap) :
  (forall h h', f h = Ok h' -> quiet_heap h h') -> spares (heap_upd_ f).
Proof.
  intros Hf. apply spares_heap_upd. intros h a h' E. destruct (f h) as [h1|e| |] eqn:E1; try discriminate.
  cbn in E. inversion E; subst. auto.
Qed.
Lemma spares_set_open f : spares (fun s => ROk tt (set_open (f s) s)).
Proof. intro s. apply qs_one. constructor. Qed.
Lemma spares_set_open_u {A} (u : A) f : spares (fun s => ROk u (set_open (f s) s)).
Proof. intro s. apply qs_one. constructor. Qed.
Lemma spares_by_state {A} (f : vm -> run A) : (forall x, spares (f x)) -> spares (fun s => f s s).
Proof. intros H s. apply H. Qed.
Lemma spares_pure {A} (f : vm -> A) : spares (fun s => ROk (f s) s).
Proof. intro s. constructor. Qed.

#[local] Hint Resolve spares_ret spares_fail spares_panic spares_lift spares_on_stack spares_on_stack_
  spares_heap_get spares_read spares_set_open spares_set_open_u spares_pure : spares.

Lemma spares_push v : spares (push v). Proof. apply spares_on_stack_. Qed.
Lemma spares_pop : spares pop. Proof. apply spares_on_stack. Qed.
Lemma spares_pop_count n : spares (pop_count n). Proof. apply spares_on_stack. Qed.
Lemma spares_peek n : spares (peek n). Proof. apply spares_read. Qed.
Lemma spares_poke n v : spares (poke n v). Proof. apply spares_on_stack_. Qed.
Lemma spares_frame_get f i : spares (frame_get f i). Proof. apply spares_read. Qed.
Lemma spares_frame_set f i v : spares (frame_set f i v). Proof. apply spares_on_stack_. Qed.
#[local] Hint Resolve spares_push spares_pop spares_pop_count spares_peek spares_poke spares_frame_get spares_frame_set : spares.

Lemma spares_const_at bc i : spares (const_at bc i).
Proof. unfold const_at. destruct (nth_error _ _); auto with spares. Qed.
#[local] Hint Resolve spares_const_at : spares.

Ltac sn :=
  repeat first
    [ progress intros
    | assumption
    | solve [auto with spares]
    | apply spares_bind
    | match goal with
      | |- spares (match ?x with _ => _ end) => destruct x
      | |- spares (if ?x then _ else _) => destruct x
      | |- spares (let '(_, _) := ?x in _) => destruct x
      end ].

Lemma spares_symbol_at bc i : spares (symbol_at bc i).
Proof. unfold symbol_at. sn. Qed.
#[local] Hint Resolve spares_symbol_at : spares.

Lemma spares_class_of_value v : spares (class_of_value v).
Proof.
  intro s. unfold class_of_value. destruct (as_object v (vm_heap s)) as [o|e| |]; try exact I; [|constructor].
  destruct (object_class o (vm_heap s)) as [[c|]|e| |]; try exact I; constructor.
Qed.
#[local] Hint Resolve spares_class_of_value : spares.
Lemma spares_is_value_of_type v c : spares (is_value_of_type v c).
Proof. unfold is_value_of_type. sn. Qed.
#[local] Hint Resolve spares_is_value_of_type : spares.
Lemma spares_get_method c k v : spares (get_method c k v).
Proof. unfold get_method. sn. Qed.
#[local] Hint Resolve spares_get_method : spares.
Lemma spares_get_field k v : spares (get_field k v).
Proof. unfold get_field. sn. Qed.
#[local] Hint Resolve spares_get_field : spares.
Lemma spares_find_open_upvalue k : spares (find_open_upvalue k).
Proof. apply spares_read. Qed.
#[local] Hint Resolve spares_find_open_upvalue : spares.

Lemma spares_object_new c : spares (heap_alloc (object_new c)).
Proof. apply spares_heap_alloc. intros. eapply QNewObject; eauto. Qed.
Lemma spares_set_field o k v : spares (heap_upd_ (object_set_field o k v)).
Proof. apply spares_heap_upd_. intros. eapply QSetField; eauto. Qed.
Lemma spares_array_from_vec vs : spares (heap_alloc (array_from_vec vs)).
Proof. apply spares_heap_alloc. intros. eapply QNewArray; eauto. Qed.
Lemma spares_array_update a vs : spares (heap_upd_ (array_update a vs)).
Proof. apply spares_heap_upd_. intros. eapply QWriteArray; eauto. Qed.
Lemma spares_array_borrows f a : spares (heap_upd_ (array_set_borrows f a)).
Proof. apply spares_heap_upd_. intros. eapply QBorrowArray; eauto. Qed.
Lemma spares_array_push a v : spares (heap_upd_ (array_push a v)).
Proof.
  apply spares_heap_upd_. unfold array_push. intros h h' E.
  destruct (array_elements a h) eqn:E1; try discriminate. cbn in E. eapply QWriteArray; eauto.
Qed.
Lemma spares_array_pop a : spares (heap_upd (array_pop a)).
Proof.
  apply spares_heap_upd. unfold array_pop. intros h x h' E.
  destruct (array_elements a h) as [vs|e| |] eqn:E1; try discriminate. cbn in E.
  destruct (array_update a _ h) eqn:E2; try discriminate. cbn in E. inversion E; subst.
  eapply QWriteArray; eauto.
Qed.
Lemma spares_class_with_base n b : spares (heap_upd (class_with_base n b)).
Proof. apply spares_heap_upd. intros. eapply QNewClass; eauto. Qed.
Lemma spares_set_method c k m : k <> nm -> spares (heap_upd_ (class_set_method c k m)).
Proof. intros N. apply spares_heap_upd_. intros. eapply QSetMethod; eauto. Qed.
Lemma spares_closure_new f u : spares (heap_alloc (closure_new f u)).
Proof. apply spares_heap_alloc. intros. eapply QNewClosure; eauto. Qed.
Lemma spares_new_open i : spares (heap_alloc (upvalue_new_open i)).
Proof. apply spares_heap_alloc. intros. eapply QNewUpvalue; eauto. Qed.
Lemma spares_upvalue_write u x : spares (heap_upd_ (upvalue_write u x)).
Proof. apply spares_heap_upd_. intros. eapply QWriteUpvalue; eauto. Qed.
Lemma spares_iter_alloc x :
  spares (heap_alloc (fun h => (List.length (h_iters h), hset_iters (h_iters h ++ [x]) h))).
Proof. apply spares_heap_alloc. intros. inversion H; subst. constructor. Qed.
Lemma spares_iter_set c x :
  spares (heap_upd_ (fun h => Ok (hset_iters (set_nth (h_iters h) c x) h))).
Proof. apply spares_heap_upd_. intros. inversion H; subst. constructor. Qed.
#[local] Hint Resolve spares_object_new spares_set_field spares_array_from_vec spares_array_update spares_array_borrows
  spares_array_push spares_array_pop spares_class_with_base spares_set_method spares_closure_new spares_new_open
  spares_upvalue_write spares_iter_alloc spares_iter_set : spares.

Lemma spares_new_array vs : spares (new_array vs).
Proof. unfold new_array. sn. Qed.
Lemma spares_new_any_object : spares new_any_object.
Proof. unfold new_any_object. apply (spares_by_state (fun s => heap_alloc (object_new (Some (vm_any s))))). sn. Qed.
#[local] Hint Resolve spares_new_array spares_new_any_object : spares.

Lemma spares_upvalue_at ups i : spares (upvalue_at ups i).
Proof. unfold upvalue_at. sn. Qed.
#[local] Hint Resolve spares_upvalue_at : spares.
Lemma spares_load_upvalue ups i : spares (load_upvalue ups i).
Proof. unfold load_upvalue. sn. Qed.
Lemma spares_write_upvalue u v : spares (write_upvalue u v).
Proof. unfold write_upvalue. sn. Qed.
Lemma spares_close_upvalue fr i : spares (close_upvalue fr i).
Proof. unfold close_upvalue. sn. Qed.
Lemma spares_capture fr ups ds : spares (capture fr ups ds).
Proof. induction ds as [|[a b] ds IH]; cbn [capture]; sn. Qed.
#[local] Hint Resolve spares_load_upvalue spares_write_upvalue spares_close_upvalue spares_capture : spares.
Lemma spares_create_closure bc fr ups c ds : spares (create_closure bc fr ups c ds).
Proof. unfold create_closure. sn. Qed.
Lemma spares_store_global n : spares (store_global n).
Proof.
  unfold store_global. apply spares_bind; [auto with spares|]. intros v s.
  destruct (assoc_get n (vm_globals s)) eqn:E; [constructor|]. apply qs_one. constructor; assumption.
Qed.
Lemma spares_load_global n : spares (load_global n).
Proof. intro s. unfold load_global. destruct (assoc_get n (vm_globals s)); [apply spares_push|constructor]. Qed.
Lemma spares_write_field a k : spares (write_field a k).
Proof. unfold write_field. sn. Qed.
Lemma spares_load_index : spares load_index.
Proof. unfold load_index. sn. Qed.
Lemma spares_write_index a : spares (write_index a).
Proof. unfold write_index. sn. Qed.
Lemma spares_load_method k : spares (load_method k).
Proof. unfold load_method. sn. Qed.
Lemma spares_store_method k : k <> nm -> spares (store_method k).
Proof. intros N. unfold store_method. sn. Qed.
Lemma spares_assert_type c v : spares (assert_type c v).
Proof. unfold assert_type. sn. Qed.
#[local] Hint Resolve spares_create_closure spares_store_global spares_load_global spares_write_field spares_load_index
  spares_write_index spares_load_method spares_store_method spares_assert_type : spares.
Lemma spares_assert_local n fr i : spares (assert_type_for_local n fr i).
Proof. unfold assert_type_for_local. sn. Qed.
Lemma spares_assert_return n : spares (assert_type_and_return n).
Proof. unfold assert_type_and_return. sn. Qed.
Lemma spares_inherit_class n : spares (inherit_class n).
Proof. unfold inherit_class. sn. Qed.
#[local] Hint Resolve spares_assert_local spares_assert_return spares_inherit_class : spares.

Section Machine.
Variable w : world.
Variable r : rec.
Hypothesis Hloop : forall bc fr ups p, spares (r_loop r bc fr ups p).
Hypothesis Hcall : forall n, spares (r_call r n).
Hint Resolve Hloop Hcall : spares.

Lemma spares_execute bc fr ups : spares (execute w r bc fr ups).
Proof.
  intro s. unfold execute. eapply spares_bind; [apply Hloop|]. intros a s'.
  destruct (_ && _); [exact I|apply spares_pop].
Qed.
Hint Resolve spares_execute : spares.
Lemma spares_call_fn_script n rc f ups : spares (call_fn_script w r n rc f ups).
Proof. unfold call_fn_script. sn. Qed.
Lemma spares_call_function t args : spares (call_function r t args).
Proof. unfold call_function. sn. Qed.
Hint Resolve spares_call_fn_script spares_call_function : spares.
Lemma spares_try_ok {A} (m : run A) : spares m -> spares (try_ok m).
Proof. intros H s. unfold try_ok. specialize (H s). destruct (m s); auto. Qed.
Lemma spares_call_predicate p v : spares (call_predicate r p v).
Proof. unfold call_predicate. apply spares_bind; [apply spares_try_ok; auto with spares|]. sn. Qed.
Hint Resolve spares_call_predicate : spares.
Lemma spares_find_elements p vs : spares (find_elements r p vs).
Proof. induction vs; cbn [find_elements]; sn. Qed.
Lemma spares_filter_elements p vs : spares (filter_elements r p vs).
Proof. induction vs; cbn [filter_elements]; sn. Qed.
Lemma spares_map_elements p vs : spares (map_elements r p vs).
Proof.
  induction vs; cbn [map_elements]; [auto with spares|].
  apply spares_bind; [apply spares_try_ok; auto with spares|]. sn.
Qed.
Hint Resolve spares_find_elements spares_filter_elements spares_map_elements : spares.
Lemma spares_with_elements {A} a (f : list value -> run A) : (forall vs, spares (f vs)) -> spares (with_elements a f).
Proof. intros H. unfold with_elements. sn. Qed.
Lemma spares_ext (k : heap -> native_answer) :
  spares (fun s => match k (vm_heap s) with AnsValue v => ROk v s | AnsErr e => RErr e s | AnsArray vs => new_array vs s end).
Proof. intro s. destruct (k (vm_heap s)); try constructor. apply spares_new_array. Qed.
Lemma spares_ext' (k : heap -> native_answer) :
  spares (fun s => match k (vm_heap s) with AnsValue v => ROk v s | AnsErr e => RErr e s | AnsArray vs => ROk VNull s end).
Proof. intro s. destruct (k (vm_heap s)); constructor. Qed.
Lemma spares_call_native n args : spares (call_native w r n args).
Proof.
  destruct n; cbn [call_native].
  all: try solve [sn].
  all: try solve [ repeat (match goal with |- spares (match ?x with _ => _ end) => destruct x end; sn);
                   try apply spares_with_elements; sn ].
  - repeat (match goal with |- spares (match ?x with _ => _ end) => destruct x end; sn);
      apply (spares_ext' (fun _ => w_native w _ _ _ heap_empty)).
  - apply (spares_ext (w_native w _ _ _)).
Qed.
Hint Resolve spares_call_native : spares.
Lemma spares_call_fn_native n rc f : spares (call_fn_native w r n rc f).
Proof. unfold call_fn_native. sn. Qed.
Lemma spares_call_class_constructor n c o : spares (call_class_constructor r n c o).
Proof. unfold call_class_constructor. sn. Qed.
Hint Resolve spares_call_fn_native spares_call_class_constructor : spares.
Lemma spares_call_fn n : spares (call_fn w r n).
Proof. unfold call_fn. sn. Qed.
Lemma spares_call_binary_op o v : spares (call_binary_op r o v).
Proof.
  unfold call_binary_op. sn. intro s. destruct (assoc_get _ _) as [f|]; [|constructor].
  match goal with |- context [match ?m s with _ => _ end] =>
    assert (H : spares m) by sn; exact (H s) end.
Qed.
Hint Resolve spares_call_binary_op : spares.
Lemma spares_binary o : spares (binary w r o).
Proof. unfold binary. sn. Qed.
Lemma spares_run_module bc e : spares (run_module w r bc e).
Proof. unfold run_module. sn. Qed.
Lemma spares_run_script bc : spares (run_script w r bc).
Proof. unfold run_script. sn. Qed.
Hint Resolve spares_binary spares_run_module spares_run_script : spares.
Lemma spares_load_module n : spares (load_module w r n).
Proof.
  intro s. unfold load_module. destruct (assoc_get n (vm_modules s)) as [m|] eqn:E; [apply spares_push|].
  destruct (object_new (Some (vm_module_class s)) (vm_heap s)) as [o h] eqn:Eo.
  set (s1 := set_heap h s).
  assert (S1 : quiet_steps s s1) by (apply qs_one; constructor; eapply QNewObject; eauto).
  assert (E1 : assoc_get n (vm_modules s1) = None) by exact E.
  set (s2 := set_loads (n :: vm_loads s1) (set_modules (assoc_set n (VObject o) (vm_modules s1)) s1)).
  assert (S2 : quiet_steps s s2) by (eapply qs_trans; [exact S1|]; apply qs_one; constructor; exact E1).
  set (m := let* bc := lift (w_load w (vm_loads s1) n) in let* x := run_module w r bc (VObject o) in push x).
  assert (H : spares m) by (unfold m; sn).
  enough (G : match m s2 with ROk _ s' | RErr _ s' => quiet_steps s s' | RPanic | RNoFuel => True end).
  { unfold rbind at 1. unfold heap_alloc. rewrite Eo. exact G. }
  specialize (H s2). destruct (m s2); auto; eapply qs_trans; eauto.
Qed.
Hint Resolve spares_load_module : spares.
Lemma spares_step bc fr ups i p : defines nm bc i = false -> spares (step w r bc fr ups i p).
Proof.
  destruct i as [o|o b|o a b|o z|c ds]; cbn [step]; intros D.
  - destruct o; sn.
  - destruct o; try solve [sn]. cbn [defines] in D.
    apply spares_bind; [|sn]. intro s. unfold rbind at 1. destruct (symbol_at bc b s) as [k s1|e s1| |] eqn:E; try exact I; pose proof (spares_symbol_at bc b s) as Q; rewrite E in Q; [|exact Q].
    assert (N : k <> nm).
    { intros ->. unfold symbol_at, const_at, rbind in E. destruct (nth_error (bc_constants bc) b) as [[]|]; try discriminate.
      cbn in E. injection E as -> _. now rewrite String.eqb_refl in D. }
    pose proof (spares_store_method k N s1) as H. destruct (store_method k s1); auto; eapply qs_trans; eauto.
  - destruct o; sn.
  - destruct o; sn.
  - sn.
Qed.
Lemma spares_loop bc fr ups p : spares (guarded_loop nm w r bc fr ups p).
Proof.
  intro s. unfold guarded_loop, loop. destruct (fetch _ _ _ _) as [[[i p']|]|e| |] eqn:F; try (unfold rbind, lift; try constructor; exact I).
  destruct (defines nm bc i) eqn:D; [exact I|].
  unfold rbind at 1. cbn [lift].
  match goal with |- match ?m s with _ => _ end => assert (H : spares m) by (apply spares_bind; [now apply spares_step|sn]); exact (H s) end.
Qed.
End Machine.


End Name.

Lemma quiet_heap_method nm h h' c : quiet_heap nm h h' -> c < List.length (h_classes h) -> method h' c nm = method h c nm.
Proof.
  intros H Hc. destruct H as [h class o h' E|h o name v h' E|h vs a h' E|h a vs h' E|h f a h' E|h name base c1 h' E|h c1 name m h' N E
                |h f ups c1 h' E|h slot u h' E|h u x h' E|h l].
  - unfold object_new in E; injection E as <- <-. reflexivity.
  - apply object_set_field_inv in E as (ob & m & Eo & Em & ->). reflexivity.
  - unfold array_from_vec, object_new in E; injection E as <- <-. reflexivity.
  - apply array_update_inv in E as (ar & Ea & Eb & ->). reflexivity.
  - apply array_set_borrows_inv in E as (ar & Ea & ->). reflexivity.
  - apply inherit_methods in E as (_ & _ & _ & E). now apply E.
  - rewrite (set_method_spec _ _ _ _ _ E). destruct (String.eqb_spec nm name); [congruence|]. now rewrite Bool.andb_false_r.
  - unfold closure_new in E; injection E as <- <-. reflexivity.
  - unfold upvalue_new_open in E; injection E as <- <-. reflexivity.
  - apply upvalue_write_inv in E as (Hu & ->). reflexivity.
  - reflexivity.
Qed.
Lemma quiet_history nm s s' : quiet_steps nm s s' -> vm_steps s s'.
Proof.
  induction 1 as [s|s1 s2 s3 H _ IH]; [constructor|]. eapply vs_step; [|exact IH].
  destruct H as [s st|s h' G|s l|s name v V|s name v V]; constructor; try assumption.
  destruct G; [eapply HNewObject|eapply HSetField|eapply HNewArray|eapply HWriteArray|eapply HBorrowArray|eapply HNewClass|eapply HSetMethod|eapply HNewClosure|eapply HNewUpvalue|eapply HWriteUpvalue|eapply HIterators]; eauto.
Qed.
Lemma quiet_method nm s s' c : quiet_steps nm s s' -> c < List.length (h_classes (vm_heap s)) -> method (vm_heap s') c nm = method (vm_heap s) c nm.
Proof.
  induction 1 as [s|s1 s2 s3 H T IH]; intros Hc; [reflexivity|].
  assert (L : List.length (h_classes (vm_heap s1)) <= List.length (h_classes (vm_heap s2))).
  { eapply steps_classes_len, quiet_history, qs_one, H. }
  rewrite IH by lia. destruct H; try reflexivity. now apply (quiet_heap_method nm).
Qed.
Lemma without_quiet nm w k : (forall bc fr ups p, spares nm (r_loop (without nm w k) bc fr ups p)) /\ (forall a, spares nm (r_call (without nm w k) a)).
Proof.
  induction k as [|k [A B]]; cbn [without r_loop r_call]; [split; intros; intro s; exact I|].
  split; intros; [now apply spares_loop|now apply spares_call_fn].
Qed.

(** [m] answers what [m'] answers, unless it stops. *)
Definition low {A} (m m' : run A) : Prop := forall s, m s = RNoFuel \/ m s = m' s.
Lemma low_refl {A} (m : run A) : low m m. Proof. intro s. now right. Qed.
Lemma low_bind {A B} (m m' : run A) (f f' : A -> run B) : low m m' -> (forall a, low (f a) (f' a)) -> low (rbind m f) (rbind m' f').
Proof.
  intros H G s. unfold rbind. destruct (H s) as [-> | ->]; [now left|]. destruct (m' s) as [a s1|e s1| |]; auto. apply G.
Qed.
Lemma low_try_ok {A} (m m' : run A) : low m m' -> low (try_ok m) (try_ok m').
Proof. intros H s. unfold try_ok. destruct (H s) as [-> | ->]; [now left|now right]. Qed.

Ltac lw :=
  repeat first
    [ progress intros
    | assumption
    | solve [auto with low]
    | apply low_bind
    | match goal with
      | |- low (match ?x with _ => _ end) _ => destruct x
      end ].

Section Low.
Variables (w : world) (r r' : rec).
Hypothesis Hloop : forall bc fr ups p, low (r_loop r bc fr ups p) (r_loop r' bc fr ups p).
Hypothesis Hcall : forall k, low (r_call r k) (r_call r' k).
Hint Resolve Hloop Hcall : low.
Hint Extern 5 (low ?a ?a) => apply low_refl : low.
Hint Resolve low_try_ok : low.

Lemma low_execute bc fr ups : low (execute w r bc fr ups) (execute w r' bc fr ups).
Proof. intro s. unfold execute. apply low_bind; [apply Hloop|]. intros a. apply low_refl. Qed.
Hint Resolve low_execute : low.
Lemma low_call_fn_script k rc f ups : low (call_fn_script w r k rc f ups) (call_fn_script w r' k rc f ups).
Proof. unfold call_fn_script. lw. Qed.
Lemma low_call_function t args : low (call_function r t args) (call_function r' t args).
Proof. unfold call_function. lw. Qed.
Hint Resolve low_call_fn_script low_call_function : low.
Lemma low_call_predicate p v : low (call_predicate r p v) (call_predicate r' p v).
Proof. unfold call_predicate. lw. Qed.
Hint Resolve low_call_predicate : low.
Lemma low_find_elements p vs : low (find_elements r p vs) (find_elements r' p vs).
Proof. induction vs; cbn [find_elements]; lw. Qed.
Lemma low_filter_elements p vs : low (filter_elements r p vs) (filter_elements r' p vs).
Proof. induction vs; cbn [filter_elements]; lw. Qed.
Lemma low_map_elements p vs : low (map_elements r p vs) (map_elements r' p vs).
Proof. induction vs; cbn [map_elements]; lw. Qed.
Hint Resolve low_find_elements low_filter_elements low_map_elements : low.
Lemma low_with_elements {A} a (f f' : list value -> run A) : (forall vs, low (f vs) (f' vs)) -> low (with_elements a f) (with_elements a f').
Proof. intros H. unfold with_elements. lw; apply H. Qed.
Lemma low_call_native k args : low (call_native w r k args) (call_native w r' k args).
Proof.
  destruct k; cbn [call_native]; try apply low_refl.
  all: repeat (match goal with |- low (match ?x with _ => _ end) _ => destruct x end; lw); try apply low_with_elements; lw.
Qed.
Hint Resolve low_call_native : low.
Lemma low_call_fn_native k rc f : low (call_fn_native w r k rc f) (call_fn_native w r' k rc f).
Proof. unfold call_fn_native. lw. Qed.
Lemma low_call_class_constructor k c o : low (call_class_constructor r k c o) (call_class_constructor r' k c o).
Proof. unfold call_class_constructor. lw. Qed.
Hint Resolve low_call_fn_native low_call_class_constructor : low.
Lemma low_call_fn k : low (call_fn w r k) (call_fn w r' k).
Proof. unfold call_fn. lw. Qed.
Lemma low_call_binary_op o v : low (call_binary_op r o v) (call_binary_op r' o v).
Proof.
  unfold call_binary_op. lw. intro s. destruct (assoc_get _ _) as [f|]; [|now right].
  match goal with |- ?m s = _ \/ _ = ?m' s => assert (H : low m m') by lw; exact (H s) end.
Qed.
Hint Resolve low_call_binary_op : low.
Lemma low_binary o : low (binary w r o) (binary w r' o).
Proof. unfold binary. lw. Qed.
Lemma low_run_module bc e : low (run_module w r bc e) (run_module w r' bc e).
Proof. unfold run_module. lw. Qed.
Lemma low_run_script bc : low (run_script w r bc) (run_script w r' bc).
Proof. unfold run_script. lw. Qed.
Hint Resolve low_binary low_run_module low_run_script : low.
Lemma low_load_module k : low (load_module w r k) (load_module w r' k).
Proof.
  intro s. unfold load_module. destruct (assoc_get k (vm_modules s)) as [m|]; [now right|].
  match goal with |- ?m s = _ \/ _ = ?m' s => assert (H : low m m'); [|exact (H s)] end.
  apply low_bind; [apply low_refl|]. intros o. apply low_bind; [apply low_refl|]. intros u s1.
  match goal with |- ?m ?t = _ \/ _ = ?m' _ => assert (H : low m m') by lw; exact (H t) end.
Qed.
Hint Resolve low_load_module : low.
Lemma low_step bc fr ups i p : low (step w r bc fr ups i p) (step w r' bc fr ups i p).
Proof. destruct i as [o|o b|o a b|o z|c ds]; cbn [step]; try destruct o; lw. Qed.
Hint Resolve low_step : low.
Lemma low_loop bc fr ups p : low (loop w r bc fr ups p) (loop w r' bc fr ups p).
Proof. unfold loop. lw. Qed.
Lemma low_guarded nm bc fr ups p : low (guarded_loop nm w r bc fr ups p) (loop w r' bc fr ups p).
Proof.
  intro s. unfold guarded_loop. destruct (fetch _ _ _ _) as [[[i p']|]|e| |]; try apply low_loop. destruct (defines nm bc i); [now left|apply low_loop].
Qed.
End Low.

Lemma without_low nm w k : (forall bc fr ups p, low (r_loop (without nm w k) bc fr ups p) (r_loop (machine w k) bc fr ups p)) /\
  (forall a, low (r_call (without nm w k) a) (r_call (machine w k) a)).
Proof.
  induction k as [|k [A B]]; cbn [without machine r_loop r_call]; [split; intros; intro s; now left|].
  split; intros; [now apply low_guarded|now apply low_call_fn].
Qed.

(** Statements for C26. *)
Lemma spares_final {A} nm (m : run A) s s' c : spares nm m -> final_state (m s) = Some s' -> c < List.length (h_classes (vm_heap s)) ->
  method (vm_heap s') c nm = method (vm_heap s) c nm.
Proof.
  intros H F. specialize (H s). destruct (m s) as [a s1|e s1| |]; cbn in F; try discriminate; injection F as <-; now apply quiet_method.
Qed.
Lemma only_definitions w k nm bc s : 
  (run_script w (without nm w k) bc s = RNoFuel \/ run_script w (without nm w k) bc s = runtime_run w k bc s) /\
  forall s' c, final_state (run_script w (without nm w k) bc s) = Some s' -> c < List.length (h_classes (vm_heap s)) ->
    method (vm_heap s') c nm = method (vm_heap s) c nm.
Proof.
  destruct (without_low nm w k) as [A B]. destruct (without_quiet nm w k) as [C D]. split.
  - unfold runtime_run. now apply low_run_script.
  - intros s' c. apply spares_final. now apply spares_run_script.
Qed.
Lemma only_definitions_call w k nm a s :
  (r_call (without nm w k) a s = RNoFuel \/ r_call (without nm w k) a s = r_call (machine w k) a s) /\
  forall s' c, final_state (r_call (without nm w k) a s) = Some s' -> c < List.length (h_classes (vm_heap s)) ->
    method (vm_heap s') c nm = method (vm_heap s) c nm.
Proof.
  destruct (without_low nm w k) as [A B]. destruct (without_quiet nm w k) as [C D]. split; [apply B|].
  intros s' c. apply spares_final. apply D.
Qed.
