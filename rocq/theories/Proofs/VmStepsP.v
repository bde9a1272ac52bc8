(** Every execution of the interpreter is a history of elementary changes. *)
From Verif.Spec Require Export VmHistory.

Lemma vs_trans s1 s2 s3 : vm_steps s1 s2 -> vm_steps s2 s3 -> vm_steps s1 s3.
Proof. induction 1; intros; [assumption|]. econstructor; eauto. Qed.
Lemma vs_one s s' : vm_change s s' -> vm_steps s s'.
Proof. intros. econstructor; [eassumption|constructor]. Qed.

Definition sound {A} (m : run A) : Prop := forall s,
  match m s with ROk _ s' | RErr _ s' => vm_steps s s' | RPanic | RNoFuel => True end.

Lemma sound_ret {A} (a : A) : sound (rret a).
Proof. intro s. constructor. Qed.
Lemma sound_fail {A} e : sound (@rfail A e).
Proof. intro s. constructor. Qed.
Lemma sound_panic {A} : sound (@rpanic A).
Proof. intro s. exact I. Qed.
Lemma sound_bind {A B} (m : run A) (f : A -> run B) : sound m -> (forall a, sound (f a)) -> sound (rbind m f).
Proof.
  intros Hm Hf s. unfold rbind. specialize (Hm s). destruct (m s) as [a s1|e s1| |]; auto.
  specialize (Hf a s1). destruct (f a s1); auto; eapply vs_trans; eauto.
Qed.
Lemma sound_lift {A} (o : outcome A) : sound (lift o).
Proof. intro s. unfold lift. destruct o; try exact I; constructor. Qed.
Lemma sound_on_stack {A} (f : stack value -> outcome (A * stack value)) : sound (on_stack f).
Proof.
  intro s. unfold on_stack. destruct (f (vm_stack s)) as [[a st]|e| |]; try exact I; try constructor.
  apply vs_one. constructor.
Qed.
Lemma sound_on_stack_ f : sound (on_stack_ f).
Proof. apply sound_on_stack. Qed.
Lemma sound_heap_get {A} (f : heap -> outcome A) : sound (heap_get f).
Proof. intro s. apply sound_lift. Qed.
Lemma sound_read {A} (f : vm -> outcome A) : sound (fun s => lift (f s) s).
Proof. intro s. apply sound_lift. Qed.
Lemma sound_heap_alloc {A} (f : heap -> A * heap) :
  (forall h a h', f h = (a, h') -> heap_change h h') -> sound (heap_alloc f).
Proof.
  intros Hf s. unfold heap_alloc. destruct (f (vm_heap s)) as [a h] eqn:E.
  apply vs_one. constructor. eapply Hf; eauto.
Qed.
Lemma sound_heap_upd {A} (f : heap -> outcome (A * heap)) :
  (forall h a h', f h = Ok (a, h') -> heap_change h h') -> sound (heap_upd f).
Proof.
  intros Hf s. unfold heap_upd. destruct (f (vm_heap s)) as [[a h]|e| |] eqn:E; try exact I; [|constructor].
  apply vs_one. constructor. eapply Hf; eauto.
Qed.
Lemma sound_heap_upd_ (f : heap -> outcome heap) :
  (forall h h', f h = Ok h' -> heap_change h h') -> sound (heap_upd_ f).
Proof.
  intros Hf. apply sound_heap_upd. intros h a h' E. destruct (f h) as [h1|e| |] eqn:E1; try discriminate.
  cbn in E. inversion E; subst. auto.
Qed.
Lemma sound_set_open f : sound (fun s => ROk tt (set_open (f s) s)).
Proof. intro s. apply vs_one. constructor. Qed.
Lemma sound_set_open_u {A} (u : A) f : sound (fun s => ROk u (set_open (f s) s)).
Proof. intro s. apply vs_one. constructor. Qed.
Lemma sound_by_state {A} (f : vm -> run A) : (forall x, sound (f x)) -> sound (fun s => f s s).
Proof. intros H s. apply H. Qed.
Lemma sound_pure {A} (f : vm -> A) : sound (fun s => ROk (f s) s).
Proof. intro s. constructor. Qed.

#[global] Hint Resolve sound_ret sound_fail sound_panic sound_lift sound_on_stack sound_on_stack_
  sound_heap_get sound_read sound_set_open sound_set_open_u sound_pure : sound.

Lemma sound_push v : sound (push v). Proof. apply sound_on_stack_. Qed.
Lemma sound_pop : sound pop. Proof. apply sound_on_stack. Qed.
Lemma sound_pop_count n : sound (pop_count n). Proof. apply sound_on_stack. Qed.
Lemma sound_peek n : sound (peek n). Proof. apply sound_read. Qed.
Lemma sound_poke n v : sound (poke n v). Proof. apply sound_on_stack_. Qed.
Lemma sound_frame_get f i : sound (frame_get f i). Proof. apply sound_read. Qed.
Lemma sound_frame_set f i v : sound (frame_set f i v). Proof. apply sound_on_stack_. Qed.
#[global] Hint Resolve sound_push sound_pop sound_pop_count sound_peek sound_poke sound_frame_get sound_frame_set : sound.

Lemma sound_const_at bc i : sound (const_at bc i).
Proof. unfold const_at. destruct (nth_error _ _); auto with sound. Qed.
#[global] Hint Resolve sound_const_at : sound.

Ltac sn :=
  repeat first
    [ progress intros
    | assumption
    | solve [auto with sound]
    | apply sound_bind
    | match goal with
      | |- sound (match ?x with _ => _ end) => destruct x
      | |- sound (if ?x then _ else _) => destruct x
      | |- sound (let '(_, _) := ?x in _) => destruct x
      end ].

Lemma sound_symbol_at bc i : sound (symbol_at bc i).
Proof. unfold symbol_at. sn. Qed.
#[global] Hint Resolve sound_symbol_at : sound.

Lemma sound_class_of_value v : sound (class_of_value v).
Proof.
  intro s. unfold class_of_value. destruct (as_object v (vm_heap s)) as [o|e| |]; try exact I; [|constructor].
  destruct (object_class o (vm_heap s)) as [[c|]|e| |]; try exact I; constructor.
Qed.
#[global] Hint Resolve sound_class_of_value : sound.
Lemma sound_is_value_of_type v c : sound (is_value_of_type v c).
Proof. unfold is_value_of_type. sn. Qed.
#[global] Hint Resolve sound_is_value_of_type : sound.
Lemma sound_get_method c k v : sound (get_method c k v).
Proof. unfold get_method. sn. Qed.
#[global] Hint Resolve sound_get_method : sound.
Lemma sound_get_field k v : sound (get_field k v).
Proof. unfold get_field. sn. Qed.
#[global] Hint Resolve sound_get_field : sound.
Lemma sound_find_open_upvalue k : sound (find_open_upvalue k).
Proof. apply sound_read. Qed.
#[global] Hint Resolve sound_find_open_upvalue : sound.

Lemma sound_object_new c : sound (heap_alloc (object_new c)).
Proof. apply sound_heap_alloc. intros. eapply HNewObject; eauto. Qed.
Lemma sound_set_field o k v : sound (heap_upd_ (object_set_field o k v)).
Proof. apply sound_heap_upd_. intros. eapply HSetField; eauto. Qed.
Lemma sound_array_from_vec vs : sound (heap_alloc (array_from_vec vs)).
Proof. apply sound_heap_alloc. intros. eapply HNewArray; eauto. Qed.
Lemma sound_array_update a vs : sound (heap_upd_ (array_update a vs)).
Proof. apply sound_heap_upd_. intros. eapply HWriteArray; eauto. Qed.
Lemma sound_array_borrows f a : sound (heap_upd_ (array_set_borrows f a)).
Proof. apply sound_heap_upd_. intros. eapply HBorrowArray; eauto. Qed.
Lemma sound_array_push a v : sound (heap_upd_ (array_push a v)).
Proof.
  apply sound_heap_upd_. unfold array_push. intros h h' E.
  destruct (array_elements a h) eqn:E1; try discriminate. cbn in E. eapply HWriteArray; eauto.
Qed.
Lemma sound_array_pop a : sound (heap_upd (array_pop a)).
Proof.
  apply sound_heap_upd. unfold array_pop. intros h x h' E.
  destruct (array_elements a h) as [vs|e| |] eqn:E1; try discriminate. cbn in E.
  destruct (array_update a _ h) eqn:E2; try discriminate. cbn in E. inversion E; subst.
  eapply HWriteArray; eauto.
Qed.
Lemma sound_class_with_base n b : sound (heap_upd (class_with_base n b)).
Proof. apply sound_heap_upd. intros. eapply HNewClass; eauto. Qed.
Lemma sound_set_method c n m : sound (heap_upd_ (class_set_method c n m)).
Proof. apply sound_heap_upd_. intros. eapply HSetMethod; eauto. Qed.
Lemma sound_closure_new f u : sound (heap_alloc (closure_new f u)).
Proof. apply sound_heap_alloc. intros. eapply HNewClosure; eauto. Qed.
Lemma sound_new_open i : sound (heap_alloc (upvalue_new_open i)).
Proof. apply sound_heap_alloc. intros. eapply HNewUpvalue; eauto. Qed.
Lemma sound_upvalue_write u x : sound (heap_upd_ (upvalue_write u x)).
Proof. apply sound_heap_upd_. intros. eapply HWriteUpvalue; eauto. Qed.
Lemma sound_iter_alloc x :
  sound (heap_alloc (fun h => (List.length (h_iters h), hset_iters (h_iters h ++ [x]) h))).
Proof. apply sound_heap_alloc. intros. inversion H; subst. constructor. Qed.
Lemma sound_iter_set c x :
  sound (heap_upd_ (fun h => Ok (hset_iters (set_nth (h_iters h) c x) h))).
Proof. apply sound_heap_upd_. intros. inversion H; subst. constructor. Qed.
#[global] Hint Resolve sound_object_new sound_set_field sound_array_from_vec sound_array_update sound_array_borrows
  sound_array_push sound_array_pop sound_class_with_base sound_set_method sound_closure_new sound_new_open
  sound_upvalue_write sound_iter_alloc sound_iter_set : sound.

Lemma sound_new_array vs : sound (new_array vs).
Proof. unfold new_array. sn. Qed.
Lemma sound_new_any_object : sound new_any_object.
Proof. unfold new_any_object. apply (sound_by_state (fun s => heap_alloc (object_new (Some (vm_any s))))). sn. Qed.
#[global] Hint Resolve sound_new_array sound_new_any_object : sound.

Lemma sound_upvalue_at ups i : sound (upvalue_at ups i).
Proof. unfold upvalue_at. sn. Qed.
#[global] Hint Resolve sound_upvalue_at : sound.
Lemma sound_load_upvalue ups i : sound (load_upvalue ups i).
Proof. unfold load_upvalue. sn. Qed.
Lemma sound_write_upvalue u v : sound (write_upvalue u v).
Proof. unfold write_upvalue. sn. Qed.
Lemma sound_close_upvalue fr i : sound (close_upvalue fr i).
Proof. unfold close_upvalue. sn. Qed.
Lemma sound_capture fr ups ds : sound (capture fr ups ds).
Proof. induction ds as [|[a b] ds IH]; cbn [capture]; sn. Qed.
#[global] Hint Resolve sound_load_upvalue sound_write_upvalue sound_close_upvalue sound_capture : sound.
Lemma sound_create_closure bc fr ups c ds : sound (create_closure bc fr ups c ds).
Proof. unfold create_closure. sn. Qed.
Lemma sound_store_global n : sound (store_global n).
Proof.
  unfold store_global. apply sound_bind; [auto with sound|]. intros v s.
  destruct (assoc_get n (vm_globals s)) eqn:E; [constructor|]. apply vs_one. constructor; assumption.
Qed.
Lemma sound_load_global n : sound (load_global n).
Proof. intro s. unfold load_global. destruct (assoc_get n (vm_globals s)); [apply sound_push|constructor]. Qed.
Lemma sound_write_field a k : sound (write_field a k).
Proof. unfold write_field. sn. Qed.
Lemma sound_load_index : sound load_index.
Proof. unfold load_index. sn. Qed.
Lemma sound_write_index a : sound (write_index a).
Proof. unfold write_index. sn. Qed.
Lemma sound_load_method k : sound (load_method k).
Proof. unfold load_method. sn. Qed.
Lemma sound_store_method k : sound (store_method k).
Proof. unfold store_method. sn. Qed.
Lemma sound_assert_type c v : sound (assert_type c v).
Proof. unfold assert_type. sn. Qed.
#[global] Hint Resolve sound_create_closure sound_store_global sound_load_global sound_write_field sound_load_index
  sound_write_index sound_load_method sound_store_method sound_assert_type : sound.
Lemma sound_assert_local n fr i : sound (assert_type_for_local n fr i).
Proof. unfold assert_type_for_local. sn. Qed.
Lemma sound_assert_return n : sound (assert_type_and_return n).
Proof. unfold assert_type_and_return. sn. Qed.
Lemma sound_inherit_class n : sound (inherit_class n).
Proof. unfold inherit_class. sn. Qed.
#[global] Hint Resolve sound_assert_local sound_assert_return sound_inherit_class : sound.

Section Machine.
Variable w : world.
Variable r : rec.
Hypothesis Hloop : forall bc fr ups p, sound (r_loop r bc fr ups p).
Hypothesis Hcall : forall n, sound (r_call r n).
Hint Resolve Hloop Hcall : sound.

Lemma sound_execute bc fr ups : sound (execute w r bc fr ups).
Proof.
  intro s. unfold execute. eapply sound_bind; [apply Hloop|]. intros a s'.
  destruct (_ && _); [exact I|apply sound_pop].
Qed.
Hint Resolve sound_execute : sound.
Lemma sound_call_fn_script n rc f ups : sound (call_fn_script w r n rc f ups).
Proof. unfold call_fn_script. sn. Qed.
Lemma sound_call_function t args : sound (call_function r t args).
Proof. unfold call_function. sn. Qed.
Hint Resolve sound_call_fn_script sound_call_function : sound.
Lemma sound_try_ok {A} (m : run A) : sound m -> sound (try_ok m).
Proof. intros H s. unfold try_ok. specialize (H s). destruct (m s); auto. Qed.
Lemma sound_call_predicate p v : sound (call_predicate r p v).
Proof. unfold call_predicate. apply sound_bind; [apply sound_try_ok; auto with sound|]. sn. Qed.
Hint Resolve sound_call_predicate : sound.
Lemma sound_find_elements p vs : sound (find_elements r p vs).
Proof. induction vs; cbn [find_elements]; sn. Qed.
Lemma sound_filter_elements p vs : sound (filter_elements r p vs).
Proof. induction vs; cbn [filter_elements]; sn. Qed.
Lemma sound_map_elements p vs : sound (map_elements r p vs).
Proof.
  induction vs; cbn [map_elements]; [auto with sound|].
  apply sound_bind; [apply sound_try_ok; auto with sound|]. sn.
Qed.
Hint Resolve sound_find_elements sound_filter_elements sound_map_elements : sound.
Lemma sound_with_elements {A} a (f : list value -> run A) : (forall vs, sound (f vs)) -> sound (with_elements a f).
Proof. intros H. unfold with_elements. sn. Qed.
Lemma sound_ext (k : heap -> native_answer) :
  sound (fun s => match k (vm_heap s) with AnsValue v => ROk v s | AnsErr e => RErr e s | AnsArray vs => new_array vs s end).
Proof. intro s. destruct (k (vm_heap s)); try constructor. apply sound_new_array. Qed.
Lemma sound_ext' (k : heap -> native_answer) :
  sound (fun s => match k (vm_heap s) with AnsValue v => ROk v s | AnsErr e => RErr e s | AnsArray vs => ROk VNull s end).
Proof. intro s. destruct (k (vm_heap s)); constructor. Qed.
Lemma sound_call_native n args : sound (call_native w r n args).
Proof.
  destruct n; cbn [call_native].
  all: try solve [sn].
  all: try solve [ repeat (match goal with |- sound (match ?x with _ => _ end) => destruct x end; sn);
                   try apply sound_with_elements; sn ].
  - repeat (match goal with |- sound (match ?x with _ => _ end) => destruct x end; sn);
      apply (sound_ext' (fun _ => w_native w _ _ _ heap_empty)).
  - apply (sound_ext (w_native w _ _ _)).
Qed.
Hint Resolve sound_call_native : sound.
Lemma sound_call_fn_native n rc f : sound (call_fn_native w r n rc f).
Proof. unfold call_fn_native. sn. Qed.
Lemma sound_call_class_constructor n c o : sound (call_class_constructor r n c o).
Proof. unfold call_class_constructor. sn. Qed.
Hint Resolve sound_call_fn_native sound_call_class_constructor : sound.
Lemma sound_call_fn n : sound (call_fn w r n).
Proof. unfold call_fn. sn. Qed.
Lemma sound_call_binary_op o v : sound (call_binary_op r o v).
Proof.
  unfold call_binary_op. sn. intro s. destruct (assoc_get _ _) as [f|]; [|constructor].
  match goal with |- context [match ?m s with _ => _ end] =>
    assert (H : sound m) by sn; exact (H s) end.
Qed.
Hint Resolve sound_call_binary_op : sound.
Lemma sound_binary o : sound (binary w r o).
Proof. unfold binary. sn. Qed.
Lemma sound_run_module bc e : sound (run_module w r bc e).
Proof. unfold run_module. sn. Qed.
Lemma sound_run_script bc : sound (run_script w r bc).
Proof. unfold run_script. sn. Qed.
Hint Resolve sound_binary sound_run_module sound_run_script : sound.
Lemma sound_load_module n : sound (load_module w r n).
Proof.
  intro s. unfold load_module. destruct (assoc_get n (vm_modules s)) as [m|] eqn:E; [apply sound_push|].
  destruct (object_new (Some (vm_module_class s)) (vm_heap s)) as [o h] eqn:Eo.
  set (s1 := set_heap h s).
  assert (S1 : vm_steps s s1) by (apply vs_one; constructor; eapply HNewObject; eauto).
  assert (E1 : assoc_get n (vm_modules s1) = None) by exact E.
  set (s2 := set_loads (n :: vm_loads s1) (set_modules (assoc_set n (VObject o) (vm_modules s1)) s1)).
  assert (S2 : vm_steps s s2) by (eapply vs_trans; [exact S1|]; apply vs_one; constructor; exact E1).
  set (m := let* bc := lift (w_load w (vm_loads s1) n) in let* x := run_module w r bc (VObject o) in push x).
  assert (H : sound m) by (unfold m; sn).
  enough (G : match m s2 with ROk _ s' | RErr _ s' => vm_steps s s' | RPanic | RNoFuel => True end).
  { unfold rbind at 1. unfold heap_alloc. rewrite Eo. exact G. }
  specialize (H s2). destruct (m s2); auto; eapply vs_trans; eauto.
Qed.
Hint Resolve sound_load_module : sound.
Lemma sound_step bc fr ups i p : sound (step w r bc fr ups i p).
Proof.
  destruct i as [o|o b|o a b|o z|c ds]; cbn [step].
  - destruct o; sn.
  - destruct o; sn.
  - destruct o; sn.
  - destruct o; sn.
  - sn.
Qed.
Hint Resolve sound_step : sound.
Lemma sound_loop bc fr ups p : sound (loop w r bc fr ups p).
Proof. unfold loop. sn. Qed.
End Machine.

Theorem machine_sound w n :
  (forall bc fr ups p, sound (r_loop (machine w n) bc fr ups p)) /\
  (forall k, sound (r_call (machine w n) k)).
Proof.
  induction n as [|n [IH1 IH2]]; cbn [machine r_loop r_call].
  - split; intros; intro s; exact I.
  - split; intros; [apply sound_loop|apply sound_call_fn]; assumption.
Qed.

Theorem run_is_history w n bc s :
  match runtime_run w n bc s with ROk _ s' | RErr _ s' => vm_steps s s' | RPanic | RNoFuel => True end.
Proof. unfold runtime_run. destruct (machine_sound w n). apply sound_run_script; assumption. Qed.
