(** Execution of code as steps between positions, for all large enough amounts of fuel; the runtime's store
    primitives do not look at the stack or at captured variables. *)
From Verif.Spec Require Import EvalSpec.
From Verif.Proofs Require Import StackP VmPrimP HeapP RunP.
#[local] Open Scope nat_scope.

Definition at_ (bc : bytecode) (p : nat) (i : instr) (p' : nat) : Prop :=
  fetch vm_operands (bc_constants bc) (bc_data bc) (Z.of_nat p) = Ok (Some (i, Z.of_nat p')).

Inductive ending := At (q : nat) (s : vm) | Done (s : vm) | Failed (e : errcode) (s : vm) | Crashed.

Section Leads.
Variables (w : world) (bc : bytecode) (fr : frame) (ups : option (list nat)).

Definition runs (n p : nat) (s : vm) : res unit := r_loop (machine w n) bc fr ups (Z.of_nat p) s.
Definition leads (p : nat) (s : vm) (g : ending) : Prop :=
  match g with
  | At q s' => exists c k, forall n, c <= n -> runs (k + n) p s = runs n q s'
  | Done s' => exists c, forall n, c <= n -> runs n p s = ROk tt s'
  | Failed e s' => exists c, forall n, c <= n -> runs n p s = RErr e s'
  | Crashed => exists c, forall n, c <= n -> runs n p s = RPanic
  end.

Lemma leads_refl p s : leads p s (At p s).
Proof. exists 0, 0. reflexivity. Qed.

Lemma leads_trans p s q s' g : leads p s (At q s') -> leads q s' g -> leads p s g.
Proof.
  intros (c1 & k1 & H1). destruct g as [r s2|s2|e s2|]; cbn [leads].
  - intros (c2 & k2 & H2). exists (c1 + c2), (k1 + k2). intros n L. rewrite <- Nat.add_assoc, H1 by lia. apply H2. lia.
  - intros (c2 & H2). exists (k1 + (c1 + c2)). intros n L. replace n with (k1 + (n - k1)) by lia. rewrite H1 by lia. apply H2. lia.
  - intros (c2 & H2). exists (k1 + (c1 + c2)). intros n L. replace n with (k1 + (n - k1)) by lia. rewrite H1 by lia. apply H2. lia.
  - intros (c2 & H2). exists (k1 + (c1 + c2)). intros n L. replace n with (k1 + (n - k1)) by lia. rewrite H1 by lia. apply H2. lia.
Qed.

(** One instruction. *)
Definition eventually {A} (f : rec -> res A) (r : res A) : Prop := exists c, forall n, c <= n -> f (machine w n) = r.

Lemma lead_step p i p' s R : at_ bc p i p' ->
  eventually (fun r => step w r bc fr ups i (Z.of_nat p') s) R ->
  match R with
  | ROk (Continue z) s' => forall q, z = Z.of_nat q -> leads p s (At q s')
  | ROk Stop s' => leads p s (Done s')
  | RErr e s' => leads p s (Failed e s')
  | RPanic => leads p s Crashed
  | RNoFuel => True
  end.
Proof.
  intros F (c & H). destruct R as [[z|] s'|e s'| |]; cbn [leads]; auto.
  - intros q ->. exists c, 1. intros n L. cbn [plus]. unfold runs. eapply loop_continue; eauto.
  - exists (S c). intros n L. destruct n as [|n]; [lia|]. unfold runs. eapply loop_stop; [exact F|]. apply H. lia.
  - exists (S c). intros n L. destruct n as [|n]; [lia|]. unfold runs. eapply loop_err; [exact F|]. apply H. lia.
  - exists (S c). intros n L. destruct n as [|n]; [lia|]. unfold runs. cbn [machine r_loop].
    unfold loop, rbind, VM.lift. unfold at_ in F. rewrite F. rewrite H by lia. reflexivity.
Qed.

Lemma lead_ok p i p' q s s' : at_ bc p i p' ->
  (forall r, step w r bc fr ups i (Z.of_nat p') s = ROk (Continue (Z.of_nat q)) s') -> leads p s (At q s').
Proof.
  intros F H. refine (lead_step _ _ _ _ (ROk (Continue (Z.of_nat q)) s') F _ q eq_refl). exists 0. auto.
Qed.
Lemma lead_stop p i p' s s' : at_ bc p i p' ->
  (forall r, step w r bc fr ups i (Z.of_nat p') s = ROk Stop s') -> leads p s (Done s').
Proof. intros F H. apply (lead_step _ _ _ _ (ROk Stop s') F). exists 0. auto. Qed.
Lemma lead_err p i p' s e s' : at_ bc p i p' ->
  (forall r, step w r bc fr ups i (Z.of_nat p') s = RErr e s') -> leads p s (Failed e s').
Proof. intros F H. apply (lead_step _ _ _ _ (RErr e s') F). exists 0. auto. Qed.
Lemma lead_panic p i p' s : at_ bc p i p' ->
  (forall r, step w r bc fr ups i (Z.of_nat p') s = RPanic) -> leads p s Crashed.
Proof. intros F H. apply (lead_step _ _ _ _ RPanic F). exists 0. auto. Qed.

(** The end of the code. *)
Lemma lead_end p s : fetch vm_operands (bc_constants bc) (bc_data bc) (Z.of_nat p) = Ok None -> leads p s (Done s).
Proof. intros F. exists 1. intros [|n] L; [lia|]. apply loop_end. exact F. Qed.
End Leads.

(** * The store, without stack and captured variables *)
Record links := Links { k_closures : list closure_inner; k_upvalues : list upvalue_state; k_open : list nat }.
Definition hover (K : links) (h : heap) : heap := hset_upvalues (k_upvalues K) (hset_closures (k_closures K) h).
Definition overlay (K : links) (s : vm) : vm :=
  MkVm (vm_stack s) (hover K (vm_heap s)) (k_open K) (vm_globals s) (vm_modules s) (vm_any s) (vm_module_class s)
    (vm_kinds s) (vm_loads s).
Definition state (m : memory) (K : links) (b t : list value) : vm := with_stack b t (overlay K (m_vm m)).

Definition over (K : links) (b t : list value) {A} (r : res A) : res A :=
  match r with
  | ROk a s => ROk a (with_stack b t (overlay K s))
  | RErr e s => RErr e (with_stack b t (overlay K s))
  | RPanic => RPanic
  | RNoFuel => RNoFuel
  end.
Definition blind {A} (f : run A) : Prop := forall K b t s, f (with_stack b t (overlay K s)) = over K b t (f s).
Definition hblind {A} (f : heap -> A) : Prop := forall K h, f (hover K h) = f h.
Definition hkeeps {A} (f : heap -> A * heap) : Prop := forall K h, f (hover K h) = (fst (f h), hover K (snd (f h))).
Definition hkeeps_ (f : heap -> outcome heap) : Prop := forall K h, f (hover K h) = omap (hover K) (f h).

Lemma blind_ret {A} (a : A) : blind (rret a).
Proof. intros K b t s. reflexivity. Qed.
Lemma blind_fail {A} e : blind (@rfail A e).
Proof. intros K b t s. reflexivity. Qed.
Lemma blind_panic {A} : blind (@rpanic A).
Proof. intros K b t s. reflexivity. Qed.
Lemma blind_lift {A} (o : outcome A) : blind (VM.lift o).
Proof. intros K b t s. destruct o; reflexivity. Qed.
Lemma blind_bind {A B} (m : run A) (f : A -> run B) : blind m -> (forall a, blind (f a)) -> blind (rbind m f).
Proof.
  intros Hm Hf K b t s. unfold rbind. rewrite Hm. destruct (m s) as [a s1|e s1| |]; cbn [over]; auto. apply Hf.
Qed.
Lemma blind_get {A} (f : heap -> outcome A) : hblind f -> blind (heap_get f).
Proof.
  intros H K b t s. unfold heap_get. change (vm_heap (with_stack b t (overlay K s))) with (hover K (vm_heap s)).
  rewrite H. apply blind_lift.
Qed.
Lemma blind_alloc {A} (f : heap -> A * heap) : hkeeps f -> blind (heap_alloc f).
Proof.
  intros H K b t s. unfold heap_alloc. change (vm_heap (with_stack b t (overlay K s))) with (hover K (vm_heap s)).
  rewrite H. destruct (f (vm_heap s)) as [a h]. reflexivity.
Qed.
Lemma blind_upd_ (f : heap -> outcome heap) : hkeeps_ f -> blind (heap_upd_ f).
Proof.
  intros H K b t s. unfold heap_upd_, heap_upd. change (vm_heap (with_stack b t (overlay K s))) with (hover K (vm_heap s)).
  rewrite H. destruct (f (vm_heap s)); reflexivity.
Qed.

Lemma hb_as_object v : hblind (as_object v).
Proof. intros K h. destruct v; reflexivity. Qed.
Lemma hb_object_field o key : hblind (object_field o key).
Proof. intros K h. reflexivity. Qed.
Lemma hb_object_class o : hblind (object_class o).
Proof. intros K h. reflexivity. Qed.
Lemma hb_class_method c key : hblind (class_method c key).
Proof. intros K h. reflexivity. Qed.
Lemma hb_class_get c : hblind (class_get c).
Proof. intros K h. reflexivity. Qed.
Lemma hb_class_is_class c d : hblind (class_is_class c d).
Proof. intros K h. reflexivity. Qed.
Lemma hb_array_elements a : hblind (array_elements a).
Proof. intros K h. reflexivity. Qed.
Lemma hk_object_set_field o key v : hkeeps_ (object_set_field o key v).
Proof.
  intros K h. unfold object_set_field. cbn [hover h_objects hset_upvalues hset_closures h_fields].
  destruct (nth_error (h_objects h) o) as [ob|]; [|reflexivity]. destruct (nth_error (h_fields h) (ob_fields ob)); reflexivity.
Qed.
Lemma hk_array_update a vs : hkeeps_ (array_update a vs).
Proof.
  intros K h. unfold array_update. cbn [hover h_arrays hset_upvalues hset_closures].
  destruct (nth_error (h_arrays h) a) as [ar|]; [|reflexivity]. destruct (Nat.eqb (ar_borrows ar) 0); reflexivity.
Qed.
Lemma hk_array_push a v : hkeeps_ (array_push a v).
Proof. intros K h. unfold array_push. rewrite hb_array_elements. destruct (array_elements a h); cbn [obind]; auto. apply hk_array_update. Qed.
Lemma hk_object_new c : hkeeps (object_new c).
Proof. intros K h. reflexivity. Qed.
Lemma hk_array_from_vec vs : hkeeps (array_from_vec vs).
Proof. intros K h. reflexivity. Qed.

Lemma blind_array_pop a : blind (heap_upd (array_pop a)).
Proof.
  intros K b t s. unfold heap_upd. change (vm_heap (with_stack b t (overlay K s))) with (hover K (vm_heap s)).
  unfold array_pop. rewrite hb_array_elements. destruct (array_elements a (vm_heap s)) as [vs| | |]; cbn [obind]; auto.
  rewrite hk_array_update. destruct (array_update _ _ _); reflexivity.
Qed.
Lemma blind_class_of_value v : blind (class_of_value v).
Proof.
  intros K b t s. unfold class_of_value. change (vm_heap (with_stack b t (overlay K s))) with (hover K (vm_heap s)).
  rewrite hb_as_object. destruct (as_object v (vm_heap s)) as [o| | |]; try reflexivity.
  rewrite hb_object_class. destruct (object_class o (vm_heap s)) as [[c|]| | |]; reflexivity.
Qed.

Create HintDb blind.
#[export] Hint Resolve blind_ret blind_fail blind_panic blind_lift blind_get blind_alloc blind_upd_
  hb_as_object hb_object_field hb_object_class hb_class_method hb_class_get hb_class_is_class hb_array_elements
  hk_object_set_field hk_array_update hk_array_push hk_object_new hk_array_from_vec blind_array_pop blind_class_of_value : blind.

Ltac bl := repeat first
  [ progress auto with blind nocore
  | apply blind_bind; [|intros ?]
  | match goal with |- blind (match ?x with _ => _ end) => destruct x end
  | match goal with |- blind (if ?x then _ else _) => destruct x end ].

Lemma blind_is_value_of_type v c : blind (is_value_of_type v c).
Proof. unfold is_value_of_type. bl. Qed.
Lemma blind_get_method c key v : blind (get_method c key v).
Proof. unfold get_method. bl. Qed.
#[export] Hint Resolve blind_is_value_of_type blind_get_method : blind.
Lemma blind_get_field key v : blind (get_field key v).
Proof. unfold get_field. bl. Qed.
#[export] Hint Resolve blind_get_field : blind.
Lemma blind_assert_is n c v : blind (assert_is n c v).
Proof. unfold assert_is. bl. Qed.
Lemma blind_is_type c v : blind (is_type c v).
Proof. unfold is_type. bl. Qed.
Lemma blind_set_field key t v : blind (set_field key t v).
Proof. unfold set_field. bl. Qed.
Lemma blind_get_index t i : blind (get_index t i).
Proof. unfold get_index. bl. Qed.
Lemma blind_set_index t i v : blind (set_index t i v).
Proof. unfold set_index. bl. Qed.
Lemma blind_new_array vs : blind (new_array vs).
Proof. unfold new_array. bl. Qed.
Lemma blind_new_any_object : blind new_any_object.
Proof. intros K b t s. unfold new_any_object. apply (blind_alloc (object_new (Some (vm_any s)))). auto with blind. Qed.
#[export] Hint Resolve blind_assert_is blind_is_type blind_set_field blind_get_index blind_set_index blind_new_array
  blind_new_any_object : blind.

Lemma blind_any (f : nat -> heap -> outcome bool) : (forall c, hblind (f c)) -> blind (fun s => VM.lift (f (vm_any s) (vm_heap s)) s).
Proof. intros H K b t s. change (vm_heap (with_stack b t (overlay K s))) with (hover K (vm_heap s)). rewrite H. apply blind_lift. Qed.
Lemma blind_kinds (f : list (vkind * nat) -> heap -> outcome bool) : (forall c, hblind (f c)) -> blind (fun s => VM.lift (f (vm_kinds s) (vm_heap s)) s).
Proof. intros H K b t s. change (vm_heap (with_stack b t (overlay K s))) with (hover K (vm_heap s)). rewrite H. apply blind_lift. Qed.
Lemma blind_class_with_base name base : blind (heap_upd (class_with_base name base)).
Proof.
  intros K b0 t s. unfold heap_upd.
  change (vm_heap (with_stack b0 t (overlay K s))) with (hover K (vm_heap s)). unfold class_with_base.
  change (h_classes (hover K (vm_heap s))) with (h_classes (vm_heap s)). destruct (nth_error (h_classes (vm_heap s)) base) as [bk|]; [|reflexivity].
  unfold object_deep_clone. cbn [hover h_objects hset_upvalues hset_closures]. destruct (nth_error (h_objects (vm_heap s)) (cl_object bk)); reflexivity.
Qed.
Lemma blind_inherit name b : blind (inherit name b).
Proof.
  unfold inherit. apply blind_bind; [auto with blind|]. intros base. apply blind_bind; [apply (blind_any (class_eqb base)); intros c K h; reflexivity|].
  intros same. apply blind_bind.
  - apply (blind_kinds (is_value_class base)). intros l K h. induction l as [|[x c] l IH]; [reflexivity|]. cbn [is_value_class].
    change (class_eqb base c (hover K h)) with (class_eqb base c h). destruct (class_eqb base c h) as [[]| | |]; cbn [obind]; auto.
  - intros bad. destruct (negb same && bad); [auto with blind|]. apply blind_class_with_base.
Qed.
Lemma blind_class_set_method class key f : blind (heap_upd_ (class_set_method class key f)).
Proof.
  apply blind_upd_. intros K h. unfold class_set_method.
  destruct (vkind_eqb (kind f) KdFunction); [|reflexivity]. change (class_get class (hover K h)) with (class_get class h). destruct (class_get class h); reflexivity.
Qed.
Lemma blind_set_method key c f : blind (set_method key c f).
Proof. unfold set_method. apply blind_bind; [auto with blind|]. intros class. apply blind_class_set_method. Qed.
Lemma blind_super_method key c v : blind (super_method key c v).
Proof. unfold super_method. bl. Qed.
#[export] Hint Resolve blind_inherit blind_set_method blind_super_method : blind.

(** Natives that do not look at function values' captured variables. *)
Definition natives_blind (w : world) : Prop := forall c m args K h, w_native w c m args (hover K h) = w_native w c m args h.

(** Natives that neither call the function they are given nor write out a value. *)
Definition calls_back (n : native) (args : list value) : bool :=
  match n, args with
  | (NArrayFirst | NArrayFilter | NArrayMap), VArray _ :: _ :: _ => true
  | _, _ => false
  end.
Lemma blind_call_native w n args r : natives_blind w -> calls_back n args = false -> shown n args = None -> blind (call_native w r n args).
Proof.
  intros N C D.
  assert (HX : forall c m (f : native_answer -> run value), (forall x, blind (f x)) ->
            blind (fun s => f (w_native w c m args (vm_heap s)) s)).
  { intros c m f Hf K b t s. change (vm_heap (with_stack b t (overlay K s))) with (hover K (vm_heap s)). rewrite N. apply Hf. }
  destruct n; cbn [call_native]; try solve [bl].
  - destruct args as [|[] [|]]; try discriminate C; bl.
  - destruct args as [|[] [|]]; try discriminate C; bl.
  - destruct args as [|[] [|]]; try discriminate C; bl.
  - bl. apply blind_alloc. intros K h. reflexivity.
  - bl; first [apply blind_get | apply blind_upd_]; intros K h; reflexivity.
  - bl. intros K b t s. reflexivity.
  - destruct args; try discriminate D. bl.
  - assert (F : forall v, blind (let* o := heap_get (as_object v) in let* m := heap_get (object_map o) in new_array (map (fun kv => VString (fst kv)) m))).
    { intros v. apply blind_bind; [apply blind_get; intros K h; destruct v; reflexivity|]. intros o. apply blind_bind; [apply blind_get; intros K h; reflexivity|]. intros m. apply blind_new_array. }
    destruct args as [|[] l]; auto using blind_ret.
  - destruct args; [bl|]. apply blind_bind; [auto with blind|]. intros c. apply blind_bind; [|intros k; apply blind_new_array].
    intros K b t s. change (vm_any (with_stack b t (overlay K s))) with (vm_any s).
    change (class_get (match c with Some c => c | None => vm_any s end) (vm_heap (with_stack b t (overlay K s)))) with (class_get (match c with Some c => c | None => vm_any s end) (vm_heap s)).
    destruct (class_get _ _); reflexivity.
  - destruct args as [|? [|]]; try discriminate D; bl.
  - destruct args as [|v0 [|[] l]]; bl. intros K b t s0. destruct (w_native _ _ _ _ _); reflexivity.
  - apply (HX class_name method_name (fun x s => match x with AnsValue v => ROk v s | AnsErr e => RErr e s | AnsArray vs => new_array vs s end)).
    intros [v|vs|e]; [intros K b t s; reflexivity|apply blind_new_array|intros K b t s; reflexivity].
Qed.

Lemma native_no_calls w n args r r' : calls_back n args = false -> call_native w r n args = call_native w r' n args.
Proof. intros C. destruct n; try reflexivity; destruct args as [|[] [|]]; try discriminate C; reflexivity. Qed.

(** Store primitives on the machine's state. *)
Lemma on_state {A} (f : run A) m K b t : blind f ->
  f (state m K b t) = match f (m_vm m) with
                      | ROk a s => ROk a (state (set_vm s m) K b t)
                      | RErr e s => RErr e (state (set_vm s m) K b t)
                      | RPanic => RPanic
                      | RNoFuel => RNoFuel
                      end.
Proof. intros H. unfold state. rewrite H. destruct (f (m_vm m)); reflexivity. Qed.
