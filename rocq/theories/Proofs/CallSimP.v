(** Calls and operators: machine against interpreter, given what calls do. *)
From Verif.Spec Require Import SupportSpec.
From Verif.Proofs Require Import StackP VmPrimP CallP ReachP CodeP MemP StepP ScopeSimP.
#[local] Open Scope string_scope.
#[local] Open Scope list_scope.
#[local] Open Scope nat_scope.

Section Call.
Variable w : world.
Variable lit : nat -> fn_bytecode.
Hypothesis W : natives_blind w.
Notation Inv := (Inv lit).
Notation good := (good lit).
Notation eventually f := (eventually w f).

(** What an action of the machine does, against the interpreter's answer. *)
Definition gresult (f : rec -> res unit) (rho : names_of) (V : view) (b : list value) (t : list value) (a : answer) : Prop :=
  match a with
  | AVal v m' => exists rho' b' K', eventually f (ROk tt (state m' K' b' (v :: t))) /\ good (List.length b) rho V b rho' V b' m' K'
  | AFail e m' => exists st K', eventually f (RErr e (set_stack st (overlay K' (m_vm m'))))
  | ACrash => eventually f RPanic
  | AUnknown => True
  | _ => False
  end.
(** A call of [callee] with [args]. *)
Definition cresult (rho : names_of) (V : view) (b : list value) (m : memory) (K : links) (t : list value) (callee : value) (args : list value)
    (a : answer) : Prop :=
  gresult (fun r => r_call r (List.length args) (state m K b (rev args ++ callee :: t))) rho V b t a.
Definition sim_call (I : interp) : Prop :=
  (forall room callee args m rho V b K t, Inv rho V b m K -> List.length b + List.length t + room <= max_stack_size ->
     1 + List.length args <= room ->
     cresult rho V b m K t callee args (i_call I room callee args m)) /\
  (forall room callee args m, room < 1 + List.length args -> i_call I room callee args m = AUnknown).

(** An import. *)
Definition sim_import (I : interp) : Prop :=
  forall room name m rho V b K t, Inv rho V b m K -> List.length b + List.length t + room <= max_stack_size -> 1 <= room ->
    gresult (fun r => load_module w r name (state m K b t)) rho V b t (i_import I room name m).

Lemma eventually_now {A} (f : rec -> res A) R : (forall r, f r = R) -> eventually f R.
Proof. intros H. exists 0. auto. Qed.
Lemma eventually_eq {A B} (f : rec -> res A) (g : rec -> res B) h R R' : (forall r, g r = h (f r)) -> h R = R' -> eventually f R -> eventually g R'.
Proof. intros E <- (c & H). exists c. intros n L. now rewrite E, H. Qed.

Lemma vbind_val a : vbind a AVal = a.
Proof. destruct a; reflexivity. Qed.

Section Frame.
Variables (bc : bytecode) (fr : frame) (ups : option (list nat)).
Notation leads := (leads w bc fr ups).

(** A step whose outcome is that of an action. *)
Definition onward {A} (q : nat) (x : res A) : res VM.next :=
  match x with ROk _ s => rret (Continue (Z.of_nat q)) s | RErr e s => RErr e s | RPanic => RPanic | RNoFuel => RNoFuel end.
Lemma step_action (P : answer -> Prop) f rho V b t a p i q s0 next :
  at_ bc p i q ->
  (forall r, step w r bc fr ups i (Z.of_nat q) s0 = onward q (f r)) ->
  gresult f rho V b t a -> sound w P bc fr ups p s0 ->
  (forall v m' rho' b' K', leads p s0 (At q (state m' K' b' (v :: t))) -> good (List.length b) rho V b rho' V b' m' K' -> P (next v m')) ->
  P (vbind a next).
Proof.
  intros A ST C S N. destruct a as [v m'|m'|m'|v m'|m'|e m'| |]; cbn [gresult vbind] in *; try contradiction.
  - destruct C as (rho' & b' & K' & E & G). eapply N; [|exact G].
    refine (lead_step w bc fr ups _ _ _ _ (ROk (Continue (Z.of_nat q)) _) A _ q eq_refl).
    eapply eventually_eq with (h := onward q); [exact ST| |exact E]. reflexivity.
  - destruct C as (st & K' & E). apply (so_fail _ _ _ _ _ _ _ S). exists st, K'.
    refine (lead_step w bc fr ups _ _ _ _ (RErr e _) A _).
    eapply eventually_eq with (h := onward q); [exact ST| |exact E]. reflexivity.
  - apply (so_crash _ _ _ _ _ _ _ S). refine (lead_step w bc fr ups _ _ _ _ RPanic A _).
    eapply eventually_eq with (h := onward q); [exact ST| |exact C]. reflexivity.
  - apply (so_unknown _ _ _ _ _ _ _ S).
Qed.
Lemma step_call (P : answer -> Prop) rho V b m K t callee args a p i q s0 next :
  at_ bc p i q ->
  (forall r, step w r bc fr ups i (Z.of_nat q) s0 = (r_call r (List.length args) >>> rret (Continue (Z.of_nat q))) (state m K b (rev args ++ callee :: t))) ->
  cresult rho V b m K t callee args a -> sound w P bc fr ups p s0 ->
  (forall v m' rho' b' K', leads p s0 (At q (state m' K' b' (v :: t))) -> good (List.length b) rho V b rho' V b' m' K' -> P (next v m')) ->
  P (vbind a next).
Proof. intros A ST C S N. exact (step_action P _ rho V b t a p i q s0 next A ST C S N). Qed.

Lemma import_sim (P : answer -> Prop) I rho V b m K t room name p q next :
  sim_import I -> Inv rho V b m K -> List.length b + List.length t + room <= max_stack_size -> 1 <= room ->
  at_const bc OpLoadModule (CSymbol name) p q -> sound w P bc fr ups p (state m K b t) ->
  (forall v m' rho' b' K', leads p (state m K b t) (At q (state m' K' b' (v :: t))) ->
     good (List.length b) rho V b rho' V b' m' K' -> P (next v m')) ->
  P (vbind (i_import I room name m) next).
Proof.
  intros SI HI R L A S N. apply sym_at in A. destruct A as (i & A & E).
  eapply step_action; [exact A| |apply (SI room name m rho V b K t HI R L)|exact S|exact N].
  intros r. cbn [step]. unfold rbind at 1 2. rewrite E. unfold rbind, onward. destruct (load_module w r name (state m K b t)); reflexivity.
Qed.

Lemma call_sim (P : answer -> Prop) I rho V b m K t room callee args p q next :
  sim_call I -> Inv rho V b m K -> List.length b + List.length t + room <= max_stack_size ->
  at_ bc p (IByte OpCall (List.length args)) q -> sound w P bc fr ups p (state m K b (rev args ++ callee :: t)) ->
  (forall v m' rho' b' K', leads p (state m K b (rev args ++ callee :: t)) (At q (state m' K' b' (v :: t))) ->
     good (List.length b) rho V b rho' V b' m' K' -> P (next v m')) ->
  P (vbind (i_call I room callee args m) next).
Proof.
  intros (SC & LOW) HI R A S N. destruct (Nat.lt_ge_cases room (1 + List.length args)) as [L|L].
  - rewrite LOW by assumption. apply (so_unknown _ _ _ _ _ _ _ S).
  - eapply step_call; [exact A| |apply SC; eauto|exact S|exact N]. reflexivity.
Qed.

Definition binary_opcode (o : opcode) : bool :=
  match o with
  | OpMultiply | OpDivide | OpRemainder | OpAdd | OpSubtract | OpGreaterThan | OpLessThan | OpGreaterThanOrEqual
  | OpLessThanOrEqual | OpEqual | OpNotEqual | OpRangeInclusive | OpRangeExclusive => true
  | _ => false
  end.
Lemma overload_sim (P : answer -> Prop) I rho V b m K t room o l r p q next :
  sim_call I -> Inv rho V b m K -> List.length b + List.length t + room <= max_stack_size -> fits b t 2 ->
  at_ bc p (INone o) q ->
  (forall rc, step w rc bc fr ups (INone o) (Z.of_nat q) (state m K b (r :: l :: t)) =
     (call_binary_op rc (operator_name o) r >>> rret (Continue (Z.of_nat q))) (state m K b (l :: t))) ->
  sound w P bc fr ups p (state m K b (r :: l :: t)) ->
  (forall v m' rho' b' K', leads p (state m K b (r :: l :: t)) (At q (state m' K' b' (v :: t))) -> good (List.length b) rho V b rho' V b' m' K' -> P (next v m')) ->
  P (vbind (overload I room (operator_name o) l r m) next).
Proof.
  intros (SC & LOW) HI R F A ST S N. unfold overload, with_vm.
  assert (GF : blind (get_field (operator_name o) l)) by auto with blind.
  assert (ST1 : forall rc, step w rc bc fr ups (INone o) (Z.of_nat q) (state m K b (r :: l :: t)) =
     ((let* method := get_field (operator_name o) l in
      match method with
      | VNull => fun s =>
          match assoc_get (operator_name o) (vm_globals s) with
          | Some f => (push f >>> push l >>> push r >>> r_call rc 2) s
          | None => RErr GLOBAL_OPERATOR_UNDEFINED s
          end
      | _ => push method >>> push r >>> r_call rc 1
      end) >>> rret (Continue (Z.of_nat q))) (state m K b t)).
  { intros rc. rewrite ST. unfold call_binary_op. rewrite rbind_assoc. unfold rbind at 1. rewrite state_pop by room. reflexivity. }
  unfold rbind at 1 2 in ST1. setoid_rewrite (on_state _ m K b t GF) in ST1.
  destruct (get_field (operator_name o) l (m_vm m)) as [method s'|e s'| |].
  - assert (HI' : Inv rho V b (set_vm s' m) K) by now apply Inv_vm.
    assert (M : forall meth, (forall rc, step w rc bc fr ups (INone o) (Z.of_nat q) (state m K b (r :: l :: t)) =
         ((push meth >>> push r >>> r_call rc 1) >>> rret (Continue (Z.of_nat q))) (state (set_vm s' m) K b t)) ->
         P (vbind (i_call I room meth [r] (set_vm s' m)) next)).
    { intros meth ST2. destruct (Nat.lt_ge_cases room (1 + List.length [r])) as [L|L].
      - rewrite LOW by assumption. apply (so_unknown _ _ _ _ _ _ _ S).
      - cbn [List.length] in L. eapply step_call; [exact A| |apply SC; eauto|exact S|exact N].
        intros rc. rewrite ST2. rewrite rbind_assoc. unfold rbind at 1. rewrite state_push by room.
        rewrite rbind_assoc. unfold rbind at 1. rewrite state_push by room. reflexivity. }
    destruct method; try (apply M; intros rc; rewrite ST1; reflexivity).
    change (vm_globals (m_vm (set_vm s' m))) with (vm_globals s'). change (vm_globals (state (set_vm s' m) K b t)) with (vm_globals s') in ST1.
    destruct (assoc_get (operator_name o) (vm_globals s')) as [f|].
    + destruct (Nat.lt_ge_cases room (1 + List.length [l; r])) as [L|L].
      * rewrite LOW by assumption. apply (so_unknown _ _ _ _ _ _ _ S).
      * cbn [List.length] in L. eapply step_call; [exact A| |apply SC; eauto|exact S|exact N].
        intros rc. rewrite ST1. change (match (push f >>> push l >>> push r >>> r_call rc 2) (state (set_vm s' m) K b t) with
          | ROk _ s => rret (Continue (Z.of_nat q)) s | RErr e s => RErr e s | RPanic => RPanic | RNoFuel => RNoFuel end)
          with (((push f >>> push l >>> push r >>> r_call rc 2) >>> rret (Continue (Z.of_nat q))) (state (set_vm s' m) K b t)).
        rewrite rbind_assoc. unfold rbind at 1. rewrite state_push by room.
        rewrite rbind_assoc. unfold rbind at 1. rewrite state_push by room. rewrite rbind_assoc. unfold rbind at 1. rewrite state_push by room. reflexivity.
    + apply (so_fail _ _ _ _ _ _ _ S). eapply fails_at. eapply lead_err; [exact A|]. exact ST1.
  - apply (so_fail _ _ _ _ _ _ _ S). eapply fails_at. eapply lead_err; [exact A|]. exact ST1.
  - apply (so_crash _ _ _ _ _ _ _ S). eapply lead_panic; [exact A|]. exact ST1.
  - apply (so_unknown _ _ _ _ _ _ _ S).
Qed.

Lemma operate_sim (P : answer -> Prop) I rho V b m K t room o l r p q next :
  sim_call I -> Inv rho V b m K -> List.length b + List.length t + room <= max_stack_size -> fits b t 2 ->
  at_ bc p (INone o) q -> binary_opcode o = true ->
  sound w P bc fr ups p (state m K b (r :: l :: t)) ->
  (forall v m' rho' b' K', leads p (state m K b (r :: l :: t)) (At q (state m' K' b' (v :: t))) -> good (List.length b) rho V b rho' V b' m' K' -> P (next v m')) ->
  P (vbind (operate w I room o l r m) next).
Proof.
  intros SC HI R F A BO S N.
  assert (RG : o = OpRangeInclusive \/ o = OpRangeExclusive -> P (vbind (overload I room (operator_name o) l r m) next)).
  { intros Ho. eapply overload_sim; eauto. intros rc. destruct Ho as [-> | ->]; cbn [step]; rewrite rbind_assoc; unfold rbind at 1; rewrite state_pop by room; reflexivity. }
  assert (BN : o <> OpRangeInclusive -> o <> OpRangeExclusive ->
    forall rc, step w rc bc fr ups (INone o) (Z.of_nat q) (state m K b (r :: l :: t)) =
     (match builtin_binary (w_dbg w) o l r with
      | Some x => let* v := VM.lift x in poke 0 v
      | None => call_binary_op rc (operator_name o) r
      end >>> rret (Continue (Z.of_nat q))) (state m K b (l :: t))).
  { intros N1 N2 rc. assert (E : step w rc bc fr ups (INone o) (Z.of_nat q) = (binary w rc o >>> rret (Continue (Z.of_nat q)))) by (destruct o; try discriminate BO; try congruence; reflexivity).
    rewrite E. unfold binary. rewrite rbind_assoc. unfold rbind at 1. rewrite state_pop by room.
    rewrite rbind_assoc. unfold rbind at 1. rewrite (state_peek _ _ _ _ 0 l) by reflexivity. reflexivity. }
  assert (M : o <> OpRangeInclusive -> o <> OpRangeExclusive -> P (vbind (match builtin_binary (w_dbg w) o l r with
      | Some x => of_outcome x m
      | None => overload I room (operator_name o) l r m
      end) next)).
  { intros N1 N2. specialize (BN N1 N2). destruct (builtin_binary (w_dbg w) o l r) as [[v|e| |]|]; cbn [of_outcome vbind VM.lift] in *.
    - apply (N v m rho b K).
      + eapply lead_ok; [exact A|]. intros rc. rewrite BN. unfold rbind, VM.lift. rewrite state_poke by room. reflexivity.
      + split; auto using ext_refl, keep_refl.
    - apply (so_fail _ _ _ _ _ _ _ S). eapply fails_at. eapply lead_err; [exact A|]. intros rc. rewrite BN. reflexivity.
    - apply (so_crash _ _ _ _ _ _ _ S). eapply lead_panic; [exact A|]. intros rc. rewrite BN. reflexivity.
    - apply (so_unknown _ _ _ _ _ _ _ S).
    - eapply overload_sim; eauto. }
  unfold operate. destruct o; try discriminate BO; (apply RG; auto; fail) || (apply M; discriminate).
Qed.
End Frame.

(** Callees that are not script functions. *)
Lemma not_function_sim rho V b m K t callee args :
  (match (match callee with VFnBound _ f => f | f => f end) with VFnScript _ | VFnClosure _ | VFnNative _ | VClass _ => False | _ => True end) ->
  cresult rho V b m K t callee args (AFail TYPE_ASSERTION_FUNCTION_FAILURE m).
Proof.
  intros H. exists (stack_with b (rev args ++ callee :: t)), K. exists 1. intros [|k] L; [lia|]. cbn [machine r_call]. unfold call_fn. unfold rbind at 1. unfold state at 1.
  rewrite (peek_callee b args callee t). destruct callee; try contradiction; try reflexivity.
  destruct callee2; try contradiction; reflexivity.
Qed.

Lemma eventually_call {argc s R} : eventually (fun r => call_fn w r argc s) R -> eventually (fun r => r_call r argc s) R.
Proof. intros (c & H). exists (S c). intros [|n] L; [lia|]. cbn [machine r_call]. apply H. lia. Qed.

(** Running a constructor on [self]. *)
Lemma initialize_sim I rho V b m K t room callee c self args :
  sim_call I -> Inv rho V b m K -> List.length b + List.length t + room <= max_stack_size -> 1 + List.length args <= room ->
  gresult (fun r => (let* v := call_class_constructor r (List.length args) c self in push v) (state m K b (rev args ++ callee :: t))) rho V b t
    (initialize I room c self args m).
Proof.
  intros (SC & LOW) HI R L. set (argc := List.length args). set (st := rev args ++ callee :: t).
  set (F := fun r => (let* v := call_class_constructor r argc c self in push v) (state m K b st)).
  assert (E0 : forall r, F r = (let* v := call_class_constructor r argc c self in push v) (state m K b st)) by reflexivity.
  unfold initialize, call_class_constructor in *. setoid_rewrite rbind_assoc in E0. unfold with_vm at 1.
  assert (B2 : blind (heap_get (class_method c "new"))) by auto with blind.
  unfold rbind at 1 in E0. setoid_rewrite (on_state _ m K b st B2) in E0.
  destruct (heap_get (class_method c "new") (m_vm m)) as [new s2|e s2| |];
    [|exists (stack_with b st), K; apply eventually_now; exact E0|apply eventually_now; exact E0|exact Logic.I].
  set (m2 := set_vm s2 m) in *. assert (HI2 : Inv rho V b m2 K) by now apply Inv_vm.
  destruct new as [f|].
  - assert (E1 : forall r, F r =
       match r_call r argc (state m2 K b (rev args ++ VFnBound self f :: t)) with
       | ROk _ s => (let* result := peek 0 in pop >>> push result) s
       | RErr e s => RErr e s | RPanic => RPanic | RNoFuel => RNoFuel end).
    { intros r. rewrite E0. rewrite rbind_assoc. rewrite rbind_assoc. unfold rbind at 1. unfold state at 1, st, argc. rewrite poke_callee by room.
      fold (state m2 K b (rev args ++ VFnBound self f :: t)). rewrite rbind_assoc. unfold rbind at 1.
      destruct (r_call r (List.length args) (state m2 K b (rev args ++ VFnBound self f :: t))); try reflexivity.
      unfold rbind. destruct (peek 0 s); try reflexivity. destruct (pop s0); reflexivity. }
    pose proof (SC room (VFnBound self f) args m2 rho V b K t HI2 R L) as C.
    destruct (i_call I room (VFnBound self f) args m2) as [v m'|m'|m'|v m'|m'|e m'| |]; cbn [cresult gresult] in *; auto.
    + destruct C as (rho' & b' & K' & E & G). exists rho', b', K'. split; [|exact G].
      destruct E as (n0 & E). exists n0. intros n Ln. rewrite E1. fold argc in E. rewrite E by assumption.
      destruct (gd_keep _ _ _ _ _ _ _ _ _ _ G) as (LB & _).
      unfold rbind. rewrite (state_peek _ _ _ _ 0 v) by reflexivity. rewrite state_pop by room. rewrite state_push by room. reflexivity.
    + destruct C as (st' & K' & E). exists st', K'. destruct E as (n0 & E). exists n0. intros n Ln. rewrite E1. fold argc in E. rewrite E by assumption. reflexivity.
    + destruct C as (n0 & E). exists n0. intros n Ln. rewrite E1. fold argc in E. rewrite E by assumption. reflexivity.
  - fold argc. assert (FIN : forall m3, same m2 m3 ->
        (forall r, F r = (push self) (state m3 K b t)) -> gresult F rho V b t (AVal self m3)).
    { intros m3 SM E. exists rho, b, K. split.
      - apply eventually_now. intros r. rewrite E. unfold argc in *. apply state_push. room.
      - split; [eapply same_inv; eauto|apply ext_refl|apply keep_refl]. }
    destruct (Nat.ltb_spec 0 argc) as [L0|L0].
    + apply (FIN m2); [apply same_refl|]. intros r. rewrite E0. rewrite !rbind_assoc. unfold rbind at 1.
      unfold st, argc. rewrite state_pop_count by (rewrite ?rev_length; auto; room).
      unfold rbind, rret. rewrite state_pop by room. reflexivity.
    + assert (args = []) as -> by (destruct args; [reflexivity|cbn in L0; lia]). cbn [rev app List.length] in *. subst argc st.
      assert (B3 : blind (heap_get (class_get c))) by auto with blind. unfold with_vm at 1.
      do 2 setoid_rewrite rbind_assoc in E0. unfold rbind at 1 in E0. setoid_rewrite (on_state _ m2 K b (callee :: t) B3) in E0.
      destruct (heap_get (class_get c) (m_vm m2)) as [k s3|e s3| |];
        [|exists (stack_with b (callee :: t)), K; apply eventually_now; exact E0|apply eventually_now; exact E0|exact Logic.I].
      destruct (cl_base k) as [bc|].
      * unfold with_vm. assert (B4 : blind (heap_get (class_method bc "new"))) by auto with blind.
        setoid_rewrite rbind_assoc in E0. unfold rbind at 1 in E0. setoid_rewrite (on_state _ (set_vm s3 m2) K b (callee :: t) B4) in E0.
        destruct (heap_get (class_method bc "new") (m_vm (set_vm s3 m2))) as [bn s4|e s4| |];
          [|exists (stack_with b (callee :: t)), K; apply eventually_now; exact E0|apply eventually_now; exact E0|exact Logic.I].
        destruct bn as [bn|].
        -- exists (stack_with b (callee :: t)), K. apply eventually_now. exact E0.
        -- apply (FIN (set_vm s4 (set_vm s3 m2))); [eexists; reflexivity|]. intros r. rewrite E0. unfold rbind at 1, rret at 1. rewrite rbind_assoc. unfold rbind at 1. rewrite state_pop by room. reflexivity.
      * apply (FIN (set_vm s3 m2)); [eexists; reflexivity|]. intros r. rewrite E0. unfold rbind at 1, rret at 1. rewrite rbind_assoc. unfold rbind at 1. rewrite state_pop by room. reflexivity.
Qed.
Lemma gresult_call f rho V b t a argc s : (forall r, call_fn w r argc s = f r) -> gresult f rho V b t a -> gresult (fun r => r_call r argc s) rho V b t a.
Proof.
  intros E. assert (X : forall R, eventually f R -> eventually (fun r => r_call r argc s) R).
  { intros R (n & H). apply eventually_call. exists n. intros k L. rewrite E. now apply H. }
  destruct a as [v m'|m'|m'|v m'|m'|e m'| |]; cbn [gresult]; auto.
  - intros (rho' & b' & K' & H & G). exists rho', b', K'. auto.
  - intros (st & K' & H). exists st, K'. auto.
Qed.
Lemma construct_sim I rho V b m K t room callee c args :
  sim_call I -> Inv rho V b m K -> List.length b + List.length t + room <= max_stack_size -> 1 + List.length args <= room ->
  (match callee with VFnBound _ f => f | f => f end) = VClass c ->
  cresult rho V b m K t callee args (construct I room c args m).
Proof.
  intros SC HI R L EC. set (argc := List.length args). set (st := rev args ++ callee :: t).
  assert (E0 : forall r, call_fn w r argc (state m K b st) =
     (let* o := heap_alloc (object_new (Some c)) in let* v := call_class_constructor r argc c (VObject o) in push v) (state m K b st)).
  { intros r. unfold call_fn. unfold rbind at 1. unfold state at 1, st, argc. rewrite (peek_callee b args callee t). fold (state m K b (rev args ++ callee :: t)).
    destruct callee; try discriminate EC; try (injection EC as ->); try (cbn in EC; subst callee2); rewrite rbind_assoc; reflexivity. }
  unfold construct, with_vm at 1.
  assert (B1 : blind (heap_alloc (object_new (Some c)))) by auto with blind.
  unfold rbind at 1 in E0. setoid_rewrite (on_state _ m K b st B1) in E0.
  destruct (heap_alloc (object_new (Some c)) (m_vm m)) as [o s1|e s1| |];
    [|exists (stack_with b st), K; apply eventually_call; apply eventually_now; exact E0|apply eventually_call; apply eventually_now; exact E0|exact Logic.I].
  unfold cresult. eapply gresult_call; [exact E0|]. apply (initialize_sim I rho V b (set_vm s1 m) K t room callee c (VObject o) args); auto. now apply Inv_vm.
Qed.
End Call.
