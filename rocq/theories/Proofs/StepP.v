(** What single instructions do, as steps between positions. *)
From Verif.Spec Require Import EvalSpec.
From Verif.Proofs Require Import StackP VmPrimP CallP ReachP CodeP MemP.
#[local] Open Scope string_scope.
#[local] Open Scope list_scope.
#[local] Open Scope nat_scope.

Lemma state_push m K b t v : fits b t 1 -> push v (state m K b t) = ROk tt (state m K b (v :: t)).
Proof. apply push_ws. Qed.
Lemma state_pop m K b t v : fits b t 1 -> pop (state m K b (v :: t)) = ROk v (state m K b t).
Proof. apply pop_ws. Qed.
Lemma state_peek m K b t k v : nth_error t k = Some v -> peek k (state m K b t) = ROk v (state m K b t).
Proof. apply peek_ws. Qed.
Lemma state_poke m K b t x v : fits b t 1 -> poke 0 v (state m K b (x :: t)) = ROk tt (state m K b (v :: t)).
Proof. unfold fits. intros F. unfold state. rewrite poke_ws; [reflexivity|cbn; lia|unfold fits; cbn [List.length]; lia]. Qed.
Lemma state_swap m K b t x y : fits b t 2 -> on_stack_ stack_swap (state m K b (x :: y :: t)) = ROk tt (state m K b (y :: x :: t)).
Proof. apply swap_ws. Qed.
Lemma state_pop_count m K b t u n : List.length u = n -> fits b t n -> pop_count n (state m K b (u ++ t)) = ROk (rev u) (state m K b t).
Proof. apply pop_count_ws. Qed.

Lemma fits_le b t n k : fits b t n -> k <= n -> fits b t k.
Proof. unfold fits. lia. Qed.
Lemma fits_cons b (t : list value) v n k : fits b t n -> S k <= n -> fits b (v :: t) k.
Proof. unfold fits. cbn [List.length]. lia. Qed.
Ltac room := solve [unfold fits in *; cbn [List.length] in *; rewrite ?app_length, ?rev_length, ?set_nth_len in *; cbn [List.length] in *; lia].

(** Reduces a step: [stp lemmas]. *)
Ltac bd := unfold rbind at 1; cbv beta.

Section Step.
Variables (w : world) (bc : bytecode) (fr : frame) (ups : option (list nat)).
Notation leads := (leads w bc fr ups).

Definition pushes (o : opcode) : option value :=
  match o with
  | OpPushNull => Some VNull | OpPushUnit => Some VUnit | OpPushFalse => Some (VBool false) | OpPushTrue => Some (VBool true)
  | OpPushI0 => Some (VInt 0) | OpPushI1 => Some (VInt 1) | OpPushF0 => Some (VFloat f64_zero) | OpPushF1 => Some (VFloat f64_one)
  | _ => None
  end.
Lemma lead_push o v p q m K b t : at_ bc p (INone o) q -> pushes o = Some v -> fits b t 1 ->
  leads p (state m K b t) (At q (state m K b (v :: t))).
Proof.
  intros A P F. eapply lead_ok; [exact A|]. intros r.
  destruct o; try discriminate P; injection P as <-; cbn [step]; unfold rbind; rewrite state_push by assumption; reflexivity.
Qed.
Lemma lead_const c p q m K b t : at_const bc OpPushConst c p q -> fits b t 1 ->
  leads p (state m K b t) (At q (state m K b (value_of_const c :: t))).
Proof.
  intros (i & A & E) F. eapply lead_ok; [exact A|]. intros r. cbn [step]. unfold rbind, const_at. rewrite E.
  unfold rret at 1. rewrite state_push by assumption. reflexivity.
Qed.
Lemma lead_dup k v p q m K b t : at_ bc p (IByte OpDup k) q -> nth_error t k = Some v -> fits b t 1 ->
  leads p (state m K b t) (At q (state m K b (v :: t))).
Proof.
  intros A E F. eapply lead_ok; [exact A|]. intros r. cbn [step]. unfold rbind. rewrite (state_peek _ _ _ _ _ _ E).
  rewrite state_push by assumption. reflexivity.
Qed.
Lemma lead_pop v p q m K b t : at_ bc p (INone OpPop) q -> fits b t 1 -> leads p (state m K b (v :: t)) (At q (state m K b t)).
Proof.
  intros A F. eapply lead_ok; [exact A|]. intros r. cbn [step]. unfold rbind. rewrite state_pop by assumption. reflexivity.
Qed.
Lemma lead_drop x v p p1 p2 m K b t : at_ bc p (INone OpSwap) p1 -> at_ bc p1 (INone OpPop) p2 -> fits b t 2 ->
  leads p (state m K b (v :: x :: t)) (At p2 (state m K b (v :: t))).
Proof.
  intros A B F. eapply leads_trans; [|eapply (lead_pop x); [exact B|room]].
  eapply lead_ok; [exact A|]. intros r. cbn [step]. unfold rbind. rewrite state_swap by assumption. reflexivity.
Qed.
Lemma lead_drops v m K b : forall t p q, drops bc (List.length t) p q -> fits b t 1 ->
  leads p (state m K b (v :: t)) (At q (state m K b [v])).
Proof.
  induction t as [|x t IH]; intros p q D F.
  - cbn in D. subst q. apply leads_refl.
  - cbn [List.length drops] in D. destruct D as (p1 & p2 & A & B & D).
    eapply leads_trans; [eapply lead_drop; [exact A|exact B|room]|]. apply IH; [exact D|room].
Qed.
Lemma lead_jump p q z m K b t : jumps bc OpJump p q z -> leads p (state m K b t) (At z (state m K b t)).
Proof. intros (o & A & E). eapply lead_ok; [exact A|]. intros r. cbn [step]. rewrite E. reflexivity. Qed.
Lemma lead_jif c p q z m K b t : jumps bc OpJumpIfFalse p q z -> fits b t 1 ->
  leads p (state m K b (VBool c :: t)) (At (if c then q else z) (state m K b t)).
Proof.
  intros (o & A & E) F. eapply lead_ok; [exact A|]. intros r. cbn [step]. unfold rbind. rewrite state_pop by assumption.
  cbn [as_bool VM.lift]. rewrite E. destruct c; reflexivity.
Qed.
Lemma lead_jit c p q z m K b t : jumps bc OpJumpIfTrue p q z -> fits b t 1 ->
  leads p (state m K b (VBool c :: t)) (At (if c then z else q) (state m K b t)).
Proof.
  intros (o & A & E) F. eapply lead_ok; [exact A|]. intros r. cbn [step]. unfold rbind. rewrite state_pop by assumption.
  cbn [as_bool VM.lift]. rewrite E. destruct c; reflexivity.
Qed.
Definition not_bool (v : value) : Prop := match v with VBool _ => False | _ => True end.
Lemma lead_j_err o v p q z m K b t : jumps bc o p q z -> (o = OpJumpIfFalse \/ o = OpJumpIfTrue) -> fits b t 1 -> not_bool v ->
  leads p (state m K b (v :: t)) (Failed INVALID_BOOL_CONVERSION (state m K b t)).
Proof.
  intros (f & A & E) Ho F N. eapply lead_err; [exact A|]. intros r.
  destruct Ho as [-> | ->]; cbn [step]; unfold rbind; rewrite state_pop by assumption; destruct v; try contradiction; reflexivity.
Qed.
Lemma lead_assert_bool c p q m K b t : at_ bc p (INone OpAssertBool) q ->
  leads p (state m K b (VBool c :: t)) (At q (state m K b (VBool c :: t))).
Proof. intros A. eapply lead_ok; [exact A|]. intros r. cbn [step]. unfold rbind. rewrite (state_peek _ _ _ _ 0 (VBool c)); reflexivity. Qed.
Lemma lead_assert_bool_err v p q m K b t : at_ bc p (INone OpAssertBool) q -> not_bool v ->
  leads p (state m K b (v :: t)) (Failed TYPE_ASSERTION_BOOL_FAILURE (state m K b (v :: t))).
Proof.
  intros A N. eapply lead_err; [exact A|]. intros r. cbn [step]. unfold rbind. rewrite (state_peek _ _ _ _ 0 v) by reflexivity.
  destruct v; try contradiction; reflexivity.
Qed.

(** A failure, wherever it leaves the stack. *)
Definition fails (p : nat) (s : vm) (e : errcode) (s' : vm) : Prop := exists st K, leads p s (Failed e (set_stack st (overlay K s'))).
Lemma fails_at p s e m K b t : leads p s (Failed e (state m K b t)) -> fails p s e (m_vm m).
Proof. intros H. exists (stack_with b t), K. exact H. Qed.
Lemma fails_from p s p1 s1 e s' : leads p s (At p1 s1) -> fails p1 s1 e s' -> fails p s e s'.
Proof. intros H (st & K & H1). exists st, K. eapply leads_trans; eauto. Qed.

(** Instructions that use the store. *)
Definition stores {A} (x : res A) (p : nat) (s : vm) (q : nat) (fin : A -> vm -> vm) : Prop :=
  match x with
  | ROk a s' => leads p s (At q (fin a s'))
  | RErr e s' => fails p s e s'
  | RPanic => leads p s Crashed
  | RNoFuel => True
  end.
Lemma lead_store {T} (f : run T) p i p' m K b0 t0 b1 t1 (fin : T -> list value) :
  at_ bc p i p' -> blind f ->
  (forall r, step w r bc fr ups i (Z.of_nat p') (state m K b0 t0) =
     (let* a := f in fun s => ROk (Continue (Z.of_nat p')) (set_stack (stack_with b1 (fin a)) s)) (state m K b1 t1)) ->
  stores (f (m_vm m)) p (state m K b0 t0) p' (fun a s => state (set_vm s m) K b1 (fin a)).
Proof.
  intros A B H. unfold stores. unfold rbind in H. setoid_rewrite (on_state f m K b1 t1 B) in H.
  destruct (f (m_vm m)) as [a s|e s| |].
  - eapply lead_ok; [exact A|]. intros r. rewrite H. reflexivity.
  - eapply fails_at with (m := set_vm s m) (K := K) (b := b1) (t := t1). eapply lead_err; [exact A|]. exact H.
  - eapply lead_panic; [exact A|]. exact H.
  - exact I.
Qed.
Lemma rbind_assoc {A B C} (x : run A) (f : A -> run B) (g : B -> run C) s :
  rbind (rbind x f) g s = rbind x (fun a => rbind (f a) g) s.
Proof. unfold rbind. destruct (x s); reflexivity. Qed.
Lemma rbind_ext {A B} (x : run A) (f g : A -> run B) s : (forall a s', x s = ROk a s' -> f a s' = g a s') -> rbind x f s = rbind x g s.
Proof. unfold rbind. intros H. destruct (x s); auto. Qed.
Lemma blind_ok {A} (f : run A) m K b t a s' : blind f -> f (state m K b t) = ROk a s' ->
  exists m', s' = state m' K b t.
Proof. intros B. rewrite (on_state f m K b t B). destruct (f (m_vm m)); try discriminate. intros [= _ <-]. eauto. Qed.
End Step.
Ltac after_store := match goal with
  | |- rbind _ _ _ = rbind _ _ _ => apply rbind_ext; let a := fresh "a" in let s := fresh "s" in let E := fresh "E" in
      intros a s E; apply blind_ok in E as (? & ->); [|auto with blind nocore]
  end.

Section Stores.
Variables (w : world) (bc : bytecode) (fr : frame) (ups : option (list nat)).
Notation leads := (leads w bc fr ups).
Notation stores := (stores w bc fr ups).

Lemma sym_at key o p q : at_const bc o (CSymbol key) p q -> exists i, at_ bc p (IByte o i) q /\ forall s, symbol_at bc i s = ROk key s.
Proof. intros (i & A & E). exists i. split; [exact A|]. intros s. unfold symbol_at, rbind, const_at. rewrite E. reflexivity. Qed.

Lemma lead_load_field key v p q m K b t : at_const bc OpLoadField (CSymbol key) p q -> fits b t 1 ->
  stores (get_field key v (m_vm m)) p (state m K b (v :: t)) q (fun x s => state (set_vm s m) K b (x :: t)).
Proof.
  intros A F. apply sym_at in A as (i & A & E).
  apply (lead_store w bc fr ups (get_field key v) p _ q m K b (v :: t) b t (fun x => x :: t) A); [auto with blind|].
  intros r. cbn [step]. rewrite rbind_assoc. unfold rbind at 1. rewrite E. rewrite rbind_assoc. unfold rbind at 1. rewrite state_pop by assumption.
  rewrite rbind_assoc. after_store. unfold rbind. rewrite state_push by assumption. reflexivity.
Qed.
Lemma lead_new_object p q m K b t : at_ bc p (INone OpCreateObject) q -> fits b t 1 ->
  stores (new_any_object (m_vm m)) p (state m K b t) q (fun o s => state (set_vm s m) K b (VObject o :: t)).
Proof.
  intros A F. apply (lead_store w bc fr ups new_any_object p _ q m K b t b t (fun x => VObject x :: t) A); [auto with blind|].
  intros r. cbn [step]. rewrite rbind_assoc. after_store. unfold rbind. rewrite state_push by assumption. reflexivity.
Qed.
Lemma lead_new_array n u p q m K b t : at_ bc p (IByte OpCreateArray n) q -> List.length u = n -> fits b t (S n) ->
  stores (new_array (rev u) (m_vm m)) p (state m K b (u ++ t)) q (fun v s => state (set_vm s m) K b (v :: t)).
Proof.
  intros A L F. apply (lead_store w bc fr ups (new_array (rev u)) p _ q m K b (u ++ t) b t (fun x => x :: t) A); [auto with blind|].
  intros r. cbn [step]. rewrite rbind_assoc. unfold rbind at 1. rewrite state_pop_count by (auto; room).
  rewrite rbind_assoc. after_store. unfold rbind. rewrite state_push by room. reflexivity.
Qed.
Lemma lead_write_field (asn : bool) key x v p q m K b t :
  at_const bc (if asn then OpAssignField else OpStoreField) (CSymbol key) p q -> fits b t 2 ->
  stores (set_field key x v (m_vm m)) p (state m K b (v :: x :: t)) q
    (fun _ s => state (set_vm s m) K b ((if asn then VUnit else v) :: t)).
Proof.
  intros A F. apply sym_at in A as (i & A & E).
  apply (lead_store w bc fr ups (set_field key x v) p _ q m K b (v :: x :: t) b t (fun _ => (if asn then VUnit else v) :: t) A); [auto with blind|].
  intros r. assert (H : step w r bc fr ups (IByte (if asn then OpAssignField else OpStoreField) i) (Z.of_nat q) =
    (let* key := symbol_at bc i in write_field asn key) >>> rret (Continue (Z.of_nat q))) by (destruct asn; reflexivity). rewrite H.
  rewrite rbind_assoc. unfold rbind at 1. rewrite E. unfold write_field. rewrite rbind_assoc. unfold rbind at 1. rewrite state_pop by room.
  rewrite rbind_assoc. unfold rbind at 1. rewrite state_pop by room. unfold set_field. rewrite !rbind_assoc.
  after_store. rewrite rbind_assoc. after_store. unfold rbind. rewrite state_push by room. reflexivity.
Qed.
Lemma lead_load_index x i p q m K b t : at_ bc p (INone OpLoadIndex) q -> fits b t 2 ->
  stores (get_index x i (m_vm m)) p (state m K b (i :: x :: t)) q (fun v s => state (set_vm s m) K b (v :: t)).
Proof.
  intros A F. apply (lead_store w bc fr ups (get_index x i) p _ q m K b (i :: x :: t) b (x :: t) (fun v => v :: t) A); [auto with blind|].
  intros r. cbn [step]. unfold load_index. rewrite rbind_assoc. unfold rbind at 1. rewrite state_pop by room.
  rewrite rbind_assoc. unfold rbind at 1. rewrite (state_peek _ _ _ _ 0 x) by reflexivity.
  rewrite rbind_assoc. fold (get_index x i). after_store. unfold rbind. rewrite state_poke by room. reflexivity.
Qed.
Lemma lead_write_index x i v p q m K b t : at_ bc p (INone OpAssignIndex) q -> fits b t 3 ->
  stores (set_index x i v (m_vm m)) p (state m K b (v :: i :: x :: t)) q (fun _ s => state (set_vm s m) K b (VUnit :: t)).
Proof.
  intros A F. apply (lead_store w bc fr ups (set_index x i v) p _ q m K b (v :: i :: x :: t) b (x :: t) (fun _ => VUnit :: t) A); [auto with blind|].
  intros r. cbn [step]. unfold write_index. rewrite rbind_assoc. unfold rbind at 1. rewrite state_pop by room.
  rewrite rbind_assoc. unfold rbind at 1. rewrite state_pop by room.
  rewrite rbind_assoc. unfold rbind at 1. rewrite (state_peek _ _ _ _ 0 x) by reflexivity.
  rewrite rbind_assoc. fold (set_index x i v). after_store. unfold rbind. rewrite state_poke by room. reflexivity.
Qed.
Lemma lead_inherit name c p q m K b t : at_const bc OpInheritClass (CSymbol name) p q -> fits b t 1 ->
  stores (inherit name c (m_vm m)) p (state m K b (c :: t)) q (fun x s => state (set_vm s m) K b (VClass x :: t)).
Proof.
  intros A F. apply sym_at in A as (i & A & E).
  apply (lead_store w bc fr ups (inherit name c) p _ q m K b (c :: t) b t (fun x => VClass x :: t) A); [auto with blind|].
  intros r. cbn [step]. rewrite rbind_assoc. unfold rbind at 1. rewrite E. unfold inherit_class. rewrite rbind_assoc. unfold rbind at 1. rewrite state_pop by assumption.
  unfold inherit. rewrite !rbind_assoc. after_store. rewrite !rbind_assoc.
  apply rbind_ext. intros same s E1. rewrite !rbind_assoc.
  assert (exists s0, s = state s0 K b t) as (s0 & ->).
  { apply (blind_ok (fun s => VM.lift (class_eqb a (vm_any s) (vm_heap s)) s)) in E1 as (s1 & ->); [eexists; reflexivity|]. apply (blind_any (class_eqb a)). intros c0 K0 h. reflexivity. }
  apply rbind_ext. intros bad s E2.
  assert (exists s1, s = state s1 K b t) as (s1 & ->).
  { apply (blind_ok (fun s => VM.lift (is_value_class a (vm_kinds s) (vm_heap s)) s)) in E2 as (s1 & ->); [eexists; reflexivity|]. apply (blind_kinds (is_value_class a)).
    intros l K0 h. induction l as [|[vk c0] l IH]; [reflexivity|]. cbn [is_value_class].
    change (class_eqb a c0 (hover K0 h)) with (class_eqb a c0 h). destruct (class_eqb a c0 h) as [[]| | |]; cbn [obind]; auto. }
  destruct (negb same && bad); [reflexivity|]. rewrite rbind_assoc.
  apply rbind_ext. intros cl s E3. assert (exists s2, s = state s2 K b t) as (s2 & ->).
  { apply blind_ok in E3 as (s2 & ->); [eexists; reflexivity|]. apply blind_class_with_base. }
  unfold rbind. rewrite state_push by assumption. reflexivity.
Qed.
Lemma lead_store_method key c f p q m K b t : at_const bc OpStoreMethod (CSymbol key) p q -> fits b t 2 ->
  stores (set_method key c f (m_vm m)) p (state m K b (f :: c :: t)) q (fun _ s => state (set_vm s m) K b t).
Proof.
  intros A F. apply sym_at in A as (i & A & E).
  apply (lead_store w bc fr ups (set_method key c f) p _ q m K b (f :: c :: t) b t (fun _ => t) A); [auto with blind|].
  intros r. cbn [step]. rewrite rbind_assoc. unfold rbind at 1. rewrite E. unfold store_method. rewrite rbind_assoc. unfold rbind at 1. rewrite state_pop by room.
  rewrite rbind_assoc. unfold rbind at 1. rewrite state_pop by room. unfold set_method. rewrite !rbind_assoc. after_store.
  apply rbind_ext. intros [] s E2. assert (exists s2, s = state s2 K b t) as (s2 & ->).
  { apply blind_ok in E2 as (s2 & ->); [eexists; reflexivity|]. apply blind_class_set_method. }
  reflexivity.
Qed.
Lemma lead_load_method key c v p q m K b t : at_const bc OpLoadMethod (CSymbol key) p q -> fits b t 2 ->
  stores (super_method key c v (m_vm m)) p (state m K b (v :: c :: t)) q (fun x s => state (set_vm s m) K b (x :: t)).
Proof.
  intros A F. apply sym_at in A as (i & A & E).
  apply (lead_store w bc fr ups (super_method key c v) p _ q m K b (v :: c :: t) b t (fun x => x :: t) A); [auto with blind|].
  intros r. cbn [step]. rewrite rbind_assoc. unfold rbind at 1. rewrite E. unfold load_method. rewrite rbind_assoc. unfold rbind at 1. rewrite state_pop by room.
  rewrite rbind_assoc. unfold rbind at 1. rewrite state_pop by room. unfold super_method. rewrite !rbind_assoc. after_store.
  rewrite !rbind_assoc. after_store. destruct a0; [|reflexivity]. rewrite rbind_assoc. after_store. unfold rbind. rewrite state_push by room. reflexivity.
Qed.
Lemma lead_is c v p q m K b t : at_ bc p (INone OpIs) q -> fits b t 2 ->
  stores (is_type c v (m_vm m)) p (state m K b (c :: v :: t)) q (fun x s => state (set_vm s m) K b (VBool x :: t)).
Proof.
  intros A F. apply (lead_store w bc fr ups (is_type c v) p _ q m K b (c :: v :: t) b (v :: t) (fun x => VBool x :: t) A); [auto with blind|].
  intros r. cbn [step]. rewrite rbind_assoc. unfold rbind at 1. rewrite state_pop by room.
  unfold is_type. rewrite !rbind_assoc. after_store. rewrite rbind_assoc. unfold rbind at 1. rewrite (state_peek _ _ _ _ 0 v) by reflexivity.
  rewrite rbind_assoc. after_store. unfold rbind. rewrite state_poke by room. reflexivity.
Qed.
Lemma lead_assert_local (nullable : bool) slot c v p q m K b t :
  at_ bc p (IByte (if nullable then OpAssertTypeOrNullForLocal else OpAssertTypeForLocal) slot) q ->
  fr_start fr + slot < fr_end fr -> fr_end fr <= List.length b -> nth_error b (fr_start fr + slot) = Some v -> fits b t 1 ->
  stores (assert_is nullable c v (m_vm m)) p (state m K b (c :: t)) q (fun _ s => state (set_vm s m) K b t).
Proof.
  intros A L1 L2 E F.
  apply (lead_store w bc fr ups (assert_is nullable c v) p _ q m K b (c :: t) b t (fun _ => t) A); [auto with blind|].
  intros r. assert (H : step w r bc fr ups (IByte (if nullable then OpAssertTypeOrNullForLocal else OpAssertTypeForLocal) slot) (Z.of_nat q) =
    assert_type_for_local nullable fr slot >>> rret (Continue (Z.of_nat q))) by (destruct nullable; reflexivity). rewrite H.
  unfold assert_type_for_local, assert_is. rewrite rbind_assoc. unfold rbind at 1. rewrite state_pop by room.
  rewrite !rbind_assoc. after_store. rewrite rbind_assoc. unfold rbind at 1. unfold state at 1. rewrite (frame_get_ws fr slot b t v) by (auto; room).
  assert (G : forall m0 K0, (match v with VNull => if nullable then rret tt else rfail TYPE_ASSERTION_NULLABILITY_FAILURE | _ => assert_type a v end
     >>> rret (Continue (Z.of_nat q))) (state m0 K0 b t) =
     ((match v with VNull => if nullable then rret tt else rfail TYPE_ASSERTION_NULLABILITY_FAILURE
       | _ => let* b0 := is_value_of_type v a in if b0 then rret tt else rfail TYPE_ASSERTION_FAILURE end) >>>
      (fun s => ROk (Continue (Z.of_nat q)) (set_stack (stack_with b t) s))) (state m0 K0 b t)).
  { intros m0 K0. assert (B : blind (match v with VNull => if nullable then rret tt else rfail TYPE_ASSERTION_NULLABILITY_FAILURE
       | _ => let* b0 := is_value_of_type v a in if b0 then rret tt else rfail TYPE_ASSERTION_FAILURE end)) by bl.
    unfold rbind at 1 2. rewrite (on_state _ m0 K0 b t B).
    assert (E2 : (match v with VNull => if nullable then rret tt else rfail TYPE_ASSERTION_NULLABILITY_FAILURE | _ => assert_type a v end) (state m0 K0 b t)
      = (match v with VNull => if nullable then rret tt else rfail TYPE_ASSERTION_NULLABILITY_FAILURE
       | _ => let* b0 := is_value_of_type v a in if b0 then rret tt else rfail TYPE_ASSERTION_FAILURE end) (state m0 K0 b t)) by (destruct v; reflexivity).
    rewrite E2, (on_state _ m0 K0 b t B). destruct (_ (m_vm m0)); reflexivity. }
  destruct v; apply G.
Qed.
(** Returning, with or without a check; there is nothing below the value in this frame's operands. *)
Lemma lead_assert_return (nullable : bool) c v p q m K b : 
  at_ bc p (INone (if nullable then OpAssertTypeOrNullAndReturn else OpAssertTypeAndReturn)) q -> fits b [] 2 ->
  match assert_is nullable c v (m_vm m) with
  | ROk _ s => leads p (state m K b [c; v]) (Done (state (set_vm s m) K b [v]))
  | RErr e s => fails w bc fr ups p (state m K b [c; v]) e s
  | RPanic => leads p (state m K b [c; v]) Crashed
  | RNoFuel => True
  end.
Proof.
  intros A F.
  assert (H : forall r, step w r bc fr ups (INone (if nullable then OpAssertTypeOrNullAndReturn else OpAssertTypeAndReturn)) (Z.of_nat q) (state m K b [c; v])
     = (assert_is nullable c v >>> rret Stop) (state m K b [v])).
  { intros r. assert (H : step w r bc fr ups (INone (if nullable then OpAssertTypeOrNullAndReturn else OpAssertTypeAndReturn)) (Z.of_nat q) =
    assert_type_and_return nullable >>> rret Stop) by (destruct nullable; reflexivity). rewrite H. clear H.
    unfold assert_type_and_return, assert_is. rewrite rbind_assoc. unfold rbind at 1. rewrite state_pop by room.
    rewrite !rbind_assoc. after_store. rewrite rbind_assoc. unfold rbind at 1. rewrite (state_peek _ _ _ _ 0 v) by reflexivity.
    destruct v; reflexivity. }
  unfold rbind in H. setoid_rewrite (on_state (assert_is nullable c v) m K b [v]) in H; [|auto with blind].
  destruct (assert_is nullable c v (m_vm m)) as [[] s|e s| |].
  - eapply lead_stop; [exact A|]. exact H.
  - eapply fails_at with (m := set_vm s m). eapply lead_err; [exact A|]. exact H.
  - eapply lead_panic; [exact A|]. exact H.
  - exact I.
Qed.
Lemma lead_return p q s : at_ bc p (INone OpReturn) q -> leads p s (Done s).
Proof. intros A. eapply lead_stop; [exact A|]. reflexivity. Qed.

Lemma lead_load_global x p q m K b t : at_const bc OpLoadGlobal (CSymbol x) p q -> fits b t 1 ->
  match assoc_get x (vm_globals (m_vm m)) with
  | Some v => leads p (state m K b t) (At q (state m K b (v :: t)))
  | None => fails w bc fr ups p (state m K b t) GLOBAL_VARIABLE_UNDEFINED (m_vm m)
  end.
Proof.
  intros A F. apply sym_at in A as (i & A & E). destruct (assoc_get x (vm_globals (m_vm m))) as [v|] eqn:G.
  - eapply lead_ok; [exact A|]. intros r. cbn [step]. rewrite rbind_assoc. unfold rbind. rewrite E. unfold load_global.
    change (vm_globals (state m K b t)) with (vm_globals (m_vm m)). rewrite G, state_push by assumption. reflexivity.
  - eapply fails_at. eapply lead_err; [exact A|]. intros r. cbn [step]. rewrite rbind_assoc. unfold rbind. rewrite E. unfold load_global.
    change (vm_globals (state m K b t)) with (vm_globals (m_vm m)). rewrite G. reflexivity.
Qed.
Lemma lead_store_global x v p q m K b t : at_const bc OpStoreGlobal (CSymbol x) p q -> fits b t 1 ->
  match assoc_get x (vm_globals (m_vm m)) with
  | None => leads p (state m K b (v :: t)) (At q (state (set_vm (set_globals (assoc_set x v (vm_globals (m_vm m))) (m_vm m)) m) K b t))
  | Some _ => fails w bc fr ups p (state m K b (v :: t)) GLOBAL_VARIABLE_ALREADY_DEFINED (m_vm m)
  end.
Proof.
  intros A F. apply sym_at in A as (i & A & E). destruct (assoc_get x (vm_globals (m_vm m))) as [y|] eqn:G.
  - eapply fails_at. eapply lead_err; [exact A|]. intros r. cbn [step]. rewrite rbind_assoc. unfold rbind. rewrite E. unfold store_global, rbind.
    rewrite state_pop by assumption. change (vm_globals (state m K b t)) with (vm_globals (m_vm m)). rewrite G. reflexivity.
  - eapply lead_ok; [exact A|]. intros r. cbn [step]. rewrite rbind_assoc. unfold rbind. rewrite E. unfold store_global, rbind.
    rewrite state_pop by assumption. change (vm_globals (state m K b t)) with (vm_globals (m_vm m)). rewrite G. reflexivity.
Qed.
Lemma lead_load_local j v p q m K b t : at_ bc p (IByte OpLoadLocal j) q ->
  fr_start fr + j < fr_end fr -> fr_end fr <= List.length b -> nth_error b (fr_start fr + j) = Some v -> fits b t 1 ->
  leads p (state m K b t) (At q (state m K b (v :: t))).
Proof.
  intros A L1 L2 E F. eapply lead_ok; [exact A|]. intros r. cbn [step]. rewrite rbind_assoc. unfold rbind. unfold state at 1.
  rewrite (frame_get_ws fr j b t v) by (auto; room). fold (state m K b t). rewrite state_push by assumption. reflexivity.
Qed.
Lemma lead_write_local (asn : bool) j v p q m K b t : at_ bc p (IByte (if asn then OpAssignLocal else OpStoreLocal) j) q ->
  fr_start fr + j < fr_end fr -> fr_end fr <= List.length b -> fits b t 1 ->
  leads p (state m K b (v :: t)) (At q (state m K (set_nth b (fr_start fr + j) v) ((if asn then VUnit else v) :: t))).
Proof.
  intros A L1 L2 F. eapply lead_ok; [exact A|]. intros r.
  assert (H : step w r bc fr ups (IByte (if asn then OpAssignLocal else OpStoreLocal) j) (Z.of_nat q) =
    (let* x := pop in frame_set fr j x >>> push (if asn then VUnit else x)) >>> rret (Continue (Z.of_nat q))) by (destruct asn; reflexivity).
  rewrite H. unfold rbind. rewrite state_pop by assumption. unfold state at 1. rewrite frame_set_ws by (auto; room).
  fold (state m K (set_nth b (fr_start fr + j) v) t). rewrite state_push by room. reflexivity.
Qed.
Lemma lead_field_to_local key j v i p q m K b t : at_ bc p (ITwo OpLoadFieldToLocal i j) q -> nth_error (bc_constants bc) i = Some (CSymbol key) ->
  fr_start fr + j < fr_end fr -> fr_end fr <= List.length b -> fits b t 1 ->
  stores (get_field key v (m_vm m)) p (state m K b (v :: t)) q
    (fun x s => state (set_vm s m) K (set_nth b (fr_start fr + j) x) (x :: t)).
Proof.
  intros A E L1 L2 F. assert (B : blind (get_field key v)) by auto with blind.
  assert (H : forall r, step w r bc fr ups (ITwo OpLoadFieldToLocal i j) (Z.of_nat q) (state m K b (v :: t)) =
     (let* x := get_field key v in fun s => ROk (Continue (Z.of_nat q)) (set_stack (stack_with (set_nth b (fr_start fr + j) x) (x :: t)) s)) (state m K b t)).
  { intros r. cbn [step]. rewrite rbind_assoc. unfold symbol_at at 1, const_at. rewrite E. unfold rbind at 1 2. unfold rret at 1. cbn [value_of_const as_symbol VM.lift].
    rewrite rbind_assoc. unfold rbind at 1. rewrite state_pop by assumption. rewrite rbind_assoc. after_store.
    unfold rbind. unfold state at 1. rewrite frame_set_ws by (auto; room). fold (state x K (set_nth b (fr_start fr + j) a) t).
    rewrite state_push by room. reflexivity. }
  unfold StepP.stores. unfold rbind in H. setoid_rewrite (on_state _ m K b t B) in H.
  destruct (get_field key v (m_vm m)) as [a s|e s| |].
  - eapply lead_ok; [exact A|]. intros r. rewrite H. reflexivity.
  - eapply fails_at with (m := set_vm s m) (K := K) (b := b) (t := t). eapply lead_err; [exact A|]. exact H.
  - eapply lead_panic; [exact A|]. exact H.
  - exact I.
Qed.
Lemma lead_prefix op v p q m K b t : at_ bc p (INone (match op with Negate => OpNegate | Not => OpNot end)) q -> fits b t 1 ->
  match prefix_op w op v m with
  | AVal x m' => m' = m /\ leads p (state m K b (v :: t)) (At q (state m K b (x :: t)))
  | AFail e m' => fails w bc fr ups p (state m K b (v :: t)) e (m_vm m')
  | ACrash => leads p (state m K b (v :: t)) Crashed
  | AUnknown => True
  | _ => False
  end.
Proof.
  intros A F. pose proof (state_peek m K b (v :: t) 0 v eq_refl) as HP.
  assert (P : forall r x, (step w r bc fr ups (INone (match op with Negate => OpNegate | Not => OpNot end)) (Z.of_nat q) (state m K b (v :: t)) = 
     (poke 0 x >>> rret (Continue (Z.of_nat q))) (state m K b (v :: t))) -> step w r bc fr ups (INone (match op with Negate => OpNegate | Not => OpNot end)) (Z.of_nat q) (state m K b (v :: t))
     = ROk (Continue (Z.of_nat q)) (state m K b (x :: t))).
  { intros r x ->. unfold rbind. rewrite state_poke by assumption. reflexivity. }
  destruct op; destruct v; cbn [prefix_op];
  try (eapply fails_at; eapply lead_err; [exact A|]; intros r; cbn [step]; unfold rbind; rewrite HP; reflexivity);
  try (split; [reflexivity|]; eapply lead_ok; [exact A|]; intros r; apply P; cbn [step]; rewrite rbind_assoc; unfold rbind at 1; rewrite HP; reflexivity).
  match goal with |- context [int_result ?d ?x] => destruct (int_result d x) as [y|e| |] eqn:Ei end; cbn [omap of_outcome].
  - split; [reflexivity|]. eapply lead_ok; [exact A|]. intros r. apply P. cbn [step]. rewrite rbind_assoc. unfold rbind at 1.
    rewrite HP. rewrite Ei. unfold rbind, VM.lift. reflexivity.
  - eapply fails_at. eapply lead_err; [exact A|]. intros r. cbn [step]. unfold rbind. rewrite HP, Ei. reflexivity.
  - eapply lead_panic; [exact A|]. intros r. cbn [step]. unfold rbind. rewrite HP, Ei. reflexivity.
  - exact I.
Qed.
End Stores.
