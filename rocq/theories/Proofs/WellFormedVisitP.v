(** Every visitor keeps the invariant, so compiled code is well formed. *)
From Verif.Model Require Import Compiler.
From Verif.Spec Require Import WellFormed.
From Verif.Proofs Require Import ExprInd WellFormedP WellFormedPrimP.

Definition vok {A} (m : M A) : Prop := triple any m (fun _ => any).
Lemma t_ok {A} (P : assertion) (m : M A) : vok m -> triple P m (fun _ => any).
Proof. intros H. eapply t_pre; [exact H|]. intros; exact I. Qed.

Lemma t_seq {A B} P (m : M A) Q (f : A -> M B) R :
  triple P m Q -> (forall a, triple (Q a) (f a) R) -> triple P (bind m f) R.
Proof.
  intros Hm Hf L s b s' G HP H. apply bind_ok in H as (a & s1 & H1 & H2).
  destruct (Hm _ _ _ _ G HP H1) as (L1 & G1 & E1 & Q1).
  destruct (Hf a _ _ _ _ G1 Q1 H2) as (L2 & G2 & E2 & Q2).
  exists L2. eauto using evo_trans.
Qed.
Lemma t_frame {A} P R (m : M A) Q : stable R -> triple P m Q ->
  triple (fun L s => P L s /\ R L s) m (fun a L s => Q a L s /\ R L s).
Proof. intros SR H L s a s' G [HP HR] E. destruct (H _ _ _ _ G HP E) as (L' & ? & ? & ?). eauto 6. Qed.

Ltac stab := cbv beta iota; repeat apply stable_and; auto with stab.
Ltac sideP := let L := fresh in let s := fresh in let H := fresh in
  intros L s H; cbv beta iota in H; (tauto || (repeat match goal with H : _ /\ _ |- _ => destruct H end; assumption)).
Ltac prim :=
  match goal with |- triple _ ?m _ =>
  match m with
  | fail _ => apply t_fail | panic => apply t_panic | ret _ => apply t_ret; intros; exact I
  | emit _ => apply t_emit; reflexivity
  | emit_u8 _ _ => first
        [ (apply t_emit_plain; [reflexivity | first [apply u8_lt | lia]])
        | (apply t_emit_slot; [reflexivity | sideP])
        | (apply t_emit_up; [reflexivity | sideP]) ]
  | emit_c _ _ => first [ (apply t_emit_sym; reflexivity) | (apply t_emit_push; reflexivity) ]
  | emit_lftl _ _ => apply t_emit_lftl; sideP
  | jump _ => apply t_jump; reflexivity
  | here => apply t_here | jump_back _ => apply t_jump_back; sideP | patch _ => apply t_patch; sideP
  | m_push_scope _ _ => apply t_push_scope; first [sideP | intros; exact I]
  | m_pop_scope => apply t_pop_scope | m_top_scope => apply t_top_scope | m_add_local _ _ => apply t_add_local
  | m_local _ => apply t_local | m_set_state _ _ => apply t_set_state
  | on_scopes _ => first [ (apply t_loop_exit; sideP) | apply t_entry_point ]
  | get_kind => apply t_get_kind | get_temps => apply t_get_temps | put_temps _ => apply t_put_temps
  | get_context => apply t_get_context | m_resolve_upvalue _ => apply t_resolve
  | bind _ _ => fail 2
  | _ => apply t_ok; auto with vok; fail
  end end.
Ltac go := cbv beta iota; first
  [ prim
  | (eapply t_post_any; prim)
  | match goal with |- triple _ (bind _ _) _ =>
      first [ (eapply t_bind with (Q := fun _ => any); [stab; fail | prim | intros ?])
            | (eapply t_bind; [stab; fail | prim | intros ?]) ] end
  | match goal with |- triple _ (emit (if ?b then _ else _)) _ => destruct b end
  | match goal with |- triple _ (bind (emit (if ?b then _ else _)) _) _ => destruct b end
  | match goal with |- triple _ (bind (emit_u8 (if ?b then _ else _) _) _) _ => destruct b end
  | match goal with |- triple _ (emit_u8 (if ?b then _ else _) _) _ => destruct b end
  | match goal with |- triple _ (match ?x with _ => _ end) _ => destruct x end
  | match goal with |- triple _ (bind (match ?x with _ => _ end) _) _ => destruct x end
  | match goal with |- triple _ (bind (bind _ _) _) _ => eapply t_bind with (Q := fun _ => any); [stab; fail| |intros ?] end ].

Create HintDb vok.

Lemma t_context_post (P : assertion) : triple P get_context (fun _ => any).
Proof. eapply t_post_any. apply t_get_context. Qed.
Lemma v_visit_ident name : vok (visit_ident name).
Proof. unfold visit_ident, vok. repeat go. Qed.
#[export] Hint Resolve v_visit_ident : vok.

Lemma v_visit_int z : vok (visit_int z).
Proof. unfold visit_int, vok. repeat go. Qed.
Lemma v_visit_float z : vok (visit_float z).
Proof. unfold visit_float, vok. repeat go. Qed.
Lemma v_push_bool b : vok (push_bool b).
Proof. unfold push_bool, vok. destruct b; go. Qed.
#[export] Hint Resolve v_visit_int v_visit_float v_push_bool : vok.
Lemma v_visit_local_type t n (P : assertion) : (forall L s, P L s -> slot_at n L s) ->
  triple P (visit_local_type t n) (fun _ => any).
Proof.
  intros HP. eapply t_pre; [|exact HP]. unfold visit_local_type. destruct t as [[nm nu]|]; cbn [ta_name ta_nullable]; [|go].
  go. destruct nu; go.
Qed.
Lemma v_visit_args b args : vok (visit_args b args).
Proof.
  unfold visit_args, vok. destruct b.
  - eapply t_bind with (Q := fun _ => any); [stab|repeat go|intros ?]. apply t_each; [stab|]. intros x _. go. apply v_visit_local_type. sideP.
  - go. apply t_each; [stab|]. intros x _. go. apply v_visit_local_type. sideP.
Qed.
Lemma v_close_vars vs (P : assertion) : stable P ->
  (forall v, In v vs -> forall L s, P L s -> slot_at (sv_slot v) L s) ->
  triple P (close_vars vs) (fun _ => any).
Proof.
  intros SP H. unfold close_vars. apply t_each; [exact SP|]. intros v Hv. apply in_rev in Hv.
  destruct (sv_captured v); [|go]. apply t_emit_slot; [reflexivity|]. eauto.
Qed.
Lemma scope_at_slot sc v L s : scope_at sc L s -> In v (sc_vars sc) -> slot_at (sv_slot v) L s.
Proof.
  unfold scope_at, slot_at. destruct L; [tauto|]. destruct (cs_stack s); [tauto|]. intros [_ _ C _] H.
  rewrite Forall_forall in C. auto.
Qed.
Lemma scope_at_exit sc j L s : scope_at sc L s -> In j (sc_exits sc) -> jump_at j L s.
Proof.
  unfold scope_at, jump_at. destruct L; [tauto|]. destruct (cs_stack s); [tauto|]. intros [A _ _ _] H.
  rewrite Forall_forall in A. auto.
Qed.
Lemma scope_at_call sc j L s : scope_at sc L s -> In j (cc_exits (sc_call sc)) -> jump_at j L s.
Proof.
  unfold scope_at, jump_at. destruct L; [tauto|]. destruct (cs_stack s); [tauto|]. intros [_ B _ _] H.
  rewrite Forall_forall in B. auto.
Qed.
Lemma v_close_scope sc (P : assertion) : (forall L s, P L s -> scope_at sc L s) ->
  triple P (close_vars (sc_vars sc)) (fun _ => any).
Proof.
  intros HP. eapply t_pre; [|exact HP]. apply v_close_vars; [stab|]. intros. eapply scope_at_slot; eauto.
Qed.
Lemma v_visit_close : vok visit_close_upvalues.
Proof. unfold visit_close_upvalues, vok. go. apply v_close_scope. sideP. Qed.
Lemma v_visit_return : vok visit_return.
Proof. unfold visit_return, vok. repeat go. Qed.
#[export] Hint Resolve v_visit_args v_visit_close v_visit_return : vok.

Lemma call_ok sc c L s : scope_at sc L s -> (forall j, In j (cc_exits c) -> jump_at j L s) -> scope_at (set_call c sc) L s.
Proof.
  unfold scope_at, jump_at. destruct L; [tauto|]. destruct (cs_stack s); [tauto|]. intros [A B C D] H.
  split; cbn; auto. apply Forall_forall. auto.
Qed.
Lemma v_enter_call : vok enter_call.
Proof.
  unfold enter_call, vok. apply t_update_top. intros L s sc _ H. apply call_ok; [exact H|]. cbn.
  intros j. now apply scope_at_call.
Qed.
Lemma v_exit_call : vok exit_call.
Proof.
  unfold exit_call, vok. go. destruct (cc_depth _) as [|[|d]]; [go| |].
  - eapply t_bind; [stab| |intros ?].
    + apply t_update_top. intros L s sc _ H. apply call_ok; [exact H|]. cbn. tauto.
    + apply t_each; [stab|]. intros j Hj. apply t_patch. intros L s [[_ H] _]. eapply scope_at_call; eauto.
  - apply t_update_top. intros L s sc [_ H] H'. apply call_ok; [exact H'|]. cbn. intros j. now apply scope_at_call.
Qed.
#[export] Hint Resolve v_enter_call v_exit_call : vok.

Lemma v_scan_expr e : vok (scan_expr e).
Proof. induction e; cbn [scan_expr]; unfold vok in *; repeat go; auto. Qed.
#[export] Hint Resolve v_scan_expr : vok.
Lemma v_scan_items es t : vok (scan_item_decls es t).
Proof. unfold scan_item_decls, vok. apply t_each; [stab|]. intros x _. go. Qed.
Lemma v_unique args : vok (assert_unique_params args).
Proof. unfold assert_unique_params, vok. repeat go. Qed.
Lemma v_operator o : vok (visit_operator o).
Proof. unfold visit_operator, vok. repeat go. Qed.
Lemma v_drop_temps n : vok (drop_temps n).
Proof. unfold drop_temps, vok. apply t_times; [stab|]. repeat go. Qed.
Lemma v_assert_super es t : vok (assert_super_call es t).
Proof. unfold assert_super_call, vok. repeat go. Qed.
#[export] Hint Resolve v_scan_items v_unique v_operator v_drop_temps v_assert_super : vok.

(** Imported and destructured names. *)
Definition slots_at (items : list (string * nat)) : assertion := fun L s => forall p, In p items -> slot_at (snd p) L s.
Lemma stable_slots items : stable (slots_at items).
Proof. intros L s L' s' E H p Hp. eapply stable_slot; eauto. Qed.
#[export] Hint Resolve stable_slots : stab.
Lemma v_add_locals names (P : assertion) : triple P (add_locals names) slots_at.
Proof.
  revert P. induction names as [|n r IH]; intros P; cbn [add_locals].
  - apply t_ret. intros L s _ p [].
  - eapply t_seq; [apply t_add_local|]. intros slot.
    eapply t_bind; [stab|apply IH|]. intros rest. apply t_ret. intros L s [H1 H2] p [<-|Hp]; auto.
Qed.
Lemma v_emit_fields items (P : assertion) : (forall L s, P L s -> slots_at items L s) ->
  triple P (emit_fields_to_locals items) (fun _ => any).
Proof.
  intros HP. eapply t_pre; [|exact HP]. unfold emit_fields_to_locals. apply t_each; [stab|]. intros p Hp.
  go. go. eapply t_bind; [stab| |intros ?].
  - apply t_emit_slot; [reflexivity|]. intros L s [[H _] _]. auto.
  - go.
Qed.

(** * Compiling a function *)
Lemma context_new_ok n k : ctx_ok n [] (context_new k).
Proof.
  split; unfold consts_of, slots_of, ups_of; cbn [context_new cx_asm cx_scopes asm_new asm_consts asm_data scope_stack_new ss_scopes].
  - reflexivity.
  - constructor.
  - constructor.
  - intros _. constructor.
  - constructor; [|constructor]. split; cbn; auto.
  - constructor.
  - cbn. lia.
Qed.

Lemma finish_wf n l c : ctx_ok n l c -> wf_bytecode (finish c).
Proof.
  intros [A1 A2 A3 A4 A5 A6 A7]. constructor.
  - exists l. unfold finish, generate; cbn [bc_data bc_constants bc_slot_count bc_upvalue_count].
    split; [exact A1|]. split; [exact A2|]. split; [exact A3|]. rewrite A1. exact A4.
  - exact A7.
  - intros f Hf. cbn in Hf. rewrite Forall_forall in A6. apply A6 in Hf. apply Hf.
Qed.

Definition fn_ok (fc : context) : assertion := fun _ s =>
  match cs_stack s with
  | c :: _ => wf_bytecode (finish fc) /\ Forall (desc_ok c) (cx_upvalues fc)
  | [] => True
  end.
Definition free_id (id : nat) : assertion := fun _ s =>
  id < cs_next_id s /\ match cs_stack s with c :: _ => pool_free id c | [] => True end.
Definition asm_of (s : cstate) : option assembler := match cs_stack s with c :: _ => Some (cx_asm c) | [] => None end.

Lemma desc_le l l' p p' d : ctx_le l p l' p' -> desc_ok p d -> desc_ok p' d.
Proof.
  intros [_ E U _]. destruct d; cbn; [lia|]. apply prefix_length in U. unfold ups_of. lia.
Qed.
Lemma stable_fn_ok fc : stable (fn_ok fc).
Proof.
  intros L s L' s' [_ E]; unfold fn_ok.
  destruct L as [|l0 L0], (cs_stack s) as [|c0 r0], L' as [|l1 L1], (cs_stack s') as [|c1 r1]; try tauto.
  destruct E as (E & _ & _). intros [H1 H2]. split; [exact H1|]. eapply Forall_impl; [|exact H2]. intros d. eapply desc_le; eauto.
Qed.
#[export] Hint Resolve stable_fn_ok : stab.
Lemma free_quiet id L s L' s' : evo L s L' s' -> asm_of s' = asm_of s -> free_id id L s -> free_id id L' s'.
Proof.
  intros [HN E] A [H1 H2]. unfold free_id, asm_of in *. split; [lia|].
  destruct L as [|l0 L0], (cs_stack s) as [|c0 r0], L' as [|l1 L1], (cs_stack s') as [|c1 r1]; try tauto.
  injection A as A. unfold pool_free, consts_of in *. now rewrite A.
Qed.

Definition quiet {A} (m : M A) : Prop := forall L s a s', good L s -> m s = Ok (a, s') -> asm_of s' = asm_of s.
Lemma t_quiet {A} id (P : assertion) (m : M A) Q : quiet m -> triple P m Q ->
  triple (fun L s => P L s /\ free_id id L s) m (fun a L s => Q a L s /\ free_id id L s).
Proof.
  intros HQ H L s a s' G [HP HF] E. destruct (H _ _ _ _ G HP E) as (L' & G' & E' & Q').
  exists L'. split; [exact G'|]. split; [exact E'|]. split; [exact Q'|]. eapply free_quiet; eauto.
Qed.
Lemma quiet_scopes {A} (f : scope_stack -> outcome (A * scope_stack)) : quiet (on_scopes f).
Proof. intros L s a s' _ H. apply on_scopes_ok in H as (c & r & n & ss & -> & _ & ->). reflexivity. Qed.

(** A computation in a new function. *)
Lemma t_in_function {A} k (m : M A) (P : assertion) : vok m ->
  triple P (push_context k ;;; m ;;; pop_context) fn_ok /\ quiet (push_context k ;;; m ;;; pop_context).
Proof.
  intros Hm. 
  assert (X : forall L st n c s', good L (CState st n) -> (push_context k ;;; m ;;; pop_context) (CState st n) = Ok (c, s') ->
    good L s' /\ evo L (CState st n) L s' /\ fn_ok c L s' /\ asm_of s' = asm_of (CState st n)).
  { intros L st n c s' [G K] H. unfold push_context in H. apply bind_ok in H as (u & s1 & [= <- <-] & H).
    apply bind_ok in H as (a & s2 & H1 & H2). cbn [cs_stack cs_next_id] in *.
    assert (G1 : good ([] :: L) (CState (context_new k :: st) n)).
    { split; cbn [cs_stack cs_next_id]; [constructor; [apply context_new_ok|exact G]|].
      cbn [linked context_new cx_upvalues]. destruct st; auto. }
    destruct (Hm _ _ _ _ G1 I H1) as (L2 & G2 & E2 & _).
    destruct s2 as [[|c2 r2] n2]; [discriminate H2|]. injection H2 as <- <-.
    destruct (good_shape _ _ _ _ G2) as (l2 & lr2 & ->).
    pose proof (good_cons _ _ _ _ _ G2) as (Gc & Gr & Gl).
    destruct E2 as (En & E1 & -> & E3). cbn [cs_stack cs_next_id] in *.
    split; [split; cbn; [exact Gr|]|split; [|split]].
    - cbn [linked] in Gl. destruct r2; [exact I|apply Gl].
    - split; cbn [cs_stack cs_next_id]; [exact En|].
      destruct E3; inversion Gr; subst; auto using outer_ctx_le.
    - unfold fn_ok. cbn [cs_stack]. destruct r2 as [|p r2]; [exact I|]. split; [eapply finish_wf; eauto|].
      cbn [linked] in Gl. apply Gl.
    - unfold asm_of. cbn [cs_stack]. destruct E3 as [|x y ? ? [O _ _]]; [reflexivity|]. now rewrite O. }
  split.
  - intros L [st n] c s' G _ H. destruct (X _ _ _ _ _ G H) as (? & ? & ? & ?). eauto.
  - intros L [st n] c s' G H. eapply X; eauto.
Qed.

Lemma t_seq_pre {A B} (p : M A) (m : M B) (P : assertion) Q : vok p -> triple any m Q -> triple P (p ;;; m) Q.
Proof.
  intros Hp Hm. eapply t_seq; [apply t_ok; exact Hp|]. intros ?. eapply t_pre; [exact Hm|]. intros; exact I.
Qed.
Lemma quiet_seq {A B} (p : M A) (f : A -> M B) : vok p -> quiet p -> (forall a, quiet (f a)) -> quiet (bind p f).
Proof.
  intros V Q1 Q2 L s b s' G H. apply bind_ok in H as (a & s1 & H1 & H2).
  destruct (V _ _ _ _ G I H1) as (L1 & G1 & _). rewrite (Q2 a _ _ _ _ G1 H2). eapply Q1; eauto.
Qed.

Section Visitors.
Variable visit : expr -> M unit.

Lemma v_block_body es t : (forall x, In x es -> vok (visit x)) -> (forall x, t = Some x -> vok (visit x)) ->
  vok (visit_block_body visit es t).
Proof.
  intros H1 H2. unfold visit_block_body, vok. eapply t_bind; [stab| |intros ?].
  - apply t_each; [stab|]. intros x Hx. specialize (H1 x Hx). repeat go.
  - destruct t as [x|]; [|go]. specialize (H2 x eq_refl). go.
Qed.
Hint Resolve v_block_body : vok.
Lemma v_block b es t : (forall x, In x es -> vok (visit x)) -> (forall x, t = Some x -> vok (visit x)) ->
  vok (visit_block visit b es t).
Proof.
  intros H1 H2. pose proof (v_block_body es t H1 H2). unfold visit_block, vok. repeat go.
Qed.
Lemma v_fn_block k args es t body : vok body -> vok (visit_fn_block k args es t body).
Proof. intros H. unfold visit_fn_block, vok. destruct k as [| | |[]]; repeat go. Qed.

Lemma v_body_of k args body : (forall es t, body = EBlock es t -> (forall x, In x es -> vok (visit x)) /\ (forall x, t = Some x -> vok (visit x))) ->
  vok (visit body) ->
  vok (match body with
       | EBlock es t => visit_fn_block k args es t (visit_block_body visit es t)
       | _ => visit_fn_block k args [] (Some body) (visit body)
       end).
Proof.
  intros H1 H2. destruct body; try (apply v_fn_block; exact H2). apply v_fn_block.
  destruct (H1 _ _ eq_refl). now apply v_block_body.
Qed.
Definition body_ok (body : expr) : Prop :=
  vok (visit body) /\ forall es t, body = EBlock es t -> (forall x, In x es -> vok (visit x)) /\ (forall x, t = Some x -> vok (visit x)).
Lemma v_compile_fn args rt kind body (P : assertion) : body_ok body ->
  triple P (compile_fn visit args rt kind body) fn_ok /\ quiet (compile_fn visit args rt kind body).
Proof.
  intros [H2 H1]. pose proof (v_body_of kind args body H1 H2) as HB. unfold compile_fn.
  match goal with |- context [push_context ?k ;;; ?m ;;; pop_context] => pose proof (t_in_function k m any HB) as [T Q] end.
  split.
  - apply t_seq_pre; [|exact T]. unfold vok. repeat go.
  - apply quiet_seq; [unfold vok; repeat go| |intros _; exact Q].
    intros L s a s' _. destruct kind, rt; cbn; try discriminate; now intros [= _ <-].
Qed.

Lemma v_emit_compiled name id fc (P : assertion) : (forall L s, P L s -> fn_ok fc L s /\ free_id id L s) ->
  triple P (emit_compiled name id fc) (fun _ => any).
Proof.
  intros H. apply t_emit_compiled. intros L s HP. apply H in HP as [A [B C]]. unfold fn_ok, fn_ready in *.
  destruct (cs_stack s); tauto.
Qed.

Lemma v_method name args rt body kind : body_ok body -> vok (visit_method visit name args rt body kind).
Proof.
  intros HB. unfold visit_method, vok. go.
  eapply t_seq; [apply (v_compile_fn args rt kind body _ HB)|]. intros c.
  eapply t_bind; [stab|apply fresh_below|]. intros id. apply v_emit_compiled. intros L s [A B]. split; [exact A|exact B].
Qed.
Lemma t_carry {A} (R : assertion) (m : M A) Q : stable R -> triple any m Q -> triple R m (fun a L s => R L s /\ Q a L s).
Proof.
  intros SR H L s a s' G HR E. destruct (H _ _ _ _ G I E) as (L' & ? & ? & ?). eauto 6.
Qed.
Lemma v_fn_decl name args rt body : body_ok body -> vok (visit_fn_decl visit name args rt body).
Proof.
  intros HB. unfold visit_fn_decl, vok. go.
  eapply t_seq; [apply (v_compile_fn args rt FkFunction body _ HB)|]. intros c.
  eapply t_seq; [apply (t_carry (fn_ok c) _ free_id); [stab|apply fresh_below]|]. intros id.
  eapply t_seq; [apply t_quiet; [apply quiet_scopes|apply t_carry; [stab|apply t_local]]|].
  intros [v|]; [|go]. cbv beta iota. destruct (sv_state v) as [| [] |]; try go.
  eapply t_seq.
  - apply t_quiet with (P := fun L s => fn_ok c L s /\ slot_at (sv_slot v) L s); [apply quiet_scopes|].
    apply t_carry; [stab|apply t_set_state].
  - intros ?. eapply t_seq.
    + eapply t_pre; [apply t_frame with (P := fun L s => fn_ok c L s /\ free_id id L s) (R := slot_at (sv_slot v)) (Q := fun _ => any)|].
      * stab.
      * apply v_emit_compiled. auto.
      * cbv beta. tauto.
    + intros ?. go.
Qed.
Lemma v_op_decl op args rt body b : body_ok body -> vok (visit_op_decl visit op args rt body b).
Proof.
  intros HB. unfold visit_op_decl, vok. go.
  eapply t_seq; [apply (v_compile_fn args rt _ body _ HB)|]. intros c.
  eapply t_seq; [apply (t_carry (fn_ok c) _ free_id); [stab|apply fresh_below]|]. intros id.
  eapply t_seq; [apply v_emit_compiled; auto|]. intros ?. repeat go.
Qed.
Lemma v_anonymous args rt body : body_ok body -> vok (visit_anonymous_fn visit args rt body).
Proof.
  intros HB. unfold visit_anonymous_fn, vok.
  eapply t_seq; [apply fresh_below|]. intros id.
  destruct (v_compile_fn args rt FkFunction body any HB) as [T Q].
  eapply t_seq with (Q := fun c L s => fn_ok c L s /\ free_id id L s).
  - eapply t_pre; [apply (t_quiet id any _ fn_ok Q T)|]. intros L s H. split; [exact I|exact H].
  - intros c. apply v_emit_compiled. auto.
Qed.

Definition item_ok (item : expr) : Prop :=
  match item with
  | EFnDecl _ _ _ body | EOpDecl _ _ _ body => body_ok body
  | _ => True
  end.
Lemma v_class_item slot k item (P : assertion) : (forall L s, P L s -> slot_at slot L s) -> item_ok item ->
  triple P (visit_class_item visit slot k item) (fun _ => any).
Proof.
  intros HP HI. eapply t_pre; [|exact HP]. destruct item; cbn [visit_class_item item_ok] in *; try go.
  - unfold visit_class_fn.
    match type of HI with body_ok ?b =>
      pose proof (v_method name args return_ b (if String.eqb name NEW then FkConstructor k else FkMethod) HI);
      pose proof (v_method name args return_ b FkStaticMethod HI) end. repeat go.
  - unfold visit_class_op. match type of HI with body_ok ?b => pose proof (v_op_decl op args return_ b true HI) end. repeat go.
Qed.
Lemma v_class name items base : (forall x, base = Some x -> vok (visit x)) -> (forall x, In x items -> item_ok x) ->
  vok (visit_class visit name items base).
Proof.
  intros HB HI. unfold visit_class, vok. go.
  assert (vok (match base with Some b => visit b | None => visit_ident ANY_CLASS end)) as HV.
  { destruct base; [auto|apply v_visit_ident]. }
  go. go. go. go. match goal with |- triple _ (match ?x with _ => _ end) _ => destruct x as [v|] end; [|go]. cbv beta iota.
  eapply t_bind with (Q := fun _ => any); [stab|repeat go|intros ?]. go. go.
  eapply t_bind with (Q := fun _ => any); [stab| |intros ?].
  - apply t_each; [stab|]. intros x Hx. apply v_class_item; [sideP|auto].
  - repeat go.
Qed.

Lemma v_export e : vok (visit e) -> vok (visit_export visit e).
Proof. intros H. unfold visit_export, vok. repeat go. Qed.
Lemma v_import m items path : vok (visit_import m items path).
Proof.
  unfold visit_import, vok. eapply t_bind; [stab|apply v_add_locals|intros imports]. go.
  eapply t_bind with (Q := fun _ => any); [stab|apply v_emit_fields; sideP|intros ?]. repeat go.
Qed.
Lemma v_var_decl kind m e t : vok (visit e) -> vok (visit_var_decl visit kind m e t).
Proof.
  intros H. unfold visit_var_decl, vok. go. destruct kind as [name|names].
  - go. go. apply v_visit_local_type. sideP.
  - eapply t_bind; [stab|apply v_add_locals|intros items]. apply v_emit_fields. sideP.
Qed.
Lemma v_list items : (forall x, In x items -> vok (visit x)) -> vok (visit_list visit items).
Proof.
  intros H. unfold visit_list, vok. eapply t_bind with (Q := fun _ => any); [stab| |intros ?; go].
  apply t_each; [stab|]. intros x Hx. apply H in Hx. go.
Qed.
Lemma v_object items : (forall k x, In (k, x) items -> vok (visit x)) -> vok (visit_object visit items).
Proof.
  intros H. unfold visit_object, vok. go. apply t_each; [stab|]. intros [k x] Hx. apply H in Hx. repeat go.
Qed.
Lemma v_assign_slot load assign n b op rhs (R : assertion) : stable R -> vok (visit rhs) ->
  (slot_byte load = true /\ slot_byte assign = true /\ (forall L s, R L s -> slot_at n L s)) \/
  (up_byte load = true /\ up_byte assign = true /\ (forall L s, R L s -> up_at n L s)) ->
  triple R (assign_slot visit load assign n b op rhs) (fun _ => any).
Proof.
  intros SR HV H. unfold assign_slot. destruct b; [|go].
  assert (E1 : forall P : assertion, (forall L s, P L s -> R L s) -> triple P (emit_u8 assign (u8_of n)) (fun _ => any)).
  { intros P HP. destruct H as [(_ & H & K)|(_ & H & K)]; [apply t_emit_slot|apply t_emit_up]; eauto. }
  assert (E2 : forall P : assertion, (forall L s, P L s -> R L s) -> triple P (emit_u8 load (u8_of n)) (fun _ => any)).
  { intros P HP. destruct H as [(H & _ & K)|(H & _ & K)]; [apply t_emit_slot|apply t_emit_up]; eauto. }
  destruct op; (eapply t_bind with (Q := fun _ => any); [stab|first [go; fail|apply E2; auto]|intros ?]);
    repeat (first [apply E1; sideP | go]).
Qed.
Lemma v_assignment op lhs rhs : vok (visit rhs) ->
  match lhs with
  | EFieldAccess o _ => vok (visit o)
  | EIndex o i => vok (visit o) /\ vok (visit i)
  | _ => True
  end -> vok (visit_assignment visit op lhs rhs).
Proof.
  intros H1 H2. unfold visit_assignment, vok. destruct lhs; try go.
  - unfold assign_ident. eapply t_bind; [stab|apply t_local|intros [v|]]; cbv beta iota.
    + apply v_assign_slot; [stab|exact H1|]. left. repeat split. sideP.
    + eapply t_bind; [stab|apply t_resolve|intros [i|]]; cbv beta iota; [|go].
      eapply t_bind with (Q := fun _ => any); [stab|apply t_context_post|intros cx].
      destruct (nth_error _ _); [|go].
      apply v_assign_slot; [stab|exact H1|]. right. repeat split. sideP.
  - unfold assign_field. destruct op; repeat go.
  - unfold assign_index. destruct H2. destruct op; repeat go.
Qed.
Lemma v_logical o lhs rhs : vm_operands o = OffsetOperand -> vok (visit lhs) -> vok (visit rhs) -> vok (visit_logical visit o lhs rhs).
Proof.
  intros Ho H1 H2. unfold visit_logical, vok. go. go. go. eapply t_bind; [stab|now apply t_jump|intros j]. repeat go.
Qed.
Lemma v_binary op lhs rhs : vok (visit lhs) -> vok (visit rhs) -> vok (visit_binary visit op lhs rhs).
Proof.
  intros H1 H2. unfold visit_binary. destruct op;
    try (apply v_logical; [reflexivity|assumption|assumption]); unfold vok; cbn [binary_opcode]; repeat go.
Qed.
Lemma v_isolated e : vok (visit e) -> vok (visit_isolated visit e).
Proof.
  intros H. unfold visit_isolated, vok. go.
  eapply t_bind with (Q := fun _ => any); [stab| |intros ?].
  - apply t_update_top. intros L s sc _ K. apply call_ok; [exact K|]. cbn. tauto.
  - go. go. go. apply t_update_top. intros L s sc K K'. apply call_ok; [exact K'|]. intros j. apply scope_at_call. tauto.
Qed.
Lemma v_call_args args : (forall x, In x args -> vok (visit x)) -> vok (visit_call_args visit args).
Proof.
  intros H. unfold visit_call_args, vok. go. eapply t_bind with (Q := fun _ => any); [stab| |intros ?; go].
  apply t_each; [stab|]. intros x Hx. apply H in Hx. apply v_isolated in Hx. go.
Qed.
Lemma v_fn_call target args : vok (visit target) -> (forall x, In x args -> vok (visit x)) -> vok (visit_fn_call visit target args).
Proof. intros H1 H2. apply v_call_args in H2. unfold visit_fn_call, vok. repeat go. Qed.
Lemma v_super_call args : (forall x, In x args -> vok (visit x)) -> vok (visit_super_call visit args).
Proof. intros H2. apply v_call_args in H2. unfold visit_super_call, vok. repeat go. Qed.
Lemma v_index a b : vok (visit a) -> vok (visit b) -> vok (visit_index visit a b).
Proof. intros H1 H2. apply v_isolated in H2. unfold visit_index, vok. repeat go. Qed.
Lemma v_super_access f c : vok (visit_super_access f c).
Proof. unfold visit_super_access, vok. repeat go. Qed.
Lemma v_is e t : vok (visit e) -> vok (visit_is visit e t).
Proof. intros H. unfold visit_is, vok. repeat go. Qed.
Lemma v_null_propagate e : vok (visit e) -> vok (visit_null_propagate visit e).
Proof.
  intros H. unfold visit_null_propagate, vok. do 5 go. apply t_update_top. intros L s sc K K'.
  apply call_ok; [exact K'|]. cbn. intros j Hj. apply in_app_or in Hj as [Hj|[<-|[]]].
  - eapply scope_at_call; eauto.
  - apply K.
Qed.
Lemma v_error_propagate e : vok (visit e) -> vok (visit_error_propagate visit e).
Proof. intros H. unfold visit_error_propagate, vok. repeat go. Qed.
Lemma v_return_expr r : (forall x, r = Some x -> vok (visit x)) -> vok (visit_return_expr visit r).
Proof.
  intros H. unfold visit_return_expr, vok. destruct r as [x|]; [specialize (H x eq_refl)|]; repeat go.
Qed.
Lemma v_if c p s : vok (visit c) -> vok (visit p) -> (forall x, s = Some x -> vok (visit x)) -> vok (visit_if visit c p s).
Proof.
  intros H1 H2 H. unfold visit_if, vok. destruct s as [x|]; [specialize (H x eq_refl)|]; repeat go.
Qed.
Lemma v_exits sc (P : assertion) : (forall L s, P L s -> scope_at sc L s) ->
  triple P (each patch (sc_exits sc)) (fun _ => any).
Proof.
  intros HP. eapply t_pre; [|exact HP]. apply t_each; [stab|]. intros j Hj. apply t_patch. intros L s H. eapply scope_at_exit; eauto.
Qed.
Ltac go2 := first [ go
  | match goal with |- triple _ (bind (each patch _) _) _ =>
      eapply t_bind with (Q := fun _ => any); [stab; fail|apply v_exits; sideP|intros ?] end
  | match goal with |- triple _ (bind (close_vars _) _) _ =>
      eapply t_bind with (Q := fun _ => any); [stab; fail|apply v_close_scope; sideP|intros ?] end ].
Lemma v_while c body : vok (visit c) -> (forall es t, body = EBlock es t -> vok (visit_block visit true es t)) -> vok (visit_while visit c body).
Proof.
  intros H1 H2. unfold visit_while, vok. destruct body; try go. specialize (H2 _ _ eq_refl). repeat go2.
Qed.
Lemma v_loop body : (forall es t, body = EBlock es t -> vok (visit_block visit true es t)) -> vok (visit_loop visit body).
Proof.
  intros H2. unfold visit_loop, vok. destruct body; try go. specialize (H2 _ _ eq_refl). repeat go2.
Qed.
Lemma v_range_loop b v x y body : vok (visit x) -> vok (visit y) -> vok (visit body) -> vok (visit_range_loop visit b v x y body).
Proof. intros H1 H2 H3. unfold visit_range_loop, vok. repeat go2. Qed.
Lemma v_iterator_loop v x body : vok (visit x) -> vok (visit body) -> vok (visit_iterator_loop visit v x body).
Proof. intros H1 H3. unfold visit_iterator_loop, vok. repeat go2. Qed.
Lemma v_for v x body : vok (visit x) -> vok (visit body) ->
  (forall o a b, x = EBinary o a b -> vok (visit a) /\ vok (visit b)) -> vok (visit_for visit v x body).
Proof.
  intros H1 H2 H3. unfold visit_for. destruct x; try now apply v_iterator_loop.
  destruct (H3 _ _ _ eq_refl). destruct op; first [now apply v_range_loop | now apply v_iterator_loop].
Qed.
Lemma v_break : vok visit_break.
Proof.
  unfold visit_break, vok. eapply t_bind with (Q := fun _ => any); [stab|apply t_context_post|intros cx]. repeat go.
Qed.
Lemma v_continue : vok visit_continue.
Proof.
  unfold visit_continue, vok. eapply t_bind with (Q := fun _ => any); [stab|apply t_context_post|intros cx]. repeat go.
Qed.
Lemma v_prefix op e : vok (visit e) -> vok (visit_prefix visit op e).
Proof. intros H. unfold visit_prefix, vok. destruct op; repeat go. Qed.
Lemma v_field_access e f : vok (visit e) -> vok (visit_field_access visit e f).
Proof. intros H. unfold visit_field_access, vok. repeat go. Qed.
End Visitors.
Lemma v_in_call m : vok m -> vok (in_call m).
Proof. intros H. unfold in_call, vok. repeat go. Qed.

Theorem visit_ok : forall e, vok (visit e).
Proof.
  induction e as [e IH] using expr_size_ind.
  assert (HB : forall b, esize b < esize e -> body_ok visit b).
  { intros b Hb. split; [now apply IH|]. intros es t ->. split; intros x Hx; apply IH; [esz|subst; esz]. }
  destruct e; cbn [visit]; try (unfold vok; go; fail).
  - apply v_anonymous. apply HB. esz.
  - apply v_object. intros. apply IH. esz.
  - apply v_list. intros. apply IH. esz.
  - apply v_in_call, v_null_propagate, IH. esz.
  - apply v_in_call, v_error_propagate, IH. esz.
  - apply v_in_call, v_field_access, IH. esz.
  - apply v_in_call, v_super_access.
  - apply v_in_call, v_fn_call; [apply IH; esz|]. intros. apply IH. esz.
  - apply v_in_call, v_super_call. intros. apply IH. esz.
  - apply v_in_call, v_index; apply IH; esz.
  - apply v_is, IH. esz.
  - apply v_prefix, IH. esz.
  - apply v_binary; apply IH; esz.
  - apply v_assignment; [apply IH; esz|]. destruct e1; auto; [apply IH; esz|]. split; apply IH; esz.
  - apply v_var_decl, IH. esz.
  - apply v_fn_decl, HB. esz.
  - apply v_op_decl, HB. esz.
  - apply v_class; [intros x ->; apply IH; esz|]. intros x Hx. unfold item_ok.
    destruct x; auto; apply HB; apply lsize_in in Hx; esz.
  - apply v_import.
  - apply v_export, IH. esz.
  - apply v_if; [apply IH; esz|apply IH; esz|]. intros x ->. apply IH. esz.
  - apply v_while; [apply IH; esz|]. intros es t ->. apply v_block; intros x Hx; apply IH; [esz|subst; esz].
  - apply v_for; [apply IH; esz|apply IH; esz|]. intros o a b ->. split; apply IH; esz.
  - apply v_loop. intros es t ->. apply v_block; intros x Hx; apply IH; [esz|subst; esz].
  - apply v_block; intros x Hx; apply IH; [esz|subst; esz].
  - apply v_break.
  - apply v_continue.
  - apply v_return_expr. intros x ->. apply IH. esz.
Qed.

Theorem compile_wf kind root b : compile kind root = Ok b -> wf_bytecode b.
Proof.
  unfold compile. intros H. apply omap_ok in H as ([b0 s'] & H & <-). cbn [fst].
  set (s0 := CState [context_new kind] 0) in *.
  assert (G0 : good [[]] s0).
  { split; cbn; [constructor; [apply context_new_ok|constructor]|]. auto. }
  unfold compile_m in H.
  apply bind_ok in H as (u1 & s1 & H1 & H). apply bind_ok in H as (u2 & s2 & H2 & H).
  apply bind_ok in H as (u3 & s3 & H3 & H). apply bind_ok in H as (c & s4 & H4 & [= <- <-]).
  match type of H1 with ?m _ = _ => assert (V1 : vok m) by (unfold vok; repeat go) end.
  match type of H3 with ?m _ = _ => assert (V3 : vok m) by (unfold vok; repeat go) end.
  destruct (V1 _ _ _ _ G0 I H1) as (L1 & G1 & _). destruct (visit_ok root _ _ _ _ G1 I H2) as (L2 & G2 & _).
  destruct (V3 _ _ _ _ G2 I H3) as (L3 & G3 & _).
  destruct s3 as [[|c3 r3] n3]; [discriminate H4|]. injection H4 as <- <-.
  destruct (good_shape _ _ _ _ G3) as (l & lr & ->). apply good_cons in G3 as (G & _ & _). eapply finish_wf; eauto.
Qed.
