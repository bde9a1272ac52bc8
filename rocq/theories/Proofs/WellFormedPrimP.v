(** The primitives of the code generator keep the invariant of WellFormedP.v. *)
From Verif.Model Require Import Compiler.
From Verif.Spec Require Import WellFormed.
From Verif.Proofs Require Import CodecP AssemblerP PoolP CaptureP WellFormedP.

(** * Assertions about the function being compiled *)
Definition jump_at (j : nat) : assertion := fun L _ => match L with l :: _ => jump_field l j | [] => False end.
Definition bound_at (p : nat) : assertion := fun L _ => match L with l :: _ => boundary l p | [] => False end.
Definition slot_at (n : nat) : assertion := fun _ s => match cs_stack s with c :: _ => n < slots_of c | [] => False end.
Definition up_at (n : nat) : assertion := fun _ s => match cs_stack s with c :: _ => n < ups_of c | [] => False end.
Definition scope_at (sc : scope) : assertion :=
  fun L s => match L, cs_stack s with l :: _, c :: _ => scope_ok l (slots_of c) sc | _, _ => False end.

Lemma scope_ok_mono l l' n n' sc : later l l' -> n <= n' -> scope_ok l n sc -> scope_ok l' n' sc.
Proof.
  intros HL Hn [A B C D]. split.
  - eapply Forall_impl; [|exact A]. intros. eapply jump_field_later; eauto.
  - eapply Forall_impl; [|exact B]. intros. eapply jump_field_later; eauto.
  - eapply Forall_impl; [|exact C]. cbn. intros. lia.
  - destruct (sc_entry sc); auto. eapply boundary_later; eauto.
Qed.

Ltac evo_inv :=
  intros L s L' s' [_ E]; cbn;
  destruct L as [|l0 L0], (cs_stack s) as [|c0 r0], L' as [|l1 L1], (cs_stack s') as [|c1 r1]; try tauto;
  destruct E as ([E1 E2 E3 E4] & _ & _).
Lemma stable_jump j : stable (jump_at j).
Proof. evo_inv. now apply jump_field_later. Qed.
Lemma stable_bound j : stable (bound_at j).
Proof. evo_inv. now apply boundary_later. Qed.
Lemma stable_slot j : stable (slot_at j).
Proof. unfold slot_at. evo_inv. lia. Qed.
Lemma stable_up j : stable (up_at j).
Proof. unfold up_at. evo_inv. apply prefix_length in E3. unfold ups_of in *. lia. Qed.
Lemma stable_scope sc : stable (scope_at sc).
Proof. unfold scope_at. evo_inv. now apply scope_ok_mono. Qed.
#[export] Hint Resolve stable_any stable_and stable_pure stable_jump stable_bound stable_slot stable_up stable_scope : stab.

(** * Rules for computations on the top context *)
Lemma good_cons l lr c r next : good (l :: lr) (CState (c :: r) next) ->
  ctx_ok next l c /\ Forall2 (ctx_ok next) lr r /\ linked (c :: r).
Proof. intros [G K]. cbn [cs_stack cs_next_id] in *. inversion G; subst. auto. Qed.
Lemma good_shape L c r next : good L (CState (c :: r) next) -> exists l lr, L = l :: lr.
Proof. intros [G _]. cbn in G. inversion G; subst. eauto. Qed.

Lemma linked_swap c c' r : cx_upvalues c' = cx_upvalues c -> linked (c :: r) -> linked (c' :: r).
Proof. intros E. cbn. rewrite E. auto. Qed.

Lemma t_head {A} (P : assertion) (m : M A) (Q : A -> assertion) :
  (forall s a s', m s = Ok (a, s') -> exists c c' r n, s = CState (c :: r) n /\ s' = CState (c' :: r) n /\
     cx_upvalues c' = cx_upvalues c /\
     forall l lr, P (l :: lr) s -> ctx_ok n l c ->
       exists l', ctx_ok n l' c' /\ ctx_le l c l' c' /\ Q a (l' :: lr) s') ->
  triple P m Q.
Proof.
  intros H L s a s' G HP E. destruct (H _ _ _ E) as (c & c' & r & n & -> & -> & Hu & K).
  destruct (good_shape _ _ _ _ G) as (l & lr & ->).
  pose proof (good_cons _ _ _ _ _ G) as (G1 & G2 & G3).
  destruct (K l lr HP G1) as (l' & K1 & K2 & K3).
  exists (l' :: lr). split; [|split; [|exact K3]].
  - split; cbn; [constructor; assumption|]. eapply linked_swap; eauto.
  - split; cbn; [lia|]. auto using outers_refl.
Qed.

Lemma on_asm_ok {A} (f : assembler -> outcome (A * assembler)) s a s' :
  on_asm f s = Ok (a, s') -> exists c r n asm', s = CState (c :: r) n /\ f (cx_asm c) = Ok (a, asm') /\
    s' = CState (set_asm asm' c :: r) n.
Proof.
  unfold on_asm, bind, get_context, lift, set_context, ret. destruct s as [[|c r] n]; cbn; [discriminate|].
  destruct (f (cx_asm c)) as [[x asm']| | |] eqn:E; cbn; try discriminate. intros [= <- <-]. exists c, r, n, asm'. auto.
Qed.
Lemma on_scopes_ok {A} (f : scope_stack -> outcome (A * scope_stack)) s a s' :
  on_scopes f s = Ok (a, s') -> exists c r n ss', s = CState (c :: r) n /\ f (cx_scopes c) = Ok (a, ss') /\
    s' = CState (set_scopes ss' c :: r) n.
Proof.
  unfold on_scopes, bind, get_context, lift, set_context, ret. destruct s as [[|c r] n]; cbn; [discriminate|].
  destruct (f (cx_scopes c)) as [[x ss']| | |] eqn:E; cbn; try discriminate. intros [= <- <-]. exists c, r, n, ss'. auto.
Qed.

Lemma t_asm {A} (f : assembler -> outcome (A * assembler)) (P : assertion) (Q : A -> assertion) :
  (forall l lr c r n a asm', P (l :: lr) (CState (c :: r) n) -> ctx_ok n l c -> f (cx_asm c) = Ok (a, asm') ->
     exists l', ctx_ok n l' (set_asm asm' c) /\ ctx_le l c l' (set_asm asm' c) /\
       Q a (l' :: lr) (CState (set_asm asm' c :: r) n)) ->
  triple P (on_asm f) Q.
Proof.
  intros H. apply t_head. intros s a s' E. apply on_asm_ok in E as (c & r & n & asm' & -> & E & ->).
  exists c, (set_asm asm' c), r, n. split; [reflexivity|]. split; [reflexivity|]. split; [reflexivity|]. eauto.
Qed.

(** * Emitting an instruction *)
(** Where a newly emitted jump goes. *)
Definition target_ok (l : list instr) (i : instr) : Prop :=
  match i with
  | IOffset o z => (Z.of_nat (len l) + 3 <= 32767)%Z ->
                   exists p, (Z.of_nat (len l) + 3 + z = Z.of_nat p)%Z /\ boundary (l ++ [i]) p
  | _ => True
  end.

Lemma jumps_app_ok l i : jumps_ok l ->
  (match i with IOffset o z => exists p, (Z.of_nat (len l) + 3 + z = Z.of_nat p)%Z /\ boundary (l ++ [i]) p | _ => True end) ->
  jumps_ok (l ++ [i]).
Proof.
  intros H Hi. unfold jumps_ok in *. rewrite targets_app. apply Forall_app. split.
  - eapply Forall_impl; [|exact H]. intros t (p & -> & B). exists p. split; [reflexivity|].
    eapply boundary_later; [apply later_app|exact B].
  - cbn [Nat.add]. destruct i; cbn [targets]; constructor; auto.
Qed.

Lemma ctx_emit n l c i consts' :
  ctx_ok n l c -> prefix (consts_of c) consts' -> Forall (const_wf n) consts' -> List.length consts' <= 256 ->
  instr_ok consts' i -> operand_ok consts' (slots_of c) (ups_of c) i -> target_ok l i ->
  let c' := set_asm (MkAsm consts' (asm_data (cx_asm c) ++ encode_instr i)) c in
  ctx_ok n (l ++ [i]) c' /\ ctx_le l c (l ++ [i]) c'.
Proof.
  intros [A1 A2 A3 A4 A5 A6 A7] P W N I O T c'. split.
  - split; unfold c', consts_of, slots_of, ups_of; cbn [cx_asm cx_scopes cx_upvalues set_asm asm_consts asm_data].
    + rewrite A1, encode_app. unfold encode at 3. cbn. now rewrite app_nil_r.
    + apply Forall_app. split; [|auto].
      eapply Forall_impl; [|exact A2]. intros x. now apply instr_ok_mono.
    + apply Forall_app. split; [|auto].
      eapply Forall_impl; [|exact A3]. intros x. apply operand_ok_mono; auto.
    + rewrite len_app. unfold len at 2. cbn. rewrite app_nil_r. intros HL.
      apply jumps_app_ok; [apply A4; lia|]. destruct i; auto. apply T. cbn in HL. lia.
    + eapply Forall_impl; [|exact A5]. intros sc. apply scope_ok_mono; auto using later_app.
    + exact W.
    + exact N.
  - split; auto using later_app, prefix_refl.
Qed.

Lemma ctx_emit0 n l c i :
  ctx_ok n l c -> instr_ok (consts_of c) i -> operand_ok (consts_of c) (slots_of c) (ups_of c) i -> target_ok l i ->
  let c' := set_asm (MkAsm (consts_of c) (asm_data (cx_asm c) ++ encode_instr i)) c in
  ctx_ok n (l ++ [i]) c' /\ ctx_le l c (l ++ [i]) c'.
Proof. intros H. apply ctx_emit; auto using prefix_refl; apply H. Qed.

Lemma t_emit o (P : assertion) : vm_operands o = NoOperand -> triple P (emit o) (fun _ => any).
Proof.
  intros Ho. apply t_asm. intros l lr c r n a asm' _ G [= <- <-].
  destruct (ctx_emit0 n l c (INone o) G Ho I I) as [K1 K2]. exists (l ++ [INone o]).
  repeat split; auto; apply K2 || apply K1.
Qed.

Lemma u8_le n : u8_of n <= n.
Proof. unfold u8_of. apply Nat.mod_le. lia. Qed.
Lemma u8_lt n : u8_of n < 256.
Proof. unfold u8_of. apply Nat.mod_upper_bound. lia. Qed.

Lemma t_emit_u8 o b (P : assertion) : vm_operands o = ByteOperand ->
  (forall L s, P L s -> match cs_stack s with c :: _ => operand_ok (consts_of c) (slots_of c) (ups_of c) (IByte o b) | [] => False end) ->
  triple P (emit_u8 o b) (fun _ => any).
Proof.
  intros Ho Hb. apply t_asm. intros l lr c r n a asm' HP G [= <- <-].
  apply Hb in HP. cbn [cs_stack] in HP.
  destruct (ctx_emit0 n l c (IByte o b) G Ho HP I) as [K1 K2]. exists (l ++ [IByte o b]).
  assert (emit1 o b (cx_asm c) = MkAsm (consts_of c) (asm_data (cx_asm c) ++ encode_instr (IByte o b))) as ->.
  { unfold emit1, put_u8, consts_of. cbn. f_equal. now rewrite <- app_assoc. }
  split; [exact K1|]. split; [exact K2|]. exact I.
Qed.

(** The operand kinds of [emit_u8]. *)
Definition plain_byte (o : opcode) : bool :=
  match o with OpDup | OpCreateArray | OpCall | OpCallSuper => true | _ => false end.
Definition slot_byte (o : opcode) : bool :=
  match o with
  | OpLoadLocal | OpStoreLocal | OpAssignLocal | OpCloseUpvalue
  | OpAssertTypeForLocal | OpAssertTypeOrNullForLocal => true | _ => false end.
Definition up_byte (o : opcode) : bool :=
  match o with OpLoadUpvalue | OpStoreUpvalue | OpAssignUpvalue => true | _ => false end.
Definition sym_byte (o : opcode) : bool :=
  match o with
  | OpInheritClass | OpLoadModule | OpLoadGlobal | OpStoreGlobal
  | OpLoadField | OpStoreField | OpAssignField | OpLoadMethod | OpStoreMethod => true | _ => false end.

Lemma t_emit_plain o b (P : assertion) : plain_byte o = true -> b < 256 -> triple P (emit_u8 o b) (fun _ => any).
Proof.
  intros Ho Hb. apply t_asm. intros l lr c r n a asm' HP G [= <- <-].
  assert (vm_operands o = ByteOperand) as Hv by (destruct o; discriminate || reflexivity).
  assert (operand_ok (consts_of c) (slots_of c) (ups_of c) (IByte o b)) as HO
    by (cbn; split; [exact Hb|destruct o; discriminate || exact I]).
  destruct (ctx_emit0 n l c (IByte o b) G Hv HO I) as [K1 K2]. exists (l ++ [IByte o b]).
  assert (emit1 o b (cx_asm c) = MkAsm (consts_of c) (asm_data (cx_asm c) ++ encode_instr (IByte o b))) as ->.
  { unfold emit1, put_u8, consts_of. cbn. f_equal. now rewrite <- app_assoc. }
  split; [exact K1|]. split; [exact K2|]. exact I.
Qed.
Lemma t_emit_slot o n (P : assertion) : slot_byte o = true -> (forall L s, P L s -> slot_at n L s) ->
  triple P (emit_u8 o (u8_of n)) (fun _ => any).
Proof.
  intros Ho HP. apply t_emit_u8; [destruct o; discriminate || reflexivity|].
  intros L s H. apply HP in H. unfold slot_at in H. destruct (cs_stack s) as [|c r]; [exact H|].
  cbn [operand_ok]. split; [apply u8_lt|]. pose proof (u8_le n). destruct o; discriminate || lia.
Qed.
Lemma t_emit_up o n (P : assertion) : up_byte o = true -> (forall L s, P L s -> up_at n L s) ->
  triple P (emit_u8 o (u8_of n)) (fun _ => any).
Proof.
  intros Ho HP. apply t_emit_u8; [destruct o; discriminate || reflexivity|].
  intros L s H. apply HP in H. unfold up_at in H. destruct (cs_stack s) as [|c r]; [exact H|].
  cbn [operand_ok]. split; [apply u8_lt|]. pose proof (u8_le n). destruct o; discriminate || lia.
Qed.

(** * Constants *)
Lemma make_constant_ok k a i a' n : make_constant k a = Ok (i, a') ->
  Forall (const_wf n) (asm_consts a) -> const_wf n k -> List.length (asm_consts a) <= 256 ->
  asm_data a' = asm_data a /\ i < 256 /\ prefix (asm_consts a) (asm_consts a') /\
  Forall (const_wf n) (asm_consts a') /\ List.length (asm_consts a') <= 256 /\
  exists k', nth_error (asm_consts a') i = Some k' /\ (k' = k \/ (In k' (asm_consts a) /\ const_eqb k' k = true)).
Proof.
  intros E W Wk N. apply make_constant_inv in E as (D & B & [[Hp ->]|(Hp & -> & ->)]).
  - split; [exact D|]. split; [lia|]. split; [apply prefix_refl|]. repeat split; auto.
    apply position_spec in Hp as (x & Hx & Hp). exists x. split; [exact Hx|]. right.
    split; [eapply nth_error_In; eauto|exact Hp].
  - split; [exact D|]. split; [lia|]. split; [now exists [k]|]. split; [|split].
    + apply Forall_app. auto.
    + rewrite app_length. cbn. lia.
    + exists k. rewrite nth_error_app2 by lia. rewrite Nat.sub_diag. auto.
Qed.

Lemma obind_ok {A B} (o : outcome A) (f : A -> outcome B) b : obind o f = Ok b -> exists a, o = Ok a /\ f a = Ok b.
Proof. destruct o; cbn; try discriminate. eauto. Qed.
Lemma omap_ok {A B} (f : A -> B) (o : outcome A) b : omap f o = Ok b -> exists a, o = Ok a /\ f a = b.
Proof. destruct o; cbn; try discriminate. intros [= <-]. eauto. Qed.

Lemma eqb_symbol k s : const_eqb k (CSymbol s) = true -> k = CSymbol s.
Proof. destruct k; cbn; try discriminate. intros H. apply String.eqb_eq in H. congruence. Qed.

Lemma t_emit_c o k (P : assertion) : vm_operands o = ByteOperand ->
  (forall l lr c r n, P (l :: lr) (CState (c :: r) n) ->
     const_wf n k /\
     forall consts' i k', prefix (consts_of c) consts' -> i < 256 -> nth_error consts' i = Some k' ->
       k' = k \/ (In k' (consts_of c) /\ const_eqb k' k = true) ->
       operand_ok consts' (slots_of c) (ups_of c) (IByte o i)) ->
  triple P (emit_c o k) (fun _ => any).
Proof.
  intros Ho HK. apply t_asm. intros l lr c r n a asm' HP G E. apply omap_ok in E as (a1 & E & [= <- <-]).
  unfold emit_const in E. apply obind_ok in E as ([i a2] & E & [= <-]).
  apply HK in HP. destruct HP as [HW HO].
  apply make_constant_ok with (n := n) in E as (D & B & Pf & W & N & k' & Hk & Hk'); [|apply G|exact HW|apply G].
  destruct (ctx_emit n l c (IByte o i) (asm_consts a2) G Pf W N Ho (HO _ _ _ Pf B Hk Hk') I) as [K1 K2].
  exists (l ++ [IByte o i]).
  assert (emit1 o i a2 = MkAsm (asm_consts a2) (asm_data (cx_asm c) ++ encode_instr (IByte o i))) as ->.
  { unfold emit1, put_u8. cbn. rewrite D. f_equal. now rewrite <- app_assoc. }
  split; [exact K1|]. split; [exact K2|]. exact I.
Qed.

Lemma t_emit_sym o s (P : assertion) : sym_byte o = true -> triple P (emit_c o (CSymbol s)) (fun _ => any).
Proof.
  intros Ho. apply t_emit_c; [destruct o; discriminate || reflexivity|].
  intros l lr c r n _. split; [exact I|]. intros consts' i k' _ Hi Hk [->|[_ E]].
  - cbn. split; [exact Hi|]. destruct o; try discriminate; now exists s.
  - apply eqb_symbol in E as ->. cbn. split; [exact Hi|]. destruct o; try discriminate; now exists s.
Qed.

Definition plain_const (k : const) : bool := match k with CInt _ | CFloat _ | CString _ => true | _ => false end.
Lemma t_emit_push k (P : assertion) : plain_const k = true -> triple P (emit_c OpPushConst k) (fun _ => any).
Proof.
  intros Hp. apply t_emit_c; [reflexivity|].
  intros l lr c r n _. split; [destruct k; discriminate || exact I|]. intros consts' i k' _ Hi Hk K.
  cbn. split; [exact Hi|]. unfold is_pushable. rewrite Hk.
  destruct K as [->|[_ E]]; destruct k; try discriminate; try exact I; destruct k'; cbn in E; try discriminate; exact I.
Qed.

Lemma t_emit_lftl field n (P : assertion) : (forall L s, P L s -> slot_at n L s) ->
  triple P (emit_lftl field (u8_of n)) (fun _ => any).
Proof.
  intros HK. apply t_asm. intros l lr c r m a asm' HP G E. apply omap_ok in E as (a1 & E & [= <- <-]).
  unfold emit_load_field_to_local in E. apply obind_ok in E as ([i a2] & E & [= <-]).
  apply HK in HP. unfold slot_at in HP. cbn [cs_stack] in HP.
  apply make_constant_ok with (n := m) in E as (D & B & Pf & W & N & k' & Hk & Hk'); [|apply G|exact I|apply G].
  assert (Hs : is_symbol (asm_consts a2) i).
  { exists field. destruct Hk' as [->|[_ E]]; [exact Hk|]. apply eqb_symbol in E. congruence. }
  pose proof (u8_le n). pose proof (u8_lt n).
  edestruct (ctx_emit m l c (ITwo OpLoadFieldToLocal i (u8_of n)) (asm_consts a2) G Pf W N) as [K1 K2];
    [reflexivity| |exact I|].
  { cbn [operand_ok]. repeat split; auto; lia. }
  exists (l ++ [ITwo OpLoadFieldToLocal i (u8_of n)]).
  replace (put_u8 (u8_of n) _) with
    (MkAsm (asm_consts a2) (asm_data (cx_asm c) ++ encode_instr (ITwo OpLoadFieldToLocal i (u8_of n)))).
  2:{ unfold put_u8. cbn [asm_consts asm_data encode_instr]. rewrite D, <- !app_assoc. reflexivity. }
  split; [exact K1|]. split; [exact K2|]. exact I.
Qed.

(** * Functions *)
Definition pool_free (id : nat) (c : context) : Prop := forall f, In (CFunction f) (consts_of c) -> fn_id f <> id.
Definition fn_ready (id : nat) (fc : context) : assertion := fun _ s =>
  match cs_stack s with
  | c :: _ => id < cs_next_id s /\ pool_free id c /\ wf_bytecode (finish fc) /\ Forall (desc_ok c) (cx_upvalues fc)
  | [] => True
  end.

Lemma t_emit_compiled name id fc (P : assertion) : (forall L s, P L s -> fn_ready id fc L s) ->
  triple P (emit_compiled name id fc) (fun _ => any).
Proof.
  intros HP. unfold emit_compiled.
  set (k := CFunction (MkFn id name (finish fc))).
  destruct (cx_upvalues fc) as [|d ds] eqn:U.
  - apply t_emit_c; [reflexivity|]. intros l lr c r n H. apply HP in H. cbn in H.
    destruct H as (H1 & H2 & H3 & H4). split; [now split|]. intros consts' i k' _ Hi Hk K.
    cbn. split; [exact Hi|]. unfold is_pushable. rewrite Hk.
    destruct K as [->|[Hin E]]; [unfold k; cbn; now rewrite U|].
    exfalso. unfold k in E. destruct k'; cbn in E; try discriminate. apply Nat.eqb_eq in E.
    eapply H2; eauto.
  - apply t_asm. intros l lr c r m a asm' H G E. apply omap_ok in E as (a1 & E & [= <- <-]).
    apply HP in H. cbn in H. destruct H as (H1 & H2 & H3 & H4).
    unfold emit_closure in E. apply obind_ok in E as ([i a2] & E & E').
    destruct (255 <? _) eqn:HL; [discriminate|]. injection E' as <-.
    apply make_constant_ok with (n := m) in E as (D & B & Pf & W & N & k' & Hk & Hk');
      [|apply G|now split|apply G].
    cbn [asm_consts put_u8] in *.
    assert (k' = k) as ->.
    { destruct Hk' as [->|[Hin E]]; [reflexivity|]. exfalso. unfold k in E. destruct k'; cbn in E; try discriminate.
      apply Nat.eqb_eq in E. eapply H2; eauto. }
    set (pairs := map (fun d => (if fst (upvalue_description d) then 1 else 0, u8_of (snd (upvalue_description d)))) (d :: ds)).
    edestruct (ctx_emit m l c (IClosure i pairs) (asm_consts a2) G Pf W N) as [K1 K2].
    + cbn [instr_ok]. rewrite Hk. unfold k, finish, generate. cbn [fn_code bc_upvalue_count].
      unfold pairs. rewrite map_length, U. reflexivity.
    + cbn [operand_ok]. split; [exact B|]. split.
      * eexists. split; [exact Hk|]. unfold finish, generate. cbn [fn_code bc_upvalue_count].
        unfold pairs. rewrite map_length, U. reflexivity.
      * unfold pairs. apply Forall_map. rewrite U in H4. eapply Forall_impl; [|exact H4].
        intros [sl mu|ix mu] Hd; cbn [desc_ok upvalue_description fst snd] in *;
          [left; pose proof (u8_le sl); pose proof (u8_lt sl)|right; pose proof (u8_le ix); pose proof (u8_lt ix)];
          repeat split; auto; lia.
    + exact I.
    + exists (l ++ [IClosure i pairs]).
      match goal with |- context [MkAsm ?x ?y] => assert (MkAsm x y = MkAsm (asm_consts a2) (asm_data (cx_asm c) ++ encode_instr (IClosure i pairs))) as -> end.
      { assert (Hp : flat_map upvalue_bytes (d :: ds) = flat_map (fun '(a, b) => [a; b]) pairs).
        { unfold pairs. generalize (d :: ds). intros u. induction u as [|x u IH]; [reflexivity|].
          cbn [map flat_map]. rewrite IH. unfold upvalue_bytes. destruct (upvalue_description x) as [bb ii]. reflexivity. }
        cbn [flat_map] in Hp. rewrite Hp. cbn [put_u8 asm_consts asm_data]. rewrite D. cbn [put_u8 asm_data encode_instr].
        rewrite <- !app_assoc. reflexivity. }
      split; [exact K1|]. split; [exact K2|]. exact I.
Qed.

(** * Jumps *)
Lemma t_jump o (P : assertion) : vm_operands o = OffsetOperand -> triple P (jump o) jump_at.
Proof.
  intros Ho. apply t_asm. intros l lr c r n a asm' _ G E. rewrite emit_jump_spec in E. injection E as <- <-.
  edestruct (ctx_emit0 n l c (IOffset o 0) G) as [K1 K2].
  - cbn. split; [exact Ho|lia].
  - exact I.
  - intros _. exists (len (l ++ [IOffset o 0])). split; [rewrite len_app; unfold len at 3; cbn; lia|apply boundary_end].
  - exists (l ++ [IOffset o 0]). split; [exact K1|]. split; [exact K2|].
    cbn. exists l, o, 0%Z, []. rewrite (co_data _ _ _ G). auto.
Qed.

Lemma t_here (P : assertion) : triple P here bound_at.
Proof.
  apply t_asm. intros l lr c r n a asm' _ G [= <- <-]. exists l.
  assert (set_asm (cx_asm c) c = c) as -> by now destruct c.
  split; [exact G|]. split; [apply ctx_le_refl|]. cbn. unfold current_position. rewrite (co_data _ _ _ G). apply boundary_end.
Qed.

Lemma boundary_le l p : boundary l p -> p <= len l.
Proof. intros (a & b & -> & ->). rewrite len_app. unfold len. lia. Qed.

Lemma t_jump_back p (P : assertion) : (forall L s, P L s -> bound_at p L s) -> triple P (jump_back p) (fun _ => any).
Proof.
  intros HP. apply t_asm. intros l lr c r n a asm' H G [= <- <-]. apply HP in H. cbn in H.
  set (z := i16_of (- i16_of (Z.of_nat (len l) + 1 - Z.of_nat p + 2))).
  edestruct (ctx_emit0 n l c (IOffset OpJump z) G) as [K1 K2].
  - cbn. split; [reflexivity|]. apply i16_of_range.
  - exact I.
  - intros HL. pose proof (boundary_le _ _ H). exists p. split.
    + unfold z. rewrite (i16_of_small (_ + 1 - _ + 2)) by lia. rewrite i16_of_small by lia. lia.
    + eapply boundary_later; [apply later_app|exact H].
  - exists (l ++ [IOffset OpJump z]).
    assert (emit_jump_back p (cx_asm c) = MkAsm (consts_of c) (asm_data (cx_asm c) ++ encode_instr (IOffset OpJump z))) as ->.
    { unfold emit_jump_back, put_i16, put_u8, current_position, consts_of. cbn [asm_data asm_consts].
      rewrite <- app_assoc. do 2 f_equal. rewrite app_length. cbn [List.length app encode_instr].
      f_equal. rewrite (co_data _ _ _ G). fold (len l).
      replace (Z.of_nat (len l + 1) - Z.of_nat p + 2)%Z with (Z.of_nat (len l) + 1 - Z.of_nat p + 2)%Z by lia.
      fold z. unfold i16_bytes, be16. replace (z mod 256)%Z with ((z mod 65536) mod 256)%Z by lia. reflexivity. }
    split; [exact K1|]. split; [exact K2|]. exact I.
Qed.

Lemma t_patch j (P : assertion) : (forall L s, P L s -> jump_at j L s) -> triple P (patch j) (fun _ => any).
Proof.
  intros HP. apply t_asm. intros l lr c r n a asm' H G E. apply omap_ok in E as (a1 & E & [= <- <-]).
  apply HP in H. cbn in H. destruct H as (pre & o & z & post & El & Ho & ->).
  destruct G as [G1 G2 G3 G4 G5 G6 G7].
  set (z' := i16_of (Z.of_nat (len post))).
  assert (a1 = MkAsm (consts_of c) (encode (pre ++ IOffset o z' :: post))) as ->.
  { destruct (cx_asm c) as [ks data] eqn:EA. unfold consts_of in *. rewrite EA in *. cbn [asm_data asm_consts] in *.
    rewrite G1, El, encode_app in E. unfold encode at 2 in E. cbn [flat_map] in E. fold (encode post) in E.
    unfold len in E. rewrite patch_jump_general in E. injection E as <-.
    rewrite encode_app. unfold encode at 4. cbn [flat_map]. fold (encode post). reflexivity. }
  assert (HS : reshaped l (pre ++ IOffset o z' :: post)).
  { rewrite El. apply Forall2_app; [apply reshaped_refl|]. constructor; [|apply reshaped_refl].
    right. exists o, z, z'. auto. }
  assert (HLt : later l (pre ++ IOffset o z' :: post)).
  { exists (pre ++ IOffset o z' :: post), []. rewrite app_nil_r. auto. }
  exists (pre ++ IOffset o z' :: post). split; [|split; [|exact I]].
  - split; unfold consts_of, slots_of, ups_of in *; cbn [set_asm cx_asm cx_scopes cx_upvalues asm_data asm_consts].
    + reflexivity.
    + rewrite El in G2. apply Forall_app in G2 as [A B]. inversion B; subst. apply Forall_app. split; [exact A|].
      constructor; [|assumption]. cbn. split; [exact Ho|apply i16_of_range].
    + rewrite El in G3. apply Forall_app in G3 as [A B]. inversion B; subst. apply Forall_app. split; [exact A|].
      constructor; [exact I|assumption].
    + rewrite <- (reshaped_len _ _ HS). intros HL. specialize (G4 HL). unfold jumps_ok in *.
      assert (HB : forall t, (exists p, t = Z.of_nat p /\ boundary l p) -> exists p, t = Z.of_nat p /\ boundary (pre ++ IOffset o z' :: post) p).
      { intros t (p & -> & B). exists p. split; [reflexivity|]. eapply boundary_later; eauto. }
      replace (targets 0 l) with (targets 0 (pre ++ IOffset o z :: post)) in G4 by now rewrite <- El.
      rewrite targets_app in G4. apply Forall_app in G4 as [A B].
      cbn [targets] in B. inversion B as [|? ? _ C]; subst.
      rewrite targets_app. apply Forall_app. split; [eapply Forall_impl; [|exact A]; apply HB|].
      cbn [targets]. constructor; [|eapply Forall_impl; [|exact C]; apply HB].
      exists (len (pre ++ IOffset o z' :: post)). split; [|apply boundary_end].
      rewrite len_app, len_cons in HL |- *. cbn [encode_instr be16 List.length] in HL |- *.
      unfold z'. rewrite i16_of_small by lia. lia.
    + eapply Forall_impl; [|exact G5]. intros sc. apply scope_ok_mono; auto.
    + exact G6.
    + exact G7.
  - split; auto using prefix_refl.
Qed.

(** * Scopes *)
Lemma ctx_scopes n l c ss : ctx_ok n l c -> slots_of c <= ss_slot_count ss ->
  Forall (scope_ok l (ss_slot_count ss)) (ss_scopes ss) ->
  ctx_ok n l (set_scopes ss c) /\ ctx_le l c l (set_scopes ss c).
Proof.
  intros [A1 A2 A3 A4 A5 A6 A7] HS HF. split.
  - split; unfold slots_of, ups_of, consts_of in *; cbn [set_scopes cx_asm cx_scopes cx_upvalues]; auto.
    eapply Forall_impl; [|exact A3]. intros i. apply operand_ok_mono; auto using prefix_refl.
  - split; auto using later_refl, prefix_refl.
Qed.

Lemma t_scopes {A} (f : scope_stack -> outcome (A * scope_stack)) (P : assertion) (Q : A -> assertion) :
  (forall l lr c r n a ss', P (l :: lr) (CState (c :: r) n) -> ctx_ok n l c -> f (cx_scopes c) = Ok (a, ss') ->
     slots_of c <= ss_slot_count ss' /\ Forall (scope_ok l (ss_slot_count ss')) (ss_scopes ss') /\
     Q a (l :: lr) (CState (set_scopes ss' c :: r) n)) ->
  triple P (on_scopes f) Q.
Proof.
  intros H. apply t_head. intros s a s' E. apply on_scopes_ok in E as (c & r & n & ss' & -> & E & ->).
  exists c, (set_scopes ss' c), r, n. do 3 (split; [reflexivity|]). intros l lr HP G.
  destruct (H _ _ _ _ _ _ _ HP G E) as (H1 & H2 & H3). exists l.
  destruct (ctx_scopes n l c ss' G H1 H2). auto.
Qed.

Lemma set_scopes_id c : set_scopes (cx_scopes c) c = c.
Proof. now destruct c. Qed.
Lemma t_push_scope k e (P : assertion) :
  (forall L s, P L s -> match e with Some p => bound_at p L s | None => True end) ->
  triple P (m_push_scope k e) (fun _ => any).
Proof.
  intros HP. apply t_scopes. intros l lr c r n a ss' H G [= <- <-]. apply HP in H.
  cbn. split; [unfold slots_of; lia|]. split; [|exact I]. constructor; [|apply G].
  split; cbn; auto.
Qed.
Lemma t_pop_scope (P : assertion) : triple P m_pop_scope scope_at.
Proof.
  apply t_scopes. intros l lr c r n a ss' H G E. pose proof (co_scopes _ _ _ G) as F.
  unfold pop_scope in E. destruct (ss_scopes (cx_scopes c)) as [|sc rest]; [discriminate|].
  injection E as <- <-. inversion F; subst. cbn. unfold slots_of in *. cbn. auto.
Qed.
Lemma t_top_scope (P : assertion) : triple P m_top_scope scope_at.
Proof.
  apply t_scopes. intros l lr c r n a ss' H G E. pose proof (co_scopes _ _ _ G) as F.
  apply omap_ok in E as (sc & E & [= <- <-]). unfold top_scope in E.
  destruct (ss_scopes (cx_scopes c)) as [|sc0 rest] eqn:ES; [discriminate|].
  injection E as <-. inversion F; subst. unfold slots_of in *. split; [lia|]. rewrite set_scopes_id. auto.
Qed.
Lemma t_update_top f (P : assertion) :
  (forall L s sc, P L s -> scope_at sc L s -> scope_at (f sc) L s) ->
  triple P (m_update_top f) (fun _ => any).
Proof.
  intros HP. apply t_scopes. intros l lr c r n a ss' H G E. pose proof (co_scopes _ _ _ G) as F.
  apply omap_ok in E as (ss & E & [= <- <-]). unfold update_top in E.
  destruct (ss_scopes (cx_scopes c)) as [|sc rest]; [discriminate|]. injection E as <-.
  inversion F; subst. cbn. split; [unfold slots_of; lia|]. split; [|exact I].
  constructor; [|assumption]. exact (HP _ _ sc H ltac:(assumption)).
Qed.

Lemma t_add_local name st (P : assertion) : triple P (m_add_local name st) slot_at.
Proof.
  apply t_scopes. intros l lr c r n a ss' H G E. pose proof (co_scopes _ _ _ G) as F.
  unfold add_local in E. unfold slots_of in *.
  destruct (ss_scopes (cx_scopes c)) as [|sc rest]; [discriminate|]. injection E as <- <-.
  set (k := S (sc_slots sc + total_slots rest)). cbn [ss_slot_count ss_scopes].
  set (m := if ss_slot_count (cx_scopes c) <? k then k else ss_slot_count (cx_scopes c)).
  assert (ss_slot_count (cx_scopes c) <= m /\ k <= m) as [H1 H2]
    by (unfold m; destruct (Nat.ltb_spec (ss_slot_count (cx_scopes c)) k); lia).
  inversion F as [|? ? F1 F2]; subst. split; [exact H1|]. split.
  - constructor.
    + destruct F1 as [B1 B2 B3 B4]. split; cbn [sc_exits sc_call sc_vars sc_entry]; auto. constructor; [cbn [sv_slot]; unfold k in *; lia|].
      eapply Forall_impl; [|exact B3]. cbn. intros. lia.
    + eapply Forall_impl; [|exact F2]. intros x. apply scope_ok_mono; auto using later_refl.
  - unfold slot_at, slots_of. cbn [cs_stack set_scopes cx_scopes ss_slot_count]. unfold k in *. lia.
Qed.

Lemma find_var_slot P name vs v : Forall P vs -> find_var name vs = Some v -> P v.
Proof. intros F H. apply find_some in H as [H _]. rewrite Forall_forall in F. auto. Qed.
Lemma find_local_slot l n name scs v : Forall (scope_ok l n) scs -> find_local name scs = Some v -> sv_slot v < n.
Proof.
  induction 1 as [|sc scs [_ _ B _] _ IH]; cbn [find_local]; [discriminate|].
  destruct (find_var name (sc_vars sc)) as [w|] eqn:E; [|exact IH].
  intros [= <-]. now apply (find_var_slot _ _ _ _ B E).
Qed.
Lemma t_local name (P : assertion) :
  triple P (m_local name) (fun r => match r with Some v => slot_at (sv_slot v) | None => any end).
Proof.
  apply t_scopes. intros l lr c r n a ss' H G [= <- <-].
  split; [unfold slots_of; lia|]. split; [apply G|]. rewrite set_scopes_id.
  destruct (local name (cx_scopes c)) as [v|] eqn:E; [|exact I].
  unfold slot_at. cbn. eapply find_local_slot; [apply G|exact E].
Qed.

Lemma update_var_slots (P : scope_var -> Prop) name f vs : (forall v, P v -> P (f v)) -> Forall P vs -> Forall P (update_var name f vs).
Proof. intros Hf. induction 1 as [|v vs H HF IH]; cbn; [constructor|]. destruct (String.eqb _ _); constructor; auto. Qed.
Lemma update_scopes_ok l n name f scs : (forall v, sv_slot (f v) = sv_slot v) ->
  Forall (scope_ok l n) scs -> Forall (scope_ok l n) (update_scopes name f scs).
Proof.
  intros Hf. induction 1 as [|sc scs H F IH]; cbn [update_scopes]; [constructor|].
  destruct (find_var name (sc_vars sc)); constructor; auto.
  destruct H as [A B C D]. split; cbn; auto. apply update_var_slots; [|exact C]. intros v. now rewrite Hf.
Qed.
Lemma t_set_state name st (P : assertion) : triple P (m_set_state name st) (fun _ => any).
Proof.
  apply t_scopes. intros l lr c r n a ss' H G [= <- <-]. cbn.
  split; [unfold slots_of; lia|]. split; [|exact I]. apply update_scopes_ok; [reflexivity|apply G].
Qed.
Lemma t_loop_exit j (P : assertion) : (forall L s, P L s -> jump_at j L s) ->
  triple P (on_scopes (fun s => omap (fun s' => (tt, s')) (add_loop_exit_point j s))) (fun _ => any).
Proof.
  intros HP. apply t_scopes. intros l lr c r n a ss' H G E. apply HP in H. cbn in H.
  apply omap_ok in E as (ss & E & [= <- <-]). unfold add_loop_exit_point in E.
  pose proof (co_scopes _ _ _ G) as F. unfold slots_of in *.
  destruct (add_loop_exit j (ss_scopes (cx_scopes c))) as [scs|] eqn:EA; [|discriminate]. injection E as <-.
  cbn. split; [lia|]. split; [|exact I]. revert scs EA.
  induction F as [|sc rest Hs F IH]; cbn [add_loop_exit]; [discriminate|]. intros scs.
  destruct (scope_kind_eqb _ _).
  - intros [= <-]. constructor; [|exact F]. destruct Hs. split; cbn; auto. apply Forall_app. auto.
  - destruct (add_loop_exit j rest) as [x|]; [|discriminate]. intros [= <-]. constructor; auto.
Qed.
Lemma t_entry_point k (P : assertion) :
  triple P (on_scopes (fun s => omap (fun p => (p, s)) (entry_point k s))) bound_at.
Proof.
  apply t_scopes. intros l lr c r n a ss' H G E.
  apply omap_ok in E as (p & E & [= <- <-]). split; [unfold slots_of; lia|]. split; [apply G|].
  unfold entry_point in E. destruct (first_of_kind k (cx_scopes c)) as [sc|] eqn:EF; [|discriminate].
  unfold first_of_kind in EF. apply find_some in EF as [EF _].
  pose proof (co_scopes _ _ _ G) as F. rewrite Forall_forall in F. apply F in EF.
  pose proof (so_entry _ _ _ EF). destruct (sc_entry sc) as [q|]; [|discriminate]. injection E as <-. auto.
Qed.

(** * The rest of the state *)
Lemma t_get_context (P : assertion) :
  triple P get_context (fun c _ s => exists r, cs_stack s = c :: r).
Proof.
  intros L s a s' G HP H. unfold get_context in H. destruct (cs_stack s) as [|c r] eqn:E; [discriminate|].
  injection H as <- <-. exists L. split; [exact G|]. split; [now apply evo_refl|]. eauto.
Qed.
Lemma t_get_kind (P : assertion) : triple P get_kind (fun _ => any).
Proof.
  unfold get_kind. intros L s a s' G HP H. apply bind_ok in H as (c & s1 & H1 & [= <- <-]).
  destruct (t_get_context P _ _ _ _ G HP H1) as (L1 & ? & ? & ?). exists L1. unfold any. auto.
Qed.
Lemma t_get_temps (P : assertion) : triple P get_temps (fun _ => any).
Proof.
  unfold get_temps. intros L s a s' G HP H. apply bind_ok in H as (c & s1 & H1 & [= <- <-]).
  destruct (t_get_context P _ _ _ _ G HP H1) as (L1 & ? & ? & ?). exists L1. unfold any. auto.
Qed.
Lemma t_put_temps k (P : assertion) : triple P (put_temps k) (fun _ => any).
Proof.
  apply t_head. intros s a s'. unfold put_temps, bind, get_context, set_context.
  destruct s as [[|c r] n]; cbn; [discriminate|]. intros [= <- <-].
  exists c, (set_temps k c), r, n. do 3 (split; [reflexivity|]). intros l lr _ [A1 A2 A3 A4 A5 A6 A7].
  exists l. split; [|split; [|exact I]].
  - split; auto.
  - split; auto using later_refl, prefix_refl.
Qed.

Lemma Forall2_weaken {A B} (R S : A -> B -> Prop) l m : (forall a b, R a b -> S a b) -> Forall2 R l m -> Forall2 S l m.
Proof. intros H. induction 1; constructor; auto. Qed.
Lemma fresh_below (P : assertion) : triple P fresh_id
  (fun id _ s => id < cs_next_id s /\ match cs_stack s with c :: _ => pool_free id c | [] => True end).
Proof.
  intros L [st n] a s' [G K] HP [= <- <-]. cbn in *.
  assert (HM : Forall2 (ctx_ok (S n)) L st).
  { eapply Forall2_weaken; [|exact G]. intros l c [A1 A2 A3 A4 A5 A6 A7]. split; auto.
    eapply Forall_impl; [|exact A6]. intros [] ; cbn; auto. intros [? ?]; split; [lia|auto]. }
  exists L. split; [split; assumption|]. split.
  - split; cbn; [lia|]. inversion G; subst; auto using ctx_le_refl, outers_refl.
  - split; [lia|]. inversion G as [|l c L0 r0 Hc _]; subst; auto. intros f Hf E.
    pose proof (co_consts _ _ _ Hc) as W. rewrite Forall_forall in W. apply W in Hf. cbn in Hf. lia.
Qed.

(** * Captures *)
Lemma desc_mono p p' d : outer_le p p' -> desc_ok p d -> desc_ok p' d.
Proof.
  intros [_ E U]. destruct d; cbn; [rewrite E; auto|]. apply prefix_length in U. unfold ups_of. lia.
Qed.
Lemma outer_ctx n l c c' : outer_le c c' -> Forall (scope_ok l (slots_of c)) (ss_scopes (cx_scopes c')) ->
  ctx_ok n l c -> ctx_ok n l c'.
Proof.
  intros [E S U] F [A1 A2 A3 A4 A5 A6 A7]. unfold consts_of, slots_of, ups_of in *. rewrite <- E in *.
  split; unfold consts_of, slots_of, ups_of; try assumption; rewrite S; [|assumption].
  eapply Forall_impl; [|exact A3]. intros i. apply operand_ok_mono; auto using prefix_refl.
  now apply prefix_length.
Qed.

Lemma add_upvalue_in d c i c' x : add_upvalue d c = (i, c') -> In x (cx_upvalues c') -> In x (cx_upvalues c) \/ x = d.
Proof.
  unfold add_upvalue. destruct (position _ _); intros H; injection H as <- <-; auto.
  cbn [set_upvalues cx_upvalues]. intros H. apply in_app_or in H as [H|[H|[]]]; auto.
Qed.

Lemma add_upvalue_good n l cur d i cur' p p' :
  ctx_ok n l cur -> Forall (desc_ok p) (cx_upvalues cur) -> outer_le p p' -> desc_ok p' d ->
  add_upvalue d cur = (i, cur') ->
  ctx_ok n l cur' /\ Forall (desc_ok p') (cx_upvalues cur') /\ outer_le cur cur' /\ i < ups_of cur'.
Proof.
  intros G K O D EA. pose proof (fun x => add_upvalue_in d cur i cur' x EA) as HI.
  apply add_upvalue_spec in EA as (A1 & (more & A2) & A3 & A4 & A5 & A6).
  assert (O1 : outer_le cur cur') by (split; [exact A4|unfold slots_of; now rewrite A5|now exists more]).
  split; [|split; [|split]].
  - eapply outer_ctx; [exact O1| |exact G]. rewrite A5. apply G.
  - apply Forall_forall. intros x Hx. apply HI in Hx as [Hx| ->]; [|exact D].
    rewrite Forall_forall in K. eapply desc_mono; eauto.
  - exact O1.
  - apply nth_error_Some. congruence.
Qed.

Lemma resolve_good name n : forall st L i st', Forall2 (ctx_ok n) L st -> linked st ->
  resolve_upvalue name st = Some (i, st') ->
  Forall2 (ctx_ok n) L st' /\ linked st' /\ Forall2 outer_le st st' /\
  match st' with c :: _ => i < ups_of c | [] => False end.
Proof.
  induction st as [|cur outer IH]; intros L i st' G K H; cbn [resolve_upvalue] in H; [discriminate|].
  destruct outer as [|parent rest]; [discriminate|].
  inversion G as [|l c L1 r1 Gc G1]; subst.
  destruct (local name (cx_scopes parent)) as [v|] eqn:EL.
  - destruct (add_upvalue _ cur) as [ix cur'] eqn:EA. injection H as <- <-.
    inversion G1 as [|l2 c2 L2 r2 Gp G2]; subst.
    set (parent' := set_scopes (update_local name set_captured (cx_scopes parent)) parent).
    assert (O2 : outer_le parent parent') by (split; [reflexivity|reflexivity|apply prefix_refl]).
    assert (Hv : sv_slot v < slots_of parent) by (eapply find_local_slot; [apply Gp|exact EL]).
    cbn [linked] in K. destruct K as (K1 & K2 & K3).
    destruct (add_upvalue_good _ _ _ (ParentLocal (sv_slot v) (sv_is_mutable v)) _ _ _ _ Gc K1 O2 Hv EA) as (B1 & B2 & B3 & B4).
    split; [|split; [|split; [|exact B4]]].
    + constructor; [exact B1|]. constructor; [|exact G2].
      eapply outer_ctx; [exact O2| |exact Gp]. cbn. apply update_scopes_ok; [reflexivity|apply Gp].
    + cbn [linked]. auto.
    + constructor; [exact B3|]. constructor; [exact O2|apply outers_refl].
  - destruct (resolve_upvalue name (parent :: rest)) as [[oi outer']|] eqn:ER; [|discriminate].
    destruct (add_upvalue _ cur) as [ix cur'] eqn:EA. injection H as <- <-.
    cbn [linked] in K. destruct K as (K1 & K2).
    destruct (IH _ _ _ G1 K2 eq_refl) as (I1 & I2 & I3 & I4).
    inversion I3 as [|? parent' ? rest' O2 O3]; subst.
    match type of EA with add_upvalue ?d _ = _ =>
      destruct (add_upvalue_good _ _ _ d _ _ _ _ Gc K1 O2 I4 EA) as (B1 & B2 & B3 & B4) end.
    split; [now constructor|]. split; [cbn [linked] in *; auto|]. split; [now constructor|exact B4].
Qed.

Lemma t_resolve name (P : assertion) :
  triple P (m_resolve_upvalue name) (fun r => match r with Some i => up_at i | None => any end).
Proof.
  intros L [st n] a s' [G K] HP H. unfold m_resolve_upvalue in H. cbn [cs_stack cs_next_id] in *.
  destruct (resolve_upvalue name st) as [[i st']|] eqn:E; injection H as <- <-.
  - destruct (resolve_good _ _ _ _ _ _ G K E) as (A & B & C & D). exists L. split; [now split|]. split.
    + split; cbn; [lia|]. destruct G as [|l c L0 r0 G0 G1]; [inversion A; exact I|].
      inversion C; subst. auto using outer_ctx_le.
    + unfold up_at. cbn. destruct st'; auto.
  - exists L. split; [now split|]. split; [|exact I]. split; cbn; [lia|].
    destruct G; auto using ctx_le_refl, outers_refl.
Qed.
