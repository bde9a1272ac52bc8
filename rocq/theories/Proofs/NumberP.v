(** No two functions of one compilation share a number, and a script captures nothing. *)
From Coq Require Import Lia.
From Verif.Model Require Import Compiler.
From Verif.Proofs Require Import AssemblerP ExprInd WellFormedP WellFormedPrimP.

(** A function among some constants, or among the constants of such a function, at any depth. *)
Inductive within (f : fn_bytecode) : list const -> Prop :=
| within_here cs : In (CFunction f) cs -> within f cs
| within_deep cs g : In (CFunction g) cs -> within f (bc_constants (fn_code g)) -> within f cs.

Definition ids (lo hi : nat) (l : list const) : Prop :=
  (forall f, within f l -> lo <= fn_id f < hi) /\
  (forall f g, within f l -> within g l -> fn_id f = fn_id g -> f = g).

Definition pools (s : cstate) : list (list const) := map (fun c => asm_consts (cx_asm c)) (cs_stack s).
Definition bottom (s : cstate) : list upvalue_desc := cx_upvalues (last (cs_stack s) (context_new KScript)).
Definition step (s s' : cstate) : Prop :=
  forall lo, lo <= cs_next_id s -> ids lo (cs_next_id s) (hd [] (pools s)) -> ids lo (cs_next_id s') (hd [] (pools s')).
Record later (s s' : cstate) : Prop := {
  l_next : cs_next_id s <= cs_next_id s';
  l_bottom : bottom s' = bottom s;
  l_tail : tl (pools s') = tl (pools s);
  l_length : List.length (pools s') = List.length (pools s);
  l_step : step s s' }.
Definition Num {A} (m : M A) : Prop := forall s a s', m s = Ok (a, s') -> later s s'.

Lemma ids_weaken lo hi hi' l : hi <= hi' -> ids lo hi l -> ids lo hi' l.
Proof. intros H [A B]. split; [|exact B]. intros f F. specialize (A f F). lia. Qed.
Lemma within_inv f cs : within f cs -> In (CFunction f) cs \/ exists g, In (CFunction g) cs /\ within f (bc_constants (fn_code g)).
Proof. destruct 1; eauto. Qed.
Lemma within_in f cs cs' : (forall c, In c cs -> In c cs') -> within f cs -> within f cs'.
Proof. intros K H. apply within_inv in H as [H|(g & H & W)]; [apply within_here|eapply within_deep]; eauto. Qed.
Lemma within_app f l r : within f (l ++ r) <-> within f l \/ within f r.
Proof.
  split.
  - intros H. apply within_inv in H as [H|(g & H & W)]; apply in_app_or in H as [H|H];
      [left; now apply within_here|right; now apply within_here|left; eapply within_deep; eauto|right; eapply within_deep; eauto].
  - intros [H|H]; (eapply within_in; [|exact H]); intros c Hc; apply in_or_app; auto.
Qed.
Lemma within_nil f : ~ within f [].
Proof. intros H. apply within_inv in H as [[]|(g & [] & _)]. Qed.
Definition not_fn (c : const) : Prop := forall f, c <> CFunction f.
Lemma within_not_fn f c : not_fn c -> ~ within f [c].
Proof. intros N H. apply within_inv in H as [[E|[]]|(g & [E|[]] & _)]; now apply N in E. Qed.
Lemma within_one f g : within f [CFunction g] -> f = g \/ within f (bc_constants (fn_code g)).
Proof. intros H. apply within_inv in H as [[E|[]]|(h & [E|[]] & W)]; injection E as ->; auto. Qed.
Lemma ids_sub lo hi l l' : (forall f, within f l' -> within f l) -> ids lo hi l -> ids lo hi l'.
Proof. intros S [A B]. split; auto. Qed.

Lemma later_refl s : later s s.
Proof. split; auto. intros lo _ H; exact H. Qed.
Lemma later_trans a b c : later a b -> later b c -> later a c.
Proof.
  intros [N1 B1 T1 L1 S1] [N2 B2 T2 L2 S2]. split; [lia|congruence|congruence|congruence|].
  intros lo H I. apply S2; [lia|]. now apply S1.
Qed.

Lemma n_ret {A} (a : A) : Num (ret a).
Proof. intros s x s' [= <- <-]. apply later_refl. Qed.
Lemma n_fail {A} e : Num (@fail A e). Proof. intros s x s' [=]. Qed.
Lemma n_panic {A} : Num (@panic A). Proof. intros s x s' [=]. Qed.
Lemma n_bind {A B} (m : M A) (f : A -> M B) : Num m -> (forall a, Num (f a)) -> Num (bind m f).
Proof. intros Hm Hf s b s' H. apply bind_ok in H as (a & s1 & H1 & H2). eapply later_trans; [eapply Hm|eapply Hf]; eauto. Qed.
Lemma n_each {A} (f : A -> M unit) l : (forall x, In x l -> Num (f x)) -> Num (each f l).
Proof.
  induction l as [|x l IH]; intros H; cbn [each]; [apply n_ret|]. apply n_bind; [apply H; now left|]. intros _.
  apply IH. intros; apply H; now right.
Qed.
Lemma n_times n m : Num m -> Num (times n m).
Proof. intros H. induction n as [|n IH]; cbn [times]; [apply n_ret|]. now apply n_bind. Qed.

Lemma later_top c c' r n n' :
  n <= n' -> cx_upvalues c' = cx_upvalues c ->
  (forall lo, lo <= n -> ids lo n (asm_consts (cx_asm c)) -> ids lo n' (asm_consts (cx_asm c'))) ->
  later (CState (c :: r) n) (CState (c' :: r) n').
Proof.
  intros N U S. split; cbn; auto. unfold bottom. cbn [cs_stack]. destruct r; cbn; auto.
Qed.

Definition quiet (a a' : assembler) : Prop :=
  asm_consts a' = asm_consts a \/ exists c, not_fn c /\ asm_consts a' = asm_consts a ++ [c].
Lemma n_on_asm {A} (f : assembler -> outcome (A * assembler)) :
  (forall a x a', f a = Ok (x, a') -> quiet a a') -> Num (on_asm f).
Proof.
  intros Q s x s' H. apply on_asm_ok in H as (c & r & n & a' & -> & H & ->). apply Q in H.
  apply later_top; [lia|reflexivity|]. cbn [cx_asm set_asm]. intros lo _ I.
  destruct H as [->|(k & N & ->)]; [exact I|].
  eapply ids_sub; [|exact I]. intros g W. apply within_app in W as [W|W]; [exact W|]. now apply within_not_fn in W.
Qed.
Lemma n_on_scopes {A} (f : scope_stack -> outcome (A * scope_stack)) : Num (on_scopes f).
Proof.
  intros s x s' H. apply on_scopes_ok in H as (c & r & n & a' & -> & H & ->).
  apply later_top; [lia|reflexivity|]. auto.
Qed.

Lemma make_quiet c a i a' : not_fn c -> make_constant c a = Ok (i, a') -> quiet a a'.
Proof. intros N H. apply make_constant_inv in H as (_ & _ & [[_ E]|(_ & _ & E)]); [now left|right; eauto]. Qed.

Ltac inv_ok := repeat match goal with
  | H : Ok _ = Ok _ |- _ => injection H as H; subst
  | H : omap _ _ = Ok _ |- _ => apply omap_ok in H as (? & H & ?); subst
  | H : obind _ _ = Ok _ |- _ => apply obind_ok in H as ([? ?] & ? & H)
  | H : _ = (_, _) |- _ => injection H as ? ?; subst
  | H : (_, _) = (_, _) |- _ => injection H as ? ?; subst
  end.
Lemma n_emit o : Num (emit o).
Proof. apply n_on_asm. intros a x a' [= _ <-]. now left. Qed.
Lemma n_emit_u8 o b : Num (emit_u8 o b).
Proof. apply n_on_asm. intros a x a' [= _ <-]. now left. Qed.
Lemma n_emit_c o c : not_fn c -> Num (emit_c o c).
Proof.
  intros N. apply n_on_asm. intros a x a' H. apply omap_ok in H as (b & H & [= _ <-]).
  unfold emit_const in H. apply obind_ok in H as ([i b'] & H & [= <-]). apply make_quiet in H; [|exact N]. exact H.
Qed.
Lemma n_emit_lftl f b : Num (emit_lftl f b).
Proof.
  apply n_on_asm. intros a x a' H. apply omap_ok in H as (a1 & H & [= _ <-]).
  unfold emit_load_field_to_local in H. apply obind_ok in H as ([i b'] & H & [= <-]).
  apply make_quiet in H; [exact H|]. intros g; discriminate.
Qed.
Lemma n_jump o : Num (jump o).
Proof. apply n_on_asm. intros a x a' [= _ <-]. now left. Qed.
Lemma n_patch p : Num (patch p).
Proof.
  apply n_on_asm. intros a x a' H. apply omap_ok in H as (a1 & H & [= _ <-]). unfold patch_jump in H.
  destruct (_ <? _); [discriminate|]. destruct (i16_bytes _) as [|h [|l [|]]]; try discriminate. injection H as <-. now left.
Qed.
Lemma n_jump_back p : Num (jump_back p).
Proof. apply n_on_asm. intros a x a' [= _ <-]. now left. Qed.
Lemma n_here : Num here.
Proof. apply n_on_asm. intros a x a' [= _ <-]. now left. Qed.
Lemma n_get_context : Num get_context.
Proof. intros [[|c r] n] a s' H; cbn in H; [discriminate|]. injection H as <- <-. apply later_refl. Qed.
Lemma n_get_kind : Num get_kind.
Proof. apply n_bind; [apply n_get_context|]. intros; apply n_ret. Qed.
Lemma n_get_temps : Num get_temps.
Proof. apply n_bind; [apply n_get_context|]. intros; apply n_ret. Qed.
Lemma n_put_temps k : Num (put_temps k).
Proof.
  intros [[|c r] n] a s' H; cbn in H; [discriminate|]. injection H as <- <-. apply later_top; auto.
Qed.
Lemma n_fresh : Num fresh_id.
Proof.
  intros [st n] a s' [= <- <-]. split; cbn; auto. intros lo H I. eapply ids_weaken; [|exact I]. cbn. lia.
Qed.

Lemma resolve_bottom name : forall st i st', resolve_upvalue name st = Some (i, st') ->
  map (fun c => asm_consts (cx_asm c)) st' = map (fun c => asm_consts (cx_asm c)) st /\
  cx_upvalues (last st' (context_new KScript)) = cx_upvalues (last st (context_new KScript)).
Proof.
  induction st as [|cur outer IH]; cbn [resolve_upvalue]; [discriminate|]. intros i st'.
  assert (AU : forall d c, cx_asm (snd (add_upvalue d c)) = cx_asm c).
  { intros d c. unfold add_upvalue. destruct (position _ _); reflexivity. }
  destruct outer as [|parent rest]; [discriminate|].
  destruct (local name (cx_scopes parent)) as [v|].
  - match goal with |- context[add_upvalue ?d cur] => specialize (AU d cur); destruct (add_upvalue d cur) as [k cur'] end.
    intros [= <- <-]. cbn [snd] in AU. cbn [map cx_asm set_scopes]. split; [now rewrite AU|].
    cbn [last]. destruct rest; reflexivity.
  - destruct (resolve_upvalue name (parent :: rest)) as [[oi out']|]; [|discriminate].
    destruct (IH _ _ eq_refl) as [E B].
    match goal with |- context[add_upvalue ?d cur] => specialize (AU d cur); destruct (add_upvalue d cur) as [k cur'] end.
    intros [= <- <-]. cbn [snd] in AU. split; [cbn [map] in *; rewrite AU, <- E; reflexivity|].
    destruct out' as [|p r]; [discriminate E|]. exact B.
Qed.
Lemma n_resolve name : Num (m_resolve_upvalue name).
Proof.
  intros [st n] a s' H. unfold m_resolve_upvalue in H. cbn [cs_stack cs_next_id] in H.
  destruct (resolve_upvalue name st) as [[i st']|] eqn:E; injection H as <- <-; [|apply later_refl].
  apply resolve_bottom in E as [E B].
  assert (P : pools (CState st' n) = pools (CState st n)) by exact E.
  split; try (rewrite P); auto. intros lo H I. rewrite P. exact I.
Qed.

Create HintDb num.
#[local] Hint Resolve n_ret n_fail n_panic n_emit n_emit_u8 n_emit_lftl n_jump n_patch n_jump_back n_here n_get_context
  n_get_kind n_get_temps n_put_temps n_resolve n_on_scopes n_fresh : num.
#[local] Hint Extern 3 (Num (emit_c _ _)) => (apply n_emit_c; let f := fresh in intros f; discriminate) : num.
Ltac nm := cbv beta iota; first
  [ solve [auto with num]
  | match goal with |- Num (bind _ _) => apply n_bind; [|intros ?] end
  | match goal with |- Num (each _ _) => apply n_each; intros ? ? end
  | match goal with |- Num (times _ _) => apply n_times end
  | match goal with |- Num (match ?x with _ => _ end) => destruct x end ].
Ltac nms := repeat nm.

Lemma n_ident x : Num (visit_ident x). Proof. unfold visit_ident, m_local. nms. Qed.
#[local] Hint Resolve n_ident : num.
Lemma n_int x : Num (visit_int x). Proof. unfold visit_int. nms. Qed.
Lemma n_float x : Num (visit_float x). Proof. unfold visit_float. nms. Qed.
Lemma n_local_type t s : Num (visit_local_type t s). Proof. unfold visit_local_type. nms. Qed.
#[local] Hint Resolve n_int n_float n_local_type : num.
Lemma n_args b l : Num (visit_args b l). Proof. unfold visit_args, m_add_local. nms. Qed.
Lemma n_close l : Num (close_vars l). Proof. unfold close_vars. nms. Qed.
#[local] Hint Resolve n_args n_close : num.
Lemma n_close_up : Num visit_close_upvalues. Proof. unfold visit_close_upvalues, m_top_scope. nms. Qed.
Lemma n_return : Num visit_return. Proof. unfold visit_return. nms. Qed.
Lemma n_enter : Num enter_call. Proof. unfold enter_call, m_update_top. nms. Qed.
Lemma n_exit : Num exit_call. Proof. unfold exit_call, m_update_top, m_top_scope. nms. Qed.
#[local] Hint Resolve n_close_up n_return n_enter n_exit : num.
Lemma n_scan e : Num (scan_expr e).
Proof. induction e using expr_size_ind. destruct e; cbn [scan_expr]; unfold m_add_local; nms; apply H; esz. Qed.
#[local] Hint Resolve n_scan : num.
Lemma n_decls es t : Num (scan_item_decls es t). Proof. unfold scan_item_decls. nms. Qed.
Lemma n_params l : Num (assert_unique_params l). Proof. unfold assert_unique_params. nms. Qed.
Lemma n_operator o : Num (visit_operator o). Proof. unfold visit_operator. nms. Qed.
Lemma n_locals l : Num (add_locals l).
Proof. induction l as [|x l IH]; cbn [add_locals]; unfold m_add_local; nms. Qed.
Lemma n_fields l : Num (emit_fields_to_locals l). Proof. unfold emit_fields_to_locals. nms. Qed.
Lemma n_drop n : Num (drop_temps n). Proof. unfold drop_temps. nms. Qed.
#[local] Hint Resolve n_decls n_params n_operator n_locals n_fields n_drop : num.
Lemma n_import m l p : Num (visit_import m l p).
Proof. unfold visit_import, m_add_local. nms. Qed.
#[local] Hint Resolve n_import : num.

Ltac nu := unfold m_add_local, m_local, m_top_scope, m_update_top, m_push_scope, m_pop_scope, m_set_state.

(** ** Functions *)
Record compiled (s : cstate) (c : context) (s' : cstate) : Prop := {
  c_next : cs_next_id s <= cs_next_id s';
  c_pools : pools s' = pools s;
  c_bottom : bottom s' = bottom s;
  c_ids : ids (cs_next_id s) (cs_next_id s') (asm_consts (cx_asm c)) }.

Lemma ids_nil lo hi : ids lo hi [].
Proof. split; [intros f W|intros f g W]; now apply within_nil in W. Qed.
Lemma compiled_later s c s' : compiled s c s' -> later s s'.
Proof.
  intros [N P B I]. split; auto; try (rewrite P; reflexivity). intros lo H J. rewrite P. eapply ids_weaken; eauto.
Qed.
Lemma compile_num k (body : M unit) s c s' : Num body ->
  (push_context k ;;; body ;;; pop_context) s = Ok (c, s') -> compiled s c s'.
Proof.
  intros Nb H. apply bind_ok in H as (u & s1 & H1 & H). injection H1 as <- <-.
  apply bind_ok in H as (u & s2 & H1 & H). apply Nb in H1 as [N B T L S].
  destruct s2 as [[|c2 r2] n2]; [discriminate H|]. injection H as <- <-.
  cbn [pools cs_stack map tl cs_next_id] in *. unfold pools in *. cbn [cs_stack map tl] in *.
  split; cbn [cs_next_id]; auto.
  - unfold bottom in *. cbn [cs_stack] in *. destruct s as [st n]. cbn [cs_stack] in *.
    destruct st as [|p st]; destruct r2 as [|p2 r2]; try discriminate T; [reflexivity|]. exact B.
  - unfold step in S. cbn [cs_next_id pools cs_stack map hd] in S. apply S; [lia|]. apply ids_nil.
Qed.

(** ** The constants after a function has been emitted *)
Lemma emit_compiled_num name id c s u s' : emit_compiled name id c s = Ok (u, s') ->
  cs_next_id s' = cs_next_id s /\ bottom s' = bottom s /\ tl (pools s') = tl (pools s) /\
  List.length (pools s') = List.length (pools s) /\
  (hd [] (pools s') = hd [] (pools s) \/
   hd [] (pools s') = hd [] (pools s) ++ [CFunction (MkFn id name (finish c))]).
Proof.
  unfold emit_compiled. set (k := CFunction _). intros H.
  assert (E : exists x r n a', s = CState (x :: r) n /\ s' = CState (set_asm a' x :: r) n /\
    (asm_consts a' = asm_consts (cx_asm x) \/ asm_consts a' = asm_consts (cx_asm x) ++ [k])).
  { destruct (cx_upvalues c) as [|d ds].
    - apply on_asm_ok in H as (x & r & n & a' & -> & H & ->). exists x, r, n, a'. split; [reflexivity|]. split; [reflexivity|].
      apply omap_ok in H as (b & H & [= _ <-]).
      unfold emit_const in H. apply obind_ok in H as ([i b'] & H & [= <-]).
      apply make_constant_inv in H as (_ & _ & [[_ E]|(_ & _ & E)]); [now left|now right].
    - apply on_asm_ok in H as (x & r & n & a' & -> & H & ->). exists x, r, n, a'. split; [reflexivity|]. split; [reflexivity|].
      apply omap_ok in H as (b & H & [= _ <-]).
      unfold emit_closure in H. apply obind_ok in H as ([i b'] & H & E2). cbv beta iota zeta in E2.
      destruct (_ <? _); [discriminate E2|]. injection E2 as <-.
      apply make_constant_inv in H as (_ & _ & [[_ E]|(_ & _ & E)]); [now left|now right]. }
  destruct E as (x & r & n & a' & -> & -> & E). cbn. repeat split; auto.
  unfold bottom. cbn [cs_stack]. destruct r; reflexivity.
Qed.

Lemma ids_fn lo a b1 b2 hi id name c l :
  ids lo a l -> ids b1 b2 (asm_consts (cx_asm c)) -> lo <= b1 -> a <= b1 -> a <= id < hi -> b2 <= hi ->
  (id < b1 \/ b2 <= id) -> lo <= a -> a <= hi ->
  ids lo hi (l ++ [CFunction (MkFn id name (finish c))]).
Proof.
  intros [A1 A2] [B1 B2] L1 L2 L3 L4 L5 L6 L7.
  assert (K : forall f, within f (l ++ [CFunction (MkFn id name (finish c))]) ->
     within f l \/ f = MkFn id name (finish c) \/ within f (asm_consts (cx_asm c))).
  { intros f W. apply within_app in W as [W|W]; [now left|right]. apply within_one in W. exact W. }
  split.
  - intros f W. apply K in W as [W|[->|W]]; [apply A1 in W; lia|cbn; lia|apply B1 in W; lia].
  - intros f g Wf Wg E. apply K in Wf, Wg.
    destruct Wf as [Wf|[->|Wf]]; destruct Wg as [Wg|[->|Wg]]; auto; cbn [fn_id] in E;
      try (pose proof (A1 _ Wf)); try (pose proof (A1 _ Wg)); try (pose proof (B1 _ Wf)); try (pose proof (B1 _ Wg)); lia.
Qed.

Lemma emitted_later name id c s0 s1 s2 s3 s u s' :
  later s0 s -> True ->
  hd [] (pools s) = hd [] (pools s0) ->
  cs_next_id s0 <= cs_next_id s1 -> cs_next_id s1 <= cs_next_id s2 -> cs_next_id s2 <= cs_next_id s3 ->
  cs_next_id s3 <= cs_next_id s ->
  ids (cs_next_id s1) (cs_next_id s2) (asm_consts (cx_asm c)) ->
  (cs_next_id s0 <= id < cs_next_id s1 \/ cs_next_id s2 <= id < cs_next_id s) ->
  emit_compiled name id c s = Ok (u, s') -> later s0 s'.
Proof.
  intros [N B T L S] _ P N1 N2 N3 N4 I Hid H.
  apply emit_compiled_num in H as (EN & EB & ET & EL & EP).
  split; [lia|congruence|congruence|congruence|]. intros lo Hlo J. rewrite EN.
  destruct EP as [->| ->]; rewrite P; [eapply ids_weaken; [|exact J]; lia|].
  eapply (ids_fn lo (cs_next_id s0) (cs_next_id s1) (cs_next_id s2)); eauto; lia.
Qed.

Section Visitors.
Variable visit : expr -> M unit.
Definition body_n (b : expr) : Prop :=
  Num (visit b) /\ forall es t, b = EBlock es t -> (forall x, In x es -> Num (visit x)) /\ (forall x, t = Some x -> Num (visit x)).

Lemma n_block_body es t : (forall x, In x es -> Num (visit x)) -> (forall x, t = Some x -> Num (visit x)) -> Num (visit_block_body visit es t).
Proof. intros H1 H2. unfold visit_block_body. nms. Qed.
#[local] Hint Resolve n_block_body : num.
Lemma n_block b es t : (forall x, In x es -> Num (visit x)) -> (forall x, t = Some x -> Num (visit x)) -> Num (visit_block visit b es t).
Proof. intros H1 H2. unfold visit_block. nu. nms. Qed.
Lemma n_fn_block k args es t body : Num body -> Num (visit_fn_block k args es t body).
Proof. intros H. unfold visit_fn_block, assert_super_call. nu. nms. Qed.
#[local] Hint Resolve n_fn_block : num.

Lemma n_compile_fn args rt kind body s c s' : body_n body -> compile_fn visit args rt kind body s = Ok (c, s') -> compiled s c s'.
Proof.
  intros [B1 B2] H. unfold compile_fn in H.
  apply bind_ok in H as (u & s1 & H1 & H).
  assert (s1 = s) as ->. { destruct kind; try (injection H1 as _ <-; reflexivity). destruct rt; [discriminate|injection H1 as _ <-; reflexivity]. }
  eapply compile_num; [|exact H]. destruct body; auto with num. destruct (B2 _ _ eq_refl). auto with num.
Qed.

Lemma n_method name args rt body kind : body_n body -> Num (visit_method visit name args rt body kind).
Proof.
  intros B s u s' H. unfold visit_method in H.
  apply bind_ok in H as (u1 & s1 & H1 & H). apply n_params in H1.
  apply bind_ok in H as (c & s2 & H2 & H). apply n_compile_fn in H2; [|exact B].
  apply bind_ok in H as (id & s3 & H3 & H). pose proof (n_fresh _ _ _ H3) as L3. unfold fresh_id in H3. injection H3 as <- <-.
  eapply later_trans; [exact H1|]. destruct H2 as [C1 C2 C3 C4] eqn:E2. clear E2.
  eapply (emitted_later name (cs_next_id s2) c s1 s1 s2 s2); [eapply later_trans; [eapply compiled_later; exact H2|exact L3]|exact Logic.I|..|exact H]; cbn; auto; try lia.
  unfold pools in *. cbn. now rewrite C2.
Qed.
Lemma n_fn_decl name args rt body : body_n body -> Num (visit_fn_decl visit name args rt body).
Proof.
  intros B s u s' H. unfold visit_fn_decl in H.
  apply bind_ok in H as (u1 & s1 & H1 & H). apply n_params in H1.
  apply bind_ok in H as (c & s2 & H2 & H). apply n_compile_fn in H2; [|exact B].
  apply bind_ok in H as (id & s3 & H3 & H). pose proof (n_fresh _ _ _ H3) as L3. unfold fresh_id in H3. injection H3 as <- <-.
  eapply later_trans; [exact H1|]. pose proof H2 as [C1 C2 C3 C4].
  set (s3 := CState _ _) in *. assert (P3 : pools s3 = pools s1) by exact C2.
  apply bind_ok in H as (l & s4 & H4 & H). unfold m_local in H4. apply on_scopes_ok in H4 as (x & r & n & ss & E3 & H4 & E4). injection H4 as E5 E6.
  assert (L4 : later s3 s4) by (rewrite E3, E4; apply later_top; auto).
  assert (P4 : pools s4 = pools s3) by (rewrite E3, E4; reflexivity).
  assert (N4 : cs_next_id s4 = cs_next_id s3) by (rewrite E3, E4; reflexivity).
  destruct l as [v|]; [|discriminate]. destruct (sv_state v) as [| [|] |]; try discriminate.
  apply bind_ok in H as (u5 & s5 & H5 & H). unfold m_set_state in H5. apply on_scopes_ok in H5 as (x5 & r5 & n5 & ss5 & E5' & H5 & E6'). 
  assert (L5 : later s4 s5) by (rewrite E5', E6'; apply later_top; auto).
  assert (P5 : pools s5 = pools s4) by (rewrite E5', E6'; reflexivity).
  assert (N5 : cs_next_id s5 = cs_next_id s4) by (rewrite E5', E6'; reflexivity).
  apply bind_ok in H as (u6 & s6 & H6 & H). apply n_emit_u8 in H. eapply later_trans; [|exact H].
  assert (N3 : cs_next_id s3 = S (cs_next_id s2)) by reflexivity. clearbody s3.
  eapply (emitted_later name (cs_next_id s2) c s1 s1 s2 s2); [|exact Logic.I|..|exact H6]; auto; try lia.
  - eapply later_trans; [eapply compiled_later; exact H2|]. eapply later_trans; [exact L3|]. eapply later_trans; eassumption.
  - now rewrite P5, P4, P3.
Qed.
Lemma n_op_decl op args rt body m : body_n body -> Num (visit_op_decl visit op args rt body m).
Proof.
  intros B s u s' H. unfold visit_op_decl in H.
  apply bind_ok in H as (u1 & s1 & H1 & H). apply n_params in H1.
  apply bind_ok in H as (c & s2 & H2 & H). apply n_compile_fn in H2; [|exact B].
  apply bind_ok in H as (id & s3 & H3 & H). pose proof (n_fresh _ _ _ H3) as L3. unfold fresh_id in H3. injection H3 as <- <-.
  eapply later_trans; [exact H1|]. pose proof H2 as [C1 C2 C3 C4].
  apply bind_ok in H as (u6 & s6 & H6 & H).
  assert (N : Num (if m then ret tt else emit_c OpStoreGlobal (CSymbol (op_name op)) ;;; emit OpPushUnit)) by nms.
  apply N in H. eapply later_trans; [|exact H].
  eapply (emitted_later _ (cs_next_id s2) c s1 s1 s2 s2); [eapply later_trans; [eapply compiled_later; exact H2|exact L3]|exact Logic.I|..|exact H6]; cbn; auto; try lia.
  unfold pools in *. cbn. now rewrite C2.
Qed.
Lemma n_anonymous args rt body : body_n body -> Num (visit_anonymous_fn visit args rt body).
Proof.
  intros B s u s' H. unfold visit_anonymous_fn in H.
  apply bind_ok in H as (id & s1 & H1 & H). pose proof (n_fresh _ _ _ H1) as L1. unfold fresh_id in H1. injection H1 as <- <-.
  apply bind_ok in H as (c & s2 & H2 & H). apply n_compile_fn in H2; [|exact B]. pose proof H2 as [C1 C2 C3 C4].
  set (s1 := CState _ _) in *. assert (N1 : cs_next_id s1 = S (cs_next_id s)) by reflexivity.
  assert (P1 : pools s1 = pools s) by reflexivity. clearbody s1.
  eapply (emitted_later _ (cs_next_id s) c s s1 s2 s2); [eapply later_trans; [exact L1|eapply compiled_later; exact H2]|exact Logic.I|..|exact H]; auto; try lia.
  now rewrite C2, P1.
Qed.
#[local] Hint Resolve n_method n_op_decl : num.

Definition item_n (x : expr) : Prop :=
  match x with EFnDecl _ _ _ b | EOpDecl _ _ _ b => body_n b | _ => True end.
Lemma n_class_item slot k x : item_n x -> Num (visit_class_item visit slot k x).
Proof.
  intros H. unfold visit_class_item, visit_class_fn, visit_class_op. destruct x; cbn [item_n] in H; nms.
Qed.
Lemma n_class name items base : (forall x, base = Some x -> Num (visit x)) -> (forall x, In x items -> item_n x) ->
  Num (visit_class visit name items base).
Proof.
  intros H1 H2. assert (H3 : forall slot k x, In x items -> Num (visit_class_item visit slot k x)) by (intros; apply n_class_item; auto).
  unfold visit_class. nu. nms.
Qed.
Lemma n_export e : Num (visit e) -> Num (visit_export visit e).
Proof. intros H. unfold visit_export. nu. nms. Qed.
Lemma n_var_decl k m e t : Num (visit e) -> Num (visit_var_decl visit k m e t).
Proof. intros H. unfold visit_var_decl. nu. nms. Qed.
Lemma n_list l : (forall x, In x l -> Num (visit x)) -> Num (visit_list visit l).
Proof. intros H. unfold visit_list. nms. Qed.
Lemma n_object l : (forall k x, In (k, x) l -> Num (visit x)) -> Num (visit_object visit l).
Proof. intros H. unfold visit_object. nms; eauto. Qed.
Lemma n_assign_slot l a i b op r : Num (visit r) -> Num (assign_slot visit l a i b op r).
Proof. intros H. unfold assign_slot. nms. Qed.
#[local] Hint Resolve n_assign_slot : num.
Lemma n_assignment op l r : Num (visit r) ->
  match l with EFieldAccess o _ => Num (visit o) | EIndex o i => Num (visit o) /\ Num (visit i) | _ => True end ->
  Num (visit_assignment visit op l r).
Proof.
  intros H1 H2. unfold visit_assignment. destruct l; try apply n_fail.
  - unfold assign_ident. nu. nms.
  - unfold assign_field. nms.
  - destruct H2. unfold assign_index. nms.
Qed.
Lemma n_binary op l r : Num (visit l) -> Num (visit r) -> Num (visit_binary visit op l r).
Proof. intros H1 H2. unfold visit_binary, visit_logical. nms. Qed.
Lemma n_isolated e : Num (visit e) -> Num (visit_isolated visit e).
Proof. intros H. unfold visit_isolated. nu. nms. Qed.
#[local] Hint Resolve n_isolated : num.
Lemma n_call_args l : (forall x, In x l -> Num (visit x)) -> Num (visit_call_args visit l).
Proof. intros H. unfold visit_call_args. nms. Qed.
#[local] Hint Resolve n_call_args : num.
Lemma n_fn_call e l : Num (visit e) -> (forall x, In x l -> Num (visit x)) -> Num (visit_fn_call visit e l).
Proof. intros H1 H2. unfold visit_fn_call. nms. Qed.
Lemma n_super_call l : (forall x, In x l -> Num (visit x)) -> Num (visit_super_call visit l).
Proof. intros H2. unfold visit_super_call. nu. nms. Qed.
Lemma n_index e i : Num (visit e) -> Num (visit i) -> Num (visit_index visit e i).
Proof. intros H1 H2. unfold visit_index. nms. Qed.
Lemma n_super_access f c : Num (visit_super_access f c).
Proof. unfold visit_super_access. nms. Qed.
Lemma n_is e t : Num (visit e) -> Num (visit_is visit e t).
Proof. intros H. unfold visit_is. nms. Qed.
Lemma n_null e : Num (visit e) -> Num (visit_null_propagate visit e).
Proof. intros H. unfold visit_null_propagate. nu. nms. Qed.
Lemma n_error e : Num (visit e) -> Num (visit_error_propagate visit e).
Proof. intros H. unfold visit_error_propagate. nms. Qed.
Lemma n_return_expr r : (forall x, r = Some x -> Num (visit x)) -> Num (visit_return_expr visit r).
Proof. intros H. unfold visit_return_expr. nu. nms. Qed.
Lemma n_if c p q : Num (visit c) -> Num (visit p) -> (forall x, q = Some x -> Num (visit x)) -> Num (visit_if visit c p q).
Proof. intros H1 H2 H. unfold visit_if. nms. Qed.
Lemma n_while c b : Num (visit c) -> (forall es t, b = EBlock es t -> Num (visit_block visit true es t)) -> Num (visit_while visit c b).
Proof. intros H1 H2. unfold visit_while. nu. destruct b; try apply n_fail. specialize (H2 _ _ eq_refl). nms. Qed.
Lemma n_loop b : (forall es t, b = EBlock es t -> Num (visit_block visit true es t)) -> Num (visit_loop visit b).
Proof. intros H2. unfold visit_loop. nu. destruct b; try apply n_fail. specialize (H2 _ _ eq_refl). nms. Qed.
Lemma n_range b v x y body : Num (visit x) -> Num (visit y) -> Num (visit body) -> Num (visit_range_loop visit b v x y body).
Proof. intros H1 H2 H3. unfold visit_range_loop. nu. nms. Qed.
Lemma n_iter v x body : Num (visit x) -> Num (visit body) -> Num (visit_iterator_loop visit v x body).
Proof. intros H1 H3. unfold visit_iterator_loop. nu. nms. Qed.
Lemma n_for v x body : Num (visit x) -> Num (visit body) ->
  (forall o a b, x = EBinary o a b -> Num (visit a) /\ Num (visit b)) -> Num (visit_for visit v x body).
Proof.
  intros H1 H2 H3. unfold visit_for. destruct x; try now apply n_iter.
  destruct (H3 _ _ _ eq_refl). destruct op; first [now apply n_range | now apply n_iter].
Qed.
Lemma n_break : Num visit_break. Proof. unfold visit_break. nms. Qed.
Lemma n_continue : Num visit_continue. Proof. unfold visit_continue. nms. Qed.
Lemma n_prefix op e : Num (visit e) -> Num (visit_prefix visit op e).
Proof. intros H. unfold visit_prefix. nms. Qed.
Lemma n_field e f : Num (visit e) -> Num (visit_field_access visit e f).
Proof. intros H. unfold visit_field_access. nms. Qed.
End Visitors.
Lemma n_in_call m : Num m -> Num (in_call m).
Proof. intros H. unfold in_call. nms. Qed.

Theorem visit_num : forall e, Num (visit e).
Proof.
  induction e as [e IH] using expr_size_ind.
  assert (HB : forall b, esize b < esize e -> body_n visit b).
  { intros b Hb. split; [now apply IH|]. intros es t ->. split; intros x Hx; apply IH; [esz|subst; esz]. }
  destruct e; cbn [visit]; try solve [unfold push_bool; nms].
  - apply n_anonymous. apply HB. esz.
  - apply n_object. intros. apply IH. esz.
  - apply n_list. intros. apply IH. esz.
  - apply n_in_call, n_null, IH. esz.
  - apply n_in_call, n_error, IH. esz.
  - apply n_in_call, n_field, IH. esz.
  - apply n_in_call, n_super_access.
  - apply n_in_call, n_fn_call; [apply IH; esz|]. intros. apply IH. esz.
  - apply n_in_call, n_super_call. intros. apply IH. esz.
  - apply n_in_call, n_index; apply IH; esz.
  - apply n_is, IH. esz.
  - apply n_prefix, IH. esz.
  - apply n_binary; apply IH; esz.
  - apply n_assignment; [apply IH; esz|]. destruct e1; auto; [apply IH; esz|]. split; apply IH; esz.
  - apply n_var_decl, IH. esz.
  - apply n_fn_decl, HB. esz.
  - apply n_op_decl, HB. esz.
  - apply n_class; [intros x ->; apply IH; esz|]. intros x Hx. unfold item_n.
    destruct x; auto; apply HB; apply lsize_in in Hx; esz.
  - apply n_export, IH. esz.
  - apply n_if; [apply IH; esz|apply IH; esz|]. intros x ->. apply IH. esz.
  - apply n_while; [apply IH; esz|]. intros es t ->. apply n_block; intros x Hx; apply IH; [esz|subst; esz].
  - apply n_for; [apply IH; esz|apply IH; esz|]. intros o a b ->. split; apply IH; esz.
  - apply n_loop. intros es t ->. apply n_block; intros x Hx; apply IH; [esz|subst; esz].
  - apply n_block; intros x Hx; apply IH; [esz|subst; esz].
  - apply n_break.
  - apply n_continue.
  - apply n_return_expr. intros x ->. apply IH. esz.
Qed.

Theorem compile_numbers kind first root bc : omap fst (compile_m kind root (CState [context_new kind] first)) = Ok bc ->
  bc_upvalue_count bc = 0 /\
  (forall f g, within f (bc_constants bc) -> within g (bc_constants bc) -> fn_id f = fn_id g -> f = g).
Proof.
  intros H. apply omap_ok in H as ([b0 s'] & H & <-). cbn [fst].
  set (s0 := CState [context_new kind] first) in *. unfold compile_m in H.
  apply bind_ok in H as (u1 & s1 & H1 & H). apply bind_ok in H as (u2 & s2 & H2 & H).
  apply bind_ok in H as (u3 & s3 & H3 & H). apply bind_ok in H as (c & s4 & H4 & [= <- <-]).
  match type of H1 with ?m _ = _ => assert (N1 : Num m) by (nu; nms) end.
  match type of H3 with ?m _ = _ => assert (N3 : Num m) by (nu; nms) end.
  apply N1 in H1. apply visit_num in H2. apply N3 in H3.
  pose proof (later_trans _ _ _ H1 (later_trans _ _ _ H2 H3)) as [N B T L S]. clear H1 H2 H3 N1 N3.
  destruct s3 as [st n]. destruct st as [|c3 [|]]; try discriminate L. injection H4 as <- <-.
  unfold bottom in B. cbn in B. split; [cbn; now rewrite B|].
  specialize (S first (le_n first)). cbn [pools s0 cs_stack map hd asm_consts cx_asm context_new asm_new cs_next_id] in S.
  exact (proj2 (S (ids_nil _ _))).
Qed.
