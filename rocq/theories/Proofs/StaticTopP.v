(** Static rules at the level of whole programs, and the errors reported. *)
From Coq Require Import Lia.
From Verif.Model Require Import Compiler.
From Verif.Spec Require Import StaticSpec StaticTop.
From Verif.Proofs Require Import CodecP ScopeP CaptureP ExprInd WellFormedP StaticP StaticVisitP DuplicateP NoDuplicatesP.

Lemma variables_env s : variables s = env_of (view s).
Proof.
  unfold variables, env_of, view. induction (cs_stack s) as [|c l IH]; cbn [flat_map map]; [reflexivity|]. rewrite IH. f_equal.
  unfold view_ctx. cbn [snd]. induction (ss_scopes (cx_scopes c)) as [|sc r IH2]; cbn [flat_map map]; [reflexivity|]. now rewrite IH2.
Qed.
Lemma standing_pl s c scs o : view s = (c, scs) :: o -> standing s = pl c (map vs_kind scs).
Proof.
  unfold view, standing. destruct (cs_stack s) as [|cx r]; [discriminate|]. intros E. injection E as <- <- <-.
  unfold pl. f_equal.
  - unfold view_ctx. cbn [snd]. induction (ss_scopes (cx_scopes cx)) as [|sc l IH]; cbn [map existsb]; [reflexivity|]. now rewrite IH.
  - rewrite !map_length. unfold level_of, owner_of. destruct (cx_kind cx); try reflexivity;
      destruct (List.length (ss_scopes (cx_scopes cx))) as [|[|[|n]]]; reflexivity.
Qed.

Lemma compile_inv kind root b : compile kind root = Ok b ->
  exists s0 a s1 c vs, visit root s0 = Ok (a, s1) /\ c = kind /\ vs = initial_env kind /\ view s0 = [(c, [VS KBlock 0 vs])].
Proof.
  unfold compile. destruct (compile_m kind root _) as [[x s']| | |] eqn:H; try discriminate. intros _. unfold compile_m in H.
  apply bind_ok in H as (u & s0 & E0 & H). apply bind_ok in H as (a & s1 & E1 & H). exists s0, a, s1, kind, (initial_env kind).
  split; [exact E1|]. split; [reflexivity|]. split; [reflexivity|]. clear H E1.
  destruct kind; try (injection E0 as _ <-; reflexivity).
Qed.
Lemma compile_assigns kind root b : compile kind root = Ok b -> assigns_ok (initial_env kind) root = true.
Proof.
  intros H. apply compile_inv in H as (s0 & a & s1 & c & vs & H & -> & -> & V).
  destruct (visit_sees root _ _ _ _ _ _ [] [] H V) as (_ & A & _). unfold rest in A. cbn [map flat_map concat] in A. now rewrite app_nil_r in A.
Qed.
Lemma compile_placed kind root b : kind = KScript \/ kind = KModule -> compile kind root = Ok b -> placed (initial_place kind) root = true.
Proof.
  intros HK H. apply compile_inv in H as (s0 & a & s1 & c & vs & H & -> & -> & V).
  destruct (visit_sees root _ _ _ _ _ _ [] [] H V) as (_ & _ & P). destruct HK as [-> | ->]; exact P.
Qed.
Lemma compile_no_duplicates kind root b : compile kind root = Ok b -> no_duplicates root = true.
Proof.
  intros H. apply compile_inv in H as (s0 & a & s1 & c & vs & H & -> & -> & V).
  apply (visit_no_duplicates root _ _ _ H). exists kind, KBlock, (initial_env kind), [], []. exact V.
Qed.

(** * Errors reported *)
Lemma m_local_run x s c o : cs_stack s = c :: o -> m_local x s = Ok (local x (cx_scopes c), s).
Proof.
  intros E. unfold m_local, on_scopes, bind, get_context, lift, set_context, ret. rewrite E. cbn. rewrite E. destruct s as [st n], c; cbn in *. now subst.
Qed.
Lemma assign_error op x rhs s : cs_stack s <> [] -> mutability x (variables s) <> Some true ->
  visit (EAssignment op (ELitIdent x) rhs) s =
    Err (match mutability x (variables s) with None => VARIABLE_NOT_DECLARED | Some _ => CANNOT_REASSIGN_IMMUTABLE_VARIABLE end).
Proof.
  intros NE HM. rewrite variables_env in *. cbn [visit visit_assignment]. unfold assign_ident.
  destruct (cs_stack s) as [|c o] eqn:E; [congruence|]. pose proof (m_local_run x s c o E) as HL. unfold bind at 1. rewrite HL.
  destruct (local x (cx_scopes c)) as [v|] eqn:L.
  - rewrite (local_mutability _ _ _ _ HL) in *. unfold assign_slot. destruct (sv_is_mutable v); [congruence|reflexivity].
  - unfold bind. destruct (m_resolve_upvalue x s) as [[[i|] s1]| | |] eqn:R.
    + destruct (get_context s1) as [[c1 s2]| | |] eqn:G.
      * destruct (nth_error (cx_upvalues c1) i) as [d|] eqn:N.
        { rewrite (upvalue_mutability _ _ _ _ _ _ _ _ HL R G N) in *. unfold assign_slot.
          destruct (upvalue_is_mutable d); [congruence|reflexivity]. }
        exfalso. unfold m_resolve_upvalue in R. destruct (resolve_upvalue x (cs_stack s)) as [[j st]|] eqn:RR; [|discriminate].
        injection R as -> <-. unfold get_context in G. cbn [cs_stack] in G. destruct st as [|c' o']; [discriminate|]. injection G as -> <-.
        apply resolve_mutability in RR as (d' & N' & _). congruence.
      * exfalso. unfold m_resolve_upvalue in R. destruct (resolve_upvalue x (cs_stack s)) as [[j st]|] eqn:RR; [|discriminate].
        injection R as -> <-. unfold get_context in G. cbn [cs_stack] in G. destruct st as [|c' o']; [|discriminate].
        apply resolve_view in RR. rewrite E in RR. discriminate RR.
      * unfold get_context in G. destruct (cs_stack s1); discriminate G.
      * unfold get_context in G. destruct (cs_stack s1); discriminate G.
    + assert (X : mutability x (env_of (view s)) = None); [|now rewrite X].
      unfold m_resolve_upvalue in R. destruct (resolve_upvalue x (cs_stack s)) as [[j st]|] eqn:RR; [discriminate|].
      unfold view. rewrite E, mutability_ctx, L. pose proof (proj1 (resolve_none x (cs_stack s)) RR) as HN. rewrite E in HN. clear - HN.
      assert (HO : forall k c0, nth_error o k = Some c0 -> local x (cx_scopes c0) = None) by (intros k c0 HK; apply (HN (S k)); [lia|exact HK]).
      clear HN. induction o as [|c1 o IH]; [reflexivity|]. rewrite mutability_ctx, (HO 0 c1 eq_refl). apply IH.
      intros k c0 HK. apply (HO (S k)). exact HK.
    + unfold m_resolve_upvalue in R. destruct (resolve_upvalue x (cs_stack s)) as [[j st]|]; discriminate R.
    + unfold m_resolve_upvalue in R. destruct (resolve_upvalue x (cs_stack s)) as [[j st]|]; discriminate R.
    + unfold m_resolve_upvalue in R. destruct (resolve_upvalue x (cs_stack s)) as [[j st]|]; discriminate R.
Qed.

Lemma get_context_run s c o : cs_stack s = c :: o -> get_context s = Ok (c, s).
Proof. intros E. unfold get_context. now rewrite E. Qed.
Lemma get_kind_run s c o : cs_stack s = c :: o -> get_kind s = Ok (cx_kind c, s).
Proof. intros E. unfold get_kind, bind. now rewrite (get_context_run s c o E). Qed.
Lemma top_run s c o sc scs : cs_stack s = c :: o -> ss_scopes (cx_scopes c) = sc :: scs -> m_top_scope s = Ok (sc, s).
Proof.
  intros E ES. unfold m_top_scope, on_scopes, bind, get_context, lift, set_context, ret. rewrite E. unfold top_scope. rewrite ES. cbn. rewrite E.
  destruct s as [st n], c; cbn in *. now subst.
Qed.
Lemma in_context_standing s c o : cs_stack s = c :: o -> in_context_of KLoop (cx_scopes c) = in_loop (standing s).
Proof.
  intros E. unfold standing. rewrite E. cbn [in_loop]. rewrite in_context_view. unfold view_ctx. cbn [snd].
  induction (ss_scopes (cx_scopes c)) as [|sc l IH]; cbn [map existsb]; [reflexivity|]. now rewrite IH.
Qed.
Lemma in_call_error (m : M unit) s c o sc scs e : cs_stack s = c :: o -> ss_scopes (cx_scopes c) = sc :: scs ->
  (forall s' c', cs_stack s' = c' :: o -> cx_kind c' = cx_kind c -> m s' = Err e) -> in_call m s = Err e.
Proof.
  intros E ES HM. unfold in_call, bind at 1. destruct (enter_call s) as [[u s']| | |] eqn:EC.
  - unfold bind. apply on_scopes_inv in EC as (c' & o' & r & E' & F & ->). rewrite E in E'. injection E' as <- <-.
    erewrite HM; [reflexivity|reflexivity|reflexivity].
  - exfalso. revert EC. unfold enter_call, m_update_top, on_scopes, bind, get_context, lift, set_context, update_top. rewrite E, ES. cbn. now rewrite E.
  - exfalso. revert EC. unfold enter_call, m_update_top, on_scopes, bind, get_context, lift, set_context, update_top. rewrite E, ES. cbn. now rewrite E.
  - exfalso. revert EC. unfold enter_call, m_update_top, on_scopes, bind, get_context, lift, set_context, update_top. rewrite E, ES. cbn. now rewrite E.
Qed.
Lemma keyword_errors s : inside_program s ->
  (in_loop (standing s) = false -> visit EBreak s = Err INVALID_BREAK_USAGE /\ visit EContinue s = Err INVALID_CONTINUE_USAGE) /\
  (forall e, match pl_owner (standing s) with InScript | InModule => True | _ => False end -> visit (EReturn e) s = Err INVALID_RETURN_USAGE) /\
  (forall e, pl_owner (standing s) = InConstructor -> visit (EReturn (Some e)) s = Err NEW_RETURN_CANNOT_HAVE_EXPRESSION) /\
  (forall e, returns_value (pl_owner (standing s)) = false -> visit (EErrorPropagate e) s = Err INVALID_ERROR_PROPAGATE_USAGE) /\
  (forall x k, match pl_owner (standing s) with InMethod | InConstructor => False | _ => True end -> visit (ESuperAccess x k) s = Err INVALID_SUPER_CALL) /\
  (forall e, match pl_owner (standing s), pl_level (standing s) with InModule, (Root | Top) => False | _, _ => True end ->
     visit (EExportDecl e) s = Err INVALID_EXPORT_USAGE).
Proof.
  intros (c & o & sc & scs & E & ES & HD).
  pose proof (in_context_standing s c o E) as HL. pose proof (get_kind_run s c o E) as HK. pose proof (get_context_run s c o E) as HC.
  assert (HO : pl_owner (standing s) = owner_of (cx_kind c)) by (unfold standing; now rewrite E). rewrite HO.
  split; [|split; [|split; [|split; [|split]]]].
  - intros HF. rewrite HF in HL. cbn [visit]. unfold visit_break, visit_continue, bind. rewrite HC, HL. auto.
  - intros e. cbn [visit]. unfold visit_return_expr. unfold bind at 1. rewrite HK. destruct (cx_kind c); cbn [owner_of]; try contradiction; reflexivity.
  - intros e. cbn [visit]. unfold visit_return_expr. unfold bind at 1. rewrite HK. destruct (cx_kind c); cbn [owner_of]; try discriminate; reflexivity.
  - intros e HR. cbn [visit]. eapply in_call_error; eauto. intros s' c' E' K'. unfold visit_error_propagate, bind at 1.
    rewrite (get_kind_run s' c' o E'), K'. destruct (cx_kind c); try discriminate HR; reflexivity.
  - intros x k HR. cbn [visit]. eapply in_call_error; eauto. intros s' c' E' K'. unfold visit_super_access, bind at 1.
    rewrite (get_kind_run s' c' o E'), K'. destruct (cx_kind c); try contradiction HR; reflexivity.
  - intros e HR. cbn [visit]. unfold visit_export, bind at 1. rewrite HK.
    assert (HLv : pl_level (standing s) = match owner_of (cx_kind c), List.length (ss_scopes (cx_scopes c)) with
         | (InScript | InModule), (0 | 1) => Root | (InScript | InModule), 2 => Top | _, _ => Nested end) by (unfold standing; now rewrite E).
    rewrite HLv, ES in HR. destruct (cx_kind c); cbn [owner_of List.length] in HR; try reflexivity.
    unfold bind at 1. rewrite (top_run s c o sc scs E ES), HD. destruct scs as [|? [|? ?]]; cbn [List.length] in *; try contradiction. reflexivity.
Qed.
Lemma duplicate_params_error x op args rt b s : distinct (map fa_name args) = false ->
  visit (EFnDecl x args rt b) s = Err FUNCTION_CANNOT_HAVE_DUPLICATE_ARGS /\
  visit (EOpDecl op args rt b) s = Err FUNCTION_CANNOT_HAVE_DUPLICATE_ARGS.
Proof.
  intros HD. cbn [visit]. unfold visit_fn_decl, visit_op_decl, assert_unique_params. unfold bind at 1. rewrite unique_distinct, HD. cbn. auto.
Qed.
