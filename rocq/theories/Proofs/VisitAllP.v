(** The compiler leaves the code of declarations and functions, and so of every supported expression. *)
From Verif.Model Require Import Compiler Assembler.
From Verif.Spec Require Import Encoding EvalSpec SupportSpec.
From Verif.Proofs Require Import ExprInd ReachP CodeP CodecP AssemblerP PoolP WellFormedP WellFormedPrimP CaptureP StackP EmitP VisitMonoP FitsP JumpsP ScopesP DeclsP FnCodeP BodyCodeP VisitCodeP VisitLoopP.
#[local] Open Scope string_scope.
#[local] Open Scope list_scope.
#[local] Open Scope nat_scope.

Section All.
Variable lit : nat -> fn_bytecode.
Local Notation ED := (ED lit).
Local Notation EE := (EE lit).
Local Notation code := (code lit).
Local Notation code_at := (code_at lit).

(** ** Variables *)
Lemma kept_value P kind m x t vs lo d : kept P (EVarDecl kind m x t) vs lo -> kept (first_of P) x (skipn d vs) lo.
Proof. intros HK. apply kept_skip. eapply kept_sub; [| | | | | |exact HK]; auto using incl_refl. Qed.
Lemma at_var kind m x t : code_at x -> code_at (EVarDecl kind m x t).
Proof.
  intros IX. split; [intros P S ST; cbn [supported] in S; rewrite ST in S; discriminate S|]. intros P S ST CH. cbn [supported] in S. ands. unfold stmt_code. cbn [visit fns]. unfold visit_var_decl.
  pose proof (EE_first lit P (captures (EVarDecl kind m x t)) x IX ltac:(assumption) (incl_refl _)) as X. destruct kind as [y|ys].
  - cbn [adds]. assert (Y : ED P [y] (captures (EVarDecl (Singular y) m x t)) 0 (slot <- m_add_local y (state_initialized m) ;; emit_u8 OpStoreLocal (u8_of slot) ;;; visit_local_type t slot)
      (fun G _ _ p q => exists slot p1, added y slot G /\ at_ (g_bc G) p (IByte OpStoreLocal slot) p1 /\ checks G t slot p1 q)).
    { eapply (ED_seq lit [y] [] 0 0) with (R2 := fun slot G _ _ p q => exists p1, at_ (g_bc G) p (IByte OpStoreLocal (u8_of slot)) p1 /\ (u8_of slot = slot -> checks G t slot p1 q)); [apply ED_add_local| |reflexivity|reflexivity|].
      - intros slot. eapply ED_post; [apply (EE_bind lit P _ 0 0); [prm0|intros ?; apply EE_local_type]|]. cbn beta. intros G k b p q (_ & p1 & H1 & H2). eauto.
      - cbn beta. intros G k b p q slot p1 (<- & H1) (p2 & H2 & H3). cbn [List.length] in *. rewrite drop_0 in *. exists slot, p2. rewrite (added_small _ _ _ H1) in *. auto. }
    eapply (ED_then lit [] [y] (fns x) 0); [exact X|exact Y|lia|reflexivity|]. cbn beta. intros G k b p q a p1 H1 (slot & p2 & HA & H2 & H3) HK. cbn [List.length] in *. unfold item_code.
    destruct HA as ((fl & EG) & ES & RM & _). exists fl, p1, p2. split; [exact RM|]. split; [apply H1; eapply (kept_value P _ _ _ _ _ _ 1); exact HK|]. rewrite <- ES. rewrite <- EG. auto.
  - cbn [adds]. eapply (ED_then lit [] (rev ys) (fns x) 0); [exact X|apply ED_destructure|lia|apply app_nil_r|]. cbn beta. intros G k b p q a p1 H1 H2 HK. rewrite rev_length in *. unfold item_code. exists p1. split; [|exact H2]. apply H1. eapply (kept_value P); exact HK.
Qed.

(** ** Imports and exports *)
Lemma ED_void {A} P D C n (m : M A) R : (forall s a s', m s <> Ok (a, s')) -> ED P D C n m R.
Proof. intros H s a s' W PL E. destruct (H s a s' E). Qed.
Lemma ED_imported P C path xs : ED P (rev xs) C 0 (items <- add_locals xs ;; emit_c OpLoadModule (CSymbol path) ;;; emit_fields_to_locals items)
  (fun G _ _ p q => exists p1, at_const (g_bc G) OpLoadModule (CSymbol path) p p1 /\ destructures (drop (List.length xs) G) xs p1 q G).
Proof.
  eapply ED_post; [apply ED_tame; eapply (ED_seq lit (rev xs) [] 0 0); [apply ED_add_locals| |reflexivity..|]|].
  - intros items. apply (EE_bind lit P C 0 0); [prm0|intros ?; apply EE_fields_to_locals].
  - cbn beta. intros G k b p q items p1 (<- & H1 & ->) (_ & p2 & H2 & H3). cbn [List.length] in H1, H2, H3. rewrite drop_0 in H1, H3. exact (conj H1 (ex_intro (fun p2 => at_const _ _ _ p p2 /\ fields_at _ _ p2 q) p2 (conj H2 H3))).
  - cbn beta. intros G k b p q (B & H1 & p2 & H2 & H3). exists p2. split; [exact H2|]. apply (destructures_of lit); [exact B|exact H1|exact H3].
Qed.
Lemma at_import x xs path : code_at (EImportDecl x xs path).
Proof.
  split; [intros P S ST; cbn [supported] in S; rewrite ST in S; discriminate S|]. intros P S ST CH. unfold stmt_code. cbn [visit fns]. unfold visit_import.
  pose proof (ED_imported P (captures (EImportDecl x xs path)) path xs) as X.
  assert (Y : ED P (match x with Some y => [y] | None => [] end) (captures (EImportDecl x xs path)) 0
      (match x with None => ret tt | Some n => slot <- m_add_local n (state_initialized false) ;; emit_u8 OpStoreLocal (u8_of slot) end)
      (fun G _ _ p q => match x with None => p = q | Some y => exists slot, added y slot G /\ at_ (g_bc G) p (IByte OpStoreLocal slot) q end)).
  { destruct x as [y|].
    - eapply (ED_seq lit [y] [] 0 0) with (R2 := fun slot G _ _ p q => at_ (g_bc G) p (IByte OpStoreLocal (u8_of slot)) q); [apply ED_add_local|intros slot; prm0|reflexivity|reflexivity|].
      cbn beta. intros G k b p q slot p1 (<- & H1) H2. cbn [List.length] in *. rewrite drop_0 in *. exists slot. rewrite (added_small _ _ _ H1) in *. auto.
    - eapply ED_post; [apply ED_ret|]. cbn beta. intros G k a p q (_ & H). exact H. }
  eapply (ED_ext lit P _ _ _ (bind (items <- add_locals xs ;; emit_c OpLoadModule (CSymbol path) ;;; emit_fields_to_locals items) (fun _ => match x with None => ret tt | Some n => slot <- m_add_local n (state_initialized false) ;; emit_u8 OpStoreLocal (u8_of slot) end))); [reassoc|].
  eapply (ED_then lit (rev xs) (match x with Some y => [y] | None => [] end) 0 0); [exact X|exact Y|reflexivity|reflexivity|]. cbn beta.
  intros G k b p q _ p2 (p1 & H1 & H2) H3 HK. unfold item_code. cbn [adds]. rewrite app_length, rev_length. destruct x as [y|]; cbn [List.length] in *.
  - destruct H3 as (slot & ((fl & EG) & ES & RM & _) & H3). exists p1, p2, (drop 1 G). rewrite drop_drop in H2. split; [exact H1|]. split; [exact H2|]. exists fl. split; [exact RM|]. rewrite <- ES, <- EG. auto.
  - rewrite drop_0 in H2. exists p1, p2, G. auto.
Qed.
Lemma ED_below P D C n e (m : M unit) (R : ctx -> nat -> nat -> nat -> Prop) : pl_chain P = Fresh -> ED (export_of P) D C n m (fun G k _ p q => kept (export_of P) e (g_vars G) (g_loop G) -> R G k p q) ->
  ED P D C n m (fun G k _ p q => R (g_deep 1 G) k p q).
Proof.
  intros CH H s a s' W PL E. assert (PL' : placed (export_of P) s) by (unfold placed in *; rewrite CH in PL; exact PL). destruct (H s a s' W PL' E) as (M & K). split; [exact M|]. intros G [S1 S2 S3 S4 S5] F.
  apply (K (g_deep 1 G)).
  - split; cbn [export_of pl_fn pl_exact pl_exit pl_chain]; try discriminate; [exact S1|exact S4|]. reflexivity.
  - refine (fits_deep lit (pl_chain P) Fresh 1 G _ _ _ F). discriminate.
  - apply kept_none; reflexivity.
Qed.
Lemma EE_top_scope P C : EE P C 0 m_top_scope (fun _ _ _ p q => p = q).
Proof.
  intros s a s' W PL E. split; [apply (T_moves [] _ _ _ _ (fun _ => True) s a s' (fun b N _ => T_top_scope b C N) W E)|]. intros G S F. apply on_scopes_ok in E. destruct E as (c & r & k & ss' & -> & E & ->). reflexivity.
Qed.
Lemma extended n G : G = extend (firstn n (g_vars G)) (drop n G).
Proof. destruct G. unfold extend, drop. cbn. rewrite firstn_skipn. reflexivity. Qed.
Lemma at_export x : code_at x -> code_at (EExportDecl x).
Proof.
  intros IX. split; [intros P S ST; cbn [supported] in S; rewrite ST in S; discriminate S|]. intros P S ST CH. cbn [supported] in S. ands. destruct (exported x) as [name|] eqn:EN; [|discriminate].
  assert (HN : export_name x = Some name) by exact EN.
  pose proof (ED_below P _ _ _ x _ (fun G k p q => item_code code (drop (List.length (adds x)) G) k x p q G) CH (proj2 IX (export_of P) ltac:(assumption) eq_refl eq_refl)) as X. unfold stmt_code. cbn [visit fns]. unfold visit_export.
  eapply (ED_seq lit [] (adds x) 0 (fns x)) with (R2 := fun _ G k _ p q => item_code code (drop (List.length (adds x)) G) k (EExportDecl x) p q G); [apply EE_get_kind| |reflexivity|apply app_nil_r|].
  2:{ cbn beta. intros G k b p q a p1 -> H _. rewrite Nat.add_0_r in H. exact H. }
  intros kd. destruct kd; try (apply ED_void; intros s a s' E; discriminate E).
  eapply (ED_seq lit [] (adds x) 0 (fns x)) with (R2 := fun _ G k _ p q => item_code code (drop (List.length (adds x)) G) k (EExportDecl x) p q G); [apply EE_top_scope| |reflexivity|apply app_nil_r|].
  2:{ cbn beta. intros G k b p q a p1 -> H. rewrite Nat.add_0_r in H. exact H. }
  intros sc. destruct (1 <? sc_depth sc); [apply ED_void; intros s a s' E; discriminate E|].
  eapply (ED_seq lit [] (adds x) 0 (fns x)) with (R2 := fun l G k _ p q => exists v p1 p2, l = Some v /\ at_ (g_bc G) p (IByte OpLoadLocal (u8_of (sv_slot v))) p1 /\
    item_code code (drop (List.length (adds x)) (g_deep 1 G)) k x p1 p2 (g_deep 1 G) /\ at_const (g_bc G) OpStoreField (CSymbol name) p2 q); [apply EE_local| |reflexivity|apply app_nil_r|].
  - intros l. destruct l as [v|]; [|apply ED_void; intros s a s' E; discriminate E].
    eapply (ED_then lit [] (adds x) 0 (fns x)); [prm0| |reflexivity|apply app_nil_r|].
    + eapply (ED_then lit (adds x) [] (fns x) 0); [exact X|rewrite HN; prm0|lia|reflexivity|].
      cbn beta. intros G k b p q a p1 H1 H2. cbn [List.length] in H1. rewrite drop_0 in H1. exact (ex_intro (fun p1 => item_code code (drop (List.length (adds x)) (g_deep 1 G)) k x p p1 (g_deep 1 G) /\ at_const (g_bc G) OpStoreField (CSymbol name) p1 q) p1 (conj H1 H2)).
    + cbn beta. intros G k b p q a p1 H1 (p2 & H2 & H3). rewrite Nat.add_0_r in H2. exists v, p1, p2. auto.
  - cbn beta. intros G k b p q l p1 (<- & H1) (v & p2 & p3 & -> & H2 & H3 & H4). rewrite Nat.add_0_r in H3. destruct H1 as ((fl & H1) & HS). rewrite HS in H2.
    unfold item_code. exists name, (sv_slot v), fl, (firstn (List.length (adds x)) (g_vars G)), p2, p3. split; [exact EN|]. split; [exact H1|]. split; [exact H2|]. split; [|split; [exact H4|apply extended]].
    replace (item_code code (drop (List.length (adds x)) (g_deep 1 G)) k x p2 p3 (g_deep 1 G)) with (decl_code code (drop (List.length (adds x)) (g_deep 1 G)) k x p2 p3 (g_deep 1 G)) in H3 by (destruct x; try discriminate EN; reflexivity).
    rewrite (extended (List.length (adds x)) (g_deep 1 G)) in H3 at 2. exact H3.
Qed.

(** ** Functions *)
Section Fn.
Variables (fk : fn_kind) (self : string) (args rest : list fn_arg) (ret_ : option type_ann) (body : expr).
Let es := fst (body_parts body).
Let t := snd (body_parts body).
Let Pf := fn_place (fn_kept body).
Hypothesis sig : signature_ok args ret_ body = true.
Hypothesis sup : fn_supported body = true.
Hypothesis named : takes (unnamed fk) args self rest.
Hypothesis constructing : match fk with FkConstructor _ => self = "self" /\ constructor_ok body = true /\ ~ In self (map fa_name rest) | _ => True end.
Hypothesis IB : forall e, esize e <= esize body -> code_at e.

Lemma body_stmts e : In e (statements es t) -> supported Pf e = true.
Proof. apply (body_supported Pf body sup). Qed.
Lemma body_fns : fns (EBlock es t) = fns body.
Proof. unfold es, t. destruct body; reflexivity. Qed.
Lemma body_caps : flat_map captures (statements es t) = captures body.
Proof. rewrite statements_captures. unfold es, t. destruct body; try reflexivity; apply app_nil_l. Qed.
Lemma body_names : flat_map names (statements es t) = names body.
Proof. rewrite statements_names. unfold es, t. destruct body; try reflexivity; apply app_nil_l. Qed.
Lemma body_returns e : In e (statements es t) -> returns e = true -> returns body = true.
Proof.
  intros H R. pose proof (statement_returns es t e H R) as X. unfold es, t in X. destruct body; try exact X; cbn [body_parts fst snd] in X; cbn [returns existsb orb] in X; exact X.
Qed.
Lemma T_fn_block b N : incl (flat_map (fun a => type_names (fa_type a)) args ++ type_names ret_ ++ names body) N ->
  T b [] (captures body) N (fns (EBlock es t)) (visit_fn_block fk args es t (visit_block_body visit es t)) (fun _ => True).
Proof.
  intros I. unfold visit_fn_block. fold (fn_end fk). fold (fn_start fk es t). eapply T_num.
  - apply T_and with (n1 := 0) (Q := fun _ => True); [apply T_start|intros _ _].
    apply T_push. eapply TP_and; [apply T_args|intros _ _].
    { intros y Hy. apply I. rewrite in_app_iff. auto. }
    eapply TP_and; [apply T_scan_all|intros _ _].
    eapply TP_and; [apply (T_body _ _ _ es t Pf)|intros _ _].
    { intros e He. split; [apply visit_mono|exact (body_stmts e He)]. }
    { rewrite body_caps. apply incl_refl. }
    { rewrite body_names. intros y Hy. apply I. rewrite !in_app_iff. auto. }
    eapply TP_and; [apply T_close|intros _ _]. eapply TP_and; [apply T_end|intros _ _].
    eapply TP_pop. intros sc _. apply T_ret with (Q := fun _ => True). auto.
  - rewrite <- statements_fns. lia.
Qed.
Definition fn_rel : ctx -> nat -> unit -> nat -> nat -> Prop :=
    (fun G k _ p q => exists vs p1, map fst vs = fn_names self rest es t /\ (forall x, In (x, true) vs -> In x (captures body)) /\
      (exists fl G1 G2 p2 p3, has_room (g_in G) /\ params_code (extend [(self, fl)] (g_in G)) rest p p2 G1 /\ hoists G1 (hoisted es t) G2 /\
        (all_kept (kept Pf) (statements es t) (vs ++ g_vars G) (g_loop G) -> items_code code t G2 k es p2 p3 (extend vs (g_in G))) /\ closes (g_bc G) (flagged (List.length (g_vars G)) vs) p3 p1) /\
      ((exists r, g_fn G = Some r) -> ending fk (extend vs (g_in G)) p1 q)).
Lemma fn_block_code : EE (fn_inside (fn_kept body)) (captures body) (fns body) (visit_fn_block fk args es t (visit_block_body visit es t)) fn_rel.
Proof.
  rewrite <- body_fns. unfold fn_rel. apply EE_fn_block; [exact named|..].
  - apply (moving_T (flat_map (fun a => type_names (fa_type a)) args ++ type_names ret_ ++ names body)). intros b N I. apply T_fn_block. exact I.
  - intros e He. pose proof (body_size body e He) as L. destruct (IB e L) as (_ & X). specialize (X Pf (body_stmts e He) eq_refl eq_refl).
    apply (ED_incl lit Pf _ (captures e) (captures body)); [|exact X]. rewrite <- body_caps. intros x Hx. apply in_flat_map. eauto.
Qed.
Lemma named_params x : In x (self :: map fa_name rest) -> In x ("" :: map fa_name args).
Proof. rewrite <- (takes_names _ _ _ _ named), in_app_iff. destruct (unnamed fk); cbn [slot0 In]; tauto. Qed.
Lemma names_declared x : In x (block_names es t) -> In x (body_declared body).
Proof. intros H. destruct (block_names_in _ _ _ H) as (e & H1 & H2). unfold body_declared. rewrite (surjective_pairing (body_parts body)). apply in_flat_map. eauto. Qed.
Lemma mem_in x l : mem x l = false -> ~ In x l.
Proof. intros M H. assert (X : existsb (String.eqb x) l = true); [|unfold mem in M; congruence]. apply existsb_exists. exists x. split; [exact H|apply String.eqb_refl]. Qed.
Lemma guard : fn_guard (kept Pf) fk self rest ret_ (captures body) es t.
Proof.
  pose proof sig as S0. unfold signature_ok in S0. apply andb_prop in S0. destruct S0 as (S1 & S2). split.
  - intros vs V1 V2 e d He. apply kept_skip. split; [|discriminate]. intros _ R. pose proof (body_returns e He R) as RB.
    assert (KE : fn_kept body = captures body) by (unfold fn_kept; rewrite RB; reflexivity).
    assert (IC : incl (captures e) (captures body)) by (rewrite <- body_caps; intros x Hx; apply in_flat_map; eauto). cbn [Pf fn_place pl_kept]. split; [|rewrite KE; exact IC].
    apply Forall_forall. intros [x [|]] Hx; [|reflexivity]. exfalso. pose proof (V2 x Hx) as Y1. assert (Y2 : In x (fn_names self rest es t)) by (rewrite <- V1; apply (in_map fst) in Hx; exact Hx).
    rewrite <- KE in Y1. unfold fn_names in Y2. rewrite in_app_iff, <- in_rev in Y2. destruct Y2 as [Y2|Y2].
    + exact (fresh_in _ _ x (fresh_block Pf es t body_stmts) Y2 Y1).
    + exact (fresh_in _ _ x S1 (named_params x Y2) Y1).
  - assert (RT : forall ty, ret_ = Some ty -> ~ In (ta_name ty) (fn_names self rest es t)).
    { intros ty -> H. apply negb_true_iff in S2. apply (mem_in _ _ S2).
      unfold fn_names in H. rewrite in_app_iff, <- in_rev in H. apply in_app_iff. destruct H as [H|H]; [right; exact (names_declared _ H)|left; exact (named_params _ H)]. }
    pose proof constructing as CO. destruct fk; try exact RT. destruct CO as (-> & CO & NR). unfold constructor_ok in CO. apply negb_true_iff in CO. apply mem_in in CO. rewrite in_app_iff in CO.
    split; [reflexivity|]. split; [tauto|]. split; [|exact NR]. intros H. apply CO. right. exact (names_declared _ H).
Qed.
Definition fn_is (id k : nat) (G : ctx) (ups : list upvalue_desc) : Prop := fn_body lit code id self rest (role_for fk ret_) k es t (level_of G :: g_outer G) ups.
Lemma fn_made id k G ups q : bc_upvalue_count (fn_code (lit id)) = List.length ups ->
  fn_rel (fn_scene (fn_code (lit id)) ups (role_for fk ret_) G) k tt 0 q -> fn_is id k G ups.
Proof. intros HU (vs & p1 & H1 & H2 & H3 & H4). eapply (fn_body_of lit (kept Pf)); [exact guard|exact HU|exact H1|exact H2|exact H3|exact H4]. Qed.
Lemma compile_moving C : incl (flat_map (fun a => type_names (fa_type a)) args ++ type_names ret_ ++ names body) C -> moving [] C (fns body) (compile_fn visit args ret_ fk body).
Proof.
  intros I. apply (moving_T (flat_map (fun a => type_names (fa_type a)) args ++ type_names ret_ ++ names body)). intros b N J. eapply T_compile with (P := Pf); eauto.
  intros e He. split; [apply visit_mono|exact (body_stmts e He)].
Qed.
End Fn.

Lemma fn_is_code fk self rest ret_ body id k G ups : fn_is fk self rest ret_ body id k G ups -> fn_of lit code id self rest (role_for fk ret_) k body (level_of G :: g_outer G) ups.
Proof. unfold fn_is. destruct body; exact (fun H => H). Qed.
Lemma literal_post G n (f g : list upvalue_desc -> Prop) p q : (forall ups, f ups -> g ups) -> literal lit G n f p q -> literal lit G n g p q.
Proof. intros H (ups & c & H1 & H2). exists ups, c. auto. Qed.
Ltac plain_fn L args ret_ body S1 S2 IB :=
  eapply (L lit ret_ FkFunction (fns body) (fn_rel FkFunction "" args body) (fn_is FkFunction "" args ret_ body) (fn_made FkFunction "" args args ret_ body S1 S2 (conj eq_refl eq_refl) Logic.I IB));
  [apply compile_body|apply compile_moving; auto using incl_refl|apply (fn_block_code FkFunction "" args args ret_ body); auto using (conj eq_refl eq_refl : takes true args "" args)|reflexivity|reflexivity|reflexivity].
Lemma at_anonymous args ret_ body : (forall e, esize e <= esize body -> code_at e) -> code_at (ELitAnonymousFn args ret_ body).
Proof.
  intros IB. apply stmt_of_expr; [exact Logic.I|]. intros P S ST. cbn [supported] in S. apply andb_prop in S. destruct S as (S1 & S2). cbn [visit fns].
  eapply ED_post; [plain_fn (@EE_anonymous) args ret_ body S1 S2 IB|].
  cbn beta. intros G k u p q H _. cbn [code]. eapply literal_post; [|exact H]. intros ups Hu. exact (fn_is_code FkFunction "" args ret_ body _ _ G ups Hu).
Qed.
Lemma at_op op args ret_ body : (forall e, esize e <= esize body -> code_at e) -> code_at (EOpDecl op args ret_ body).
Proof.
  intros IB. split; [intros P S ST; cbn [supported] in S; rewrite ST in S; discriminate S|]. intros P S ST CH. cbn [supported] in S. apply andb_prop in S. destruct S as (S1 & S2). apply andb_prop in S1. destruct S1 as (_ & S1).
  unfold stmt_code. cbn [visit fns adds]. rewrite <- Nat.add_1_r.
  eapply ED_post; [plain_fn (@EE_op_decl) args ret_ body S1 S2 IB|].
  cbn beta. intros G k u p q (p1 & p2 & H1 & H3 & H4) _. cbn [List.length]. rewrite drop_0. exists p1, p2. split; [|split; [destruct op; exact H3|split; [exact H4|reflexivity]]].
  cbn [code]. eapply literal_post; [|exact H1]. intros ups Hu. exact (fn_is_code FkFunction "" args ret_ body _ _ G ups Hu).
Qed.
Lemma at_fn name args ret_ body : (forall e, esize e <= esize body -> code_at e) -> code_at (EFnDecl name args ret_ body).
Proof.
  intros IB. split; [intros P S ST; cbn [supported] in S; rewrite ST in S; discriminate S|]. intros P S ST CH. cbn [supported] in S. apply andb_prop in S. destruct S as (S1 & S2). apply andb_prop in S1. destruct S1 as (_ & S1).
  unfold stmt_code. cbn [visit fns adds]. rewrite <- Nat.add_1_r.
  eapply ED_post; [plain_fn (@EE_fn_decl) args ret_ body S1 S2 IB|].
  cbn beta. intros G k u p q (p1 & j & fl & H1 & H3 & H4) _. cbn [List.length]. rewrite drop_0. exists p1, j, fl. split; [|split; [exact H3|split; [exact H4|reflexivity]]].
  cbn [code]. eapply literal_post; [|exact H1]. intros ups Hu. exact (fn_is_code FkFunction "" args ret_ body _ _ G ups Hu).
Qed.

(** ** Classes *)
Section Member.
Variables (P : place) (C : list string) (slot : nat) (ck : class_kind).
Lemma EE_class_fn fk self rest name args ret_ body : (forall e, esize e <= esize body -> code_at e) -> signature_ok args ret_ body = true -> fn_supported body = true -> takes (unnamed fk) args self rest ->
  match fk with FkConstructor _ => self = "self" /\ constructor_ok body = true | _ => True end ->
  incl (flat_map (fun a => type_names (fa_type a)) args ++ type_names ret_ ++ names body) C ->
  EE P C (fns body + 1) (visit_method visit name args ret_ body fk)
    (fun G k _ p q => literal lit G (k + fns body) (fun ups => fn_of lit code (k + fns body) self rest (role_for fk ret_) k body (level_of G :: g_outer G) ups) p q).
Proof.
  intros IB S1 S2 TK CO IC. destruct (unique_names (map fa_name args)) eqn:U.
  - assert (CO' : match fk with FkConstructor _ => self = "self" /\ constructor_ok body = true /\ ~ In self (map fa_name rest) | _ => True end).
    { destruct fk; auto. destruct CO as (CO1 & CO2). split; [exact CO1|]. split; [exact CO2|]. cbn [unnamed takes] in TK. destruct TK as (a & -> & <- & _). cbn [map unique_names] in U. apply andb_prop in U. destruct U as (U & _). apply negb_true_iff in U. exact (mem_in _ _ U). }
    eapply ED_post; [eapply (EE_method lit ret_ fk (fns body) (fn_rel fk self rest body) (fn_is fk self rest ret_ body) (fn_made fk self args rest ret_ body S1 S2 TK CO' IB));
      [apply compile_body|apply compile_moving; auto|apply (fn_block_code fk self args rest ret_ body); auto|reflexivity|reflexivity]|].
    cbn beta. intros G k u p q H. eapply literal_post; [|exact H]. intros ups Hu. exact (fn_is_code fk self rest ret_ body _ _ G ups Hu).
  - eapply ED_ext with (m := fail FUNCTION_CANNOT_HAVE_DUPLICATE_ARGS); [|apply ED_fail]. intros s. unfold visit_method, assert_unique_params. rewrite U. reflexivity.
Qed.
Lemma EE_class_op fk op args ret_ body R : fk = FkMethod -> EE P C (fns body + 1) (visit_method visit (op_name op) args ret_ body fk) R -> EE P C (fns body + 1) (visit_op_decl visit op args ret_ body true) R.
Proof.
  intros ->. apply (ED_sim lit P [] C (fns body + 1)). intros s r W E. unfold visit_op_decl in E. unfold visit_method.
  revert E. unfold bind. destruct (assert_unique_params args s) as [[? s1]| | |]; [|discriminate..]. destruct (compile_fn visit args ret_ FkMethod body s1) as [[? s2]| | |]; [|discriminate..]. destruct (fresh_id s2) as [[? s3]| | |]; [|discriminate..].
  destruct (emit_compiled _ _ _ s3) as [[[] s4]| | |]; [|discriminate..]. exact (fun H => H).
Qed.
Lemma self_takes args a : self_param args = Some a -> fa_type a = None -> exists rest, receiver args = Some rest /\ takes false args "self" rest.
Proof.
  destruct args as [|b rest]; [discriminate|]. cbn [self_param receiver]. unfold SELF. destruct (String.eqb_spec (fa_name b) "self") as [E|E]; [|discriminate]. intros [= ->] HT. exists rest. split; [reflexivity|]. exists a. auto.
Qed.
Lemma self_none args : self_param args = None -> receiver args = None.
Proof. destruct args as [|b rest]; [reflexivity|]. cbn [self_param receiver]. unfold SELF. destruct (String.eqb (fa_name b) "self"); [discriminate|reflexivity]. Qed.
Lemma EE_member x : (forall e, esize e <= esize x -> code_at e) -> member_supported x = true -> incl (names x) C ->
  EE P C (fns x) (visit_class_item visit slot ck x) (fun G k _ p q => member_code lit code G k (u8_of slot) x p q).
Proof.
  intros IB S IC. destruct x; try discriminate S; cbn [member_supported] in S; apply andb_prop in S; destruct S as (S1 & S2); cbn [visit_class_item fns].
  - apply andb_prop in S1. destruct S1 as (S1 & S3). assert (IX : forall e, esize e <= esize x -> code_at e) by (intros e L; apply IB; rewrite size_EFnDecl; lia). unfold visit_class_fn. cbn [member_code]. destruct (self_param args) as [a|] eqn:SP.
    + destruct (fa_type a) eqn:FT; [apply ED_fail|]. destruct (self_takes args a SP FT) as (rest & RV & TK). rewrite RV.
      set (fk := if String.eqb name NEW then FkConstructor ck else FkMethod). assert (TK' : takes (unnamed fk) args "self" rest) by (unfold fk; destruct (String.eqb name NEW); exact TK).
      assert (CO : match fk with FkConstructor _ => "self" = "self" /\ constructor_ok x = true | _ => True end).
      { unfold fk. unfold NEW. destruct (String.eqb name "new"); [|exact Logic.I]. split; [reflexivity|exact S3]. }
      assert (RO : role_for fk return_ = if String.eqb name "new" then Constructing else Returning return_) by (unfold fk, NEW; destruct (String.eqb name "new"); reflexivity). rewrite <- RO.
      eapply ED_post; [eapply ED_num; [|eapply EE_bind; [apply (EE_class_fn fk "self" rest); eauto|intros ?]; eapply EE_bind; [prm0|intros ?; prm0]]; lia|].
      cbn beta.  intros G k u p q (_ & p1 & H1 & _ & p2 & H2 & H3). exists p1, p2. auto.
    + rewrite (self_none _ SP). destruct (String.eqb name NEW); [apply ED_fail|].
      eapply ED_post; [eapply ED_num; [|eapply EE_bind; [apply (EE_class_fn FkStaticMethod "" args); eauto; exact (conj eq_refl eq_refl)|intros ?]; eapply EE_bind; [prm0|intros ?]; eapply EE_bind; [prm0|intros ?; prm0]]; lia|].
      cbn beta.  intros G k u p q (_ & p1 & H1 & _ & p2 & H2 & _ & p3 & H3 & H4). exists p1, p2, p3. auto.
  - assert (IX : forall e, esize e <= esize x -> code_at e) by (intros e L; apply IB; rewrite size_EOpDecl; lia). unfold visit_class_op. cbn [member_code]. destruct (self_param args) as [a|] eqn:SP; [|apply ED_fail].
    destruct (fa_type a) eqn:FT; [apply ED_fail|]. destruct (self_takes args a SP FT) as (rest & RV & TK). rewrite RV.
    eapply ED_post; [eapply ED_num; [|eapply EE_bind; [apply (EE_class_op FkMethod); [reflexivity|apply (EE_class_fn FkMethod "self" rest); eauto]|intros ?]; eapply EE_bind; [prm0|intros ?; prm0]]; lia|].
    cbn beta.  intros G k u p q (_ & p1 & H1 & _ & p2 & H2 & H3). exists p1, p2. split; [exact H1|]. split; [destruct op; exact H2|exact H3].
Qed.
Lemma EE_members es : (forall x, In x es -> (forall e, esize e <= esize x -> code_at e) /\ member_supported x = true /\ incl (names x) C) ->
  EE P C (list_sum (map fns es)) (each (visit_class_item visit slot ck) es) (fun G k _ p q => members_code lit code G k (u8_of slot) es p q).
Proof.
  induction es as [|x es IH]; intros H; cbn [each members_code].
  - eapply ED_post; [apply ED_ret|]. cbn beta. intros G k a p q (_ & ->). reflexivity.
  - destruct (H x (or_introl eq_refl)) as (H1 & H2 & H3). eapply (EE_then lit (fns x) (list_sum (map fns es))); [apply EE_member; auto|apply IH; intros y Hy; apply H; right; exact Hy|reflexivity|]. cbn beta. eauto.
Qed.
End Member.
Lemma members_supported items : forallb (fun x =>
        match x with
        | EFnDecl f args ret body =>
            signature_ok args ret body && (negb (String.eqb f "new") || constructor_ok body) &&
            match body with
            | EBlock es t => forallb (supported (fn_place (fn_kept body))) es && opt_all (supported (fn_place (fn_kept body))) t
            | _ => supported (fn_place (fn_kept body)) body
            end
        | EOpDecl _ args ret body =>
            signature_ok args ret body &&
            match body with
            | EBlock es t => forallb (supported (fn_place (fn_kept body))) es && opt_all (supported (fn_place (fn_kept body))) t
            | _ => supported (fn_place (fn_kept body)) body
            end
        | _ => false
        end) items = true -> forall x, In x items -> member_supported x = true.
Proof. rewrite forallb_forall. intros H x Hx. specialize (H x Hx). destruct x; exact H. Qed.
Lemma in_in G : g_in (g_in G) = g_in G.
Proof. unfold g_in. rewrite deep_deep. reflexivity. Qed.
Lemma at_class name items base : (forall e, esize e < esize (EClassDecl name items base) -> code_at e) -> code_at (EClassDecl name items base).
Proof.
  intros IB. split; [intros P S ST; cbn [supported] in S; rewrite ST in S; discriminate S|]. intros P S ST CH. pose proof S as S0. cbn [supported] in S. apply andb_prop in S. destruct S as (S1 & S2). apply andb_prop in S1. destruct S1 as (S1 & S3).
  pose proof (members_supported items S2) as SM. clear S1 S2. set (e0 := EClassDecl name items base) in *. unfold stmt_code. cbn [adds e0]. 
  set (nb := match base with Some b => fns b | None => 0 end). set (ni := list_sum (map fns items)).
  assert (NE : fns e0 = nb + ni) by (unfold nb, ni; subst e0; cbn [fns]; destruct base; lia).
  set (item := fun v => (match sv_state v with SClass true => fail CLASS_ALREADY_DECLARED | SClass false => m_set_state name (SClass true) | _ => ret tt end) ;;;
    emit_c OpInheritClass (CSymbol name) ;;; emit_u8 OpStoreLocal (u8_of (sv_slot v)) ;;; each (visit_class_item visit (sv_slot v) (match base with Some _ => CDerived | None => CBase end)) items).
  set (m := match base with Some b => visit b | None => visit_ident ANY_CLASS end ;;; (slot <- m_add_local SUPER (state_initialized true) ;; emit_u8 OpStoreLocal (u8_of slot) ;;; l <- m_local name ;; match l with None => fail INTERNAL_COMPILER_ERROR | Some v => item v end)).
  assert (EX : forall s, bind (m_push_scope KBlock None) (fun _ => bind m (fun _ => bind visit_close_upvalues (fun _ => bind m_pop_scope (fun _ => ret tt)))) s = visit e0 s).
  { intros s. unfold e0, m, item. cbn [visit]. unfold visit_class. unfold bind. destruct (m_push_scope KBlock None s) as [[? s1]| | |]; [|reflexivity..].
    destruct ((match base with Some b => visit b | None => visit_ident ANY_CLASS end) s1) as [[? s2]| | |]; [|reflexivity..].
    destruct (m_add_local SUPER (state_initialized true) s2) as [[slot s3]| | |]; [|reflexivity..]. destruct (emit_u8 OpStoreLocal (u8_of slot) s3) as [[? s4]| | |]; [|reflexivity..].
    destruct (m_local name s4) as [[[v|] s5]| | |]; [|reflexivity..].
    destruct ((match sv_state v with SClass true => fail CLASS_ALREADY_DECLARED | SClass false => m_set_state name (SClass true) | _ => ret tt end) s5) as [[? s6]| | |]; [|reflexivity..].
    destruct (emit_c OpInheritClass (CSymbol name) s6) as [[? s7]| | |]; [|reflexivity..]. destruct (emit_u8 OpStoreLocal (u8_of (sv_slot v)) s7) as [[? s8]| | |]; [|reflexivity..].
    destruct (each _ items s8) as [[? s9]| | |]; reflexivity. }
  assert (MV : moving [] (captures e0) (fns e0) (visit e0)).
  { apply (moving_T (names e0)). intros b N I. exact (visit_mono e0 P S0 b (captures e0) N (incl_refl _) I). }
  eapply ED_ext; [exact EX|]. rewrite NE in *.
  set (C := captures e0) in *. set (Q := stmt_of P).
  assert (HI : forall v, EE Q C ni (item v) (fun G k _ p q => exists p1 p2, at_const (g_bc G) OpInheritClass (CSymbol name) p p1 /\ at_ (g_bc G) p1 (IByte OpStoreLocal (u8_of (sv_slot v))) p2 /\ members_code lit code G k (u8_of (sv_slot v)) items p2 q)).
  { intros v. unfold item. assert (ST' : EE Q C 0 (match sv_state v with SClass true => fail CLASS_ALREADY_DECLARED | SClass false => m_set_state name (SClass true) | _ => ret tt end) (fun _ _ _ p q => p = q)).
    { destruct (sv_state v) as [? ?|?|[|]]; first [apply ED_fail|apply EE_set_state|eapply ED_post; [apply ED_ret|]; cbn beta; intros G k a p q (_ & X); exact X]. }
    assert (ME : EE Q C ni (each (visit_class_item visit (sv_slot v) (match base with Some _ => CDerived | None => CBase end)) items) (fun G k _ p q => members_code lit code G k (u8_of (sv_slot v)) items p q)).
    { apply (EE_members Q C (sv_slot v)). intros x Hx. split; [|split].
      - intros e L. apply IB. unfold e0. rewrite size_EClassDecl. pose proof (lsize_in _ _ Hx). lia.
      - exact (SM x Hx).
      - intros y Hy. unfold C, e0. cbn [captures]. apply in_app_iff. right. apply in_flat_map. eauto. }
    eapply ED_post; [eapply ED_num; [|eapply EE_bind; [exact ST'|intros ?]; eapply EE_bind; [prm0|intros ?]; eapply EE_bind; [prm0|intros ?; exact ME]]; reflexivity|].
    cbn beta. intros G k u p q (_ & p0 & -> & _ & p1 & H1 & _ & p2 & H2 & H3). rewrite !Nat.add_0_r in H3. eauto. }
  assert (HM : ED Q ["super"] C ni (slot <- m_add_local SUPER (state_initialized true) ;; emit_u8 OpStoreLocal (u8_of slot) ;;; l <- m_local name ;; match l with None => fail INTERNAL_COMPILER_ERROR | Some v => item v end)
    (fun G k _ p q => exists fl j fj p1 p2 p3, has_room (drop 1 G) /\ G = extend [("super", fl)] (drop 1 G) /\ at_ (g_bc G) p (IByte OpStoreLocal (List.length (g_vars (drop 1 G)))) p1 /\ at_const (g_bc G) OpInheritClass (CSymbol name) p1 p2 /\
      lookup name (g_vars G) = Some (j, fj) /\ at_ (g_bc G) p2 (IByte OpStoreLocal j) p3 /\ members_code lit code G k j items p3 q)).
  { set (R3 := fun (G : ctx) (k : nat) (_ : unit) (p q : nat) => exists j fj p2 p3, at_const (g_bc G) OpInheritClass (CSymbol name) p p2 /\ lookup name (g_vars G) = Some (j, fj) /\ at_ (g_bc G) p2 (IByte OpStoreLocal j) p3 /\ members_code lit code G k j items p3 q).
    assert (H3 : EE Q C ni (l <- m_local name ;; match l with None => fail INTERNAL_COMPILER_ERROR | Some v => item v end) R3).
    { eapply (EE_seq lit 0 ni) with (R2 := fun a G k _ p q => found G name a -> R3 G k tt p q); [apply EE_local| |reflexivity|].
      - intros [v|]; [|apply ED_fail]. eapply ED_post; [apply HI|]. cbn beta. intros G k u p q (p1 & p2 & H1 & H2 & H3) ((fj & H4) & H5). rewrite H5 in *. exists (sv_slot v), fj, p1, p2. auto.
      - cbn beta. intros G k [] p q a p1 (<- & H1) H2. rewrite Nat.add_0_r in H2. exact (H2 H1). }
    eapply (ED_seq lit ["super"] [] 0 ni) with (R2 := fun slot G k _ p q => exists p1, at_ (g_bc G) p (IByte OpStoreLocal (u8_of slot)) p1 /\ R3 G k tt p1 q); [apply ED_add_local| |reflexivity|reflexivity|].
    - intros slot. eapply (EE_then lit 0 ni); [prm0|exact H3|reflexivity|]. cbn beta. intros G k [] p q _ p1 H1 H2. rewrite Nat.add_0_r in H2. eauto.
    - cbn beta. intros G k b p q slot p1 (<- & HA) (p2 & H1 & (j & fj & p3 & p4 & H4)). cbn [List.length] in HA. rewrite drop_0 in HA. rewrite (added_small _ _ _ HA) in H1. destruct HA as ((fl & EG) & ES & RM & _).
      rewrite ES in H1. rewrite Nat.add_0_r in H4. exists fl, j, fj, p2, p3, p4. tauto. }
  assert (HB : EE Q C nb (match base with Some b => visit b | None => visit_ident ANY_CLASS end)
    (fun G k _ p q => match base with Some b => kept (first_of P) b (g_vars G) (g_loop G) -> code (g_in G) k b p q | None => loads G "Any" p q end)).
  { assert (FQ : first_of Q = first_of P) by (unfold Q, first_of, stmt_of; cbn; rewrite CH; reflexivity). destruct base as [b|]; [|apply EE_ident]. rewrite <- FQ. apply (EE_first lit Q C b).
    - apply IB. unfold e0. rewrite size_EClassDecl. cbn [osize]. lia.
    - rewrite FQ. exact S3.
    - intros y Hy. unfold C, e0. cbn [captures]. apply in_app_iff. auto. }
  set (RB := fun (G : ctx) (k : nat) (_ : unit) (p q : nat) => exists p0, match base with Some b => kept (first_of P) b (g_vars (drop 1 G)) (g_loop (drop 1 G)) -> code (g_in (drop 1 G)) k b p p0 | None => loads (drop 1 G) "Any" p p0 end /\
    exists fl j fj p1 p2 p3, has_room (drop 1 G) /\ G = extend [("super", fl)] (drop 1 G) /\ at_ (g_bc G) p0 (IByte OpStoreLocal (List.length (g_vars (drop 1 G)))) p1 /\ at_const (g_bc G) OpInheritClass (CSymbol name) p1 p2 /\
      lookup name (g_vars G) = Some (j, fj) /\ at_ (g_bc G) p2 (IByte OpStoreLocal j) p3 /\ members_code lit code G (k + nb) j items p3 q).
  eapply ED_post; [eapply (EE_block lit P ["super"] C (nb + ni) m RB); [intros s u s' W E; rewrite EX in E; exact (MV _ _ _ W E)|]|].
  - unfold m. eapply (ED_then lit [] ["super"] nb ni); [exact HB|exact HM|reflexivity|reflexivity|]. cbn beta. intros G k b p q a p1 H1 H2.
    exact (ex_intro _ p1 (conj H1 H2)).
  - cbn beta. intros G k u p q (vs & p1 & V1 & V2 & (p2 & H1 & fl & j & fj & p3 & p4 & p5 & H2 & H3 & H4 & H5 & H6 & H7 & H8) & H9) HK. cbn [List.length]. rewrite drop_0. split; [|reflexivity]. unfold e0. cbn [code]. rewrite in_in.
    destruct vs as [|[x fx] [|? ?]]; try discriminate V1. injection V1 as ->.
    rewrite (drop_extend [("super", fx)] (g_in G) 1 eq_refl) in *. assert (fl = fx) as -> by (apply (f_equal g_vars) in H3; cbn in H3; congruence).
    exists fx, j, fj, p2, p3, p4, p5, p1. split; [exact H2|]. split; [|tauto]. destruct base as [b|]; [|exact H1]. apply H1. 
    eapply kept_sub; [| | | | | |exact HK]; auto.
    + intros y Hy. unfold e0. cbn [captures]. apply in_app_iff. auto.
Qed.
Lemma at_none e : (forall P, supported P e = false) -> code_at e.
Proof. intros H. split; intros P S; rewrite H in S; discriminate S. Qed.
Theorem visit_code : forall e, code_at e.
Proof.
  apply expr_size_ind. intros e IH. destruct e; try (apply at_none; reflexivity); try exact (at_atom lit _ IH Logic.I).
  - apply at_anonymous. intros e' L. apply IH. sz.
  - eapply (at_object lit _ IH); reflexivity.
  - eapply (at_list lit _ IH); reflexivity.
  - eapply (at_null lit _ IH); reflexivity.
  - eapply (at_error lit _ IH); reflexivity.
  - eapply (at_field lit _ IH); reflexivity.
  - eapply (at_super_access lit _ IH); reflexivity.
  - eapply (at_call lit _ IH); reflexivity.
  - eapply (at_super_call lit _ IH); reflexivity.
  - eapply (at_index lit _ IH); reflexivity.
  - eapply (at_is lit _ IH); reflexivity.
  - eapply (at_prefix lit _ IH); reflexivity.
  - eapply (at_binary lit _ IH); reflexivity.
  - eapply (at_assign lit _ IH); reflexivity.
  - apply at_var. apply IH. sz.
  - apply at_fn. intros e' L. apply IH. sz.
  - apply at_op. intros e' L. apply IH. sz.
  - apply at_class. exact IH.
  - apply at_import.
  - apply at_export. apply IH. rewrite size_EExportDecl. lia.
  - eapply (at_if lit _ IH); reflexivity.
  - destruct e2; try (apply at_none; reflexivity). apply at_while. exact IH.
  - apply at_for. exact IH.
  - destruct e; try (apply at_none; reflexivity). apply at_loop. exact IH.
  - eapply (at_block lit _ IH); reflexivity.
  - exact (at_break lit _ IH eq_refl).
  - exact (at_continue lit _ IH eq_refl).
  - eapply (at_return lit _ IH); reflexivity.
Qed.
End All.
