(** Every visitor tracks scopes as the static rules say. *)
From Coq Require Import Lia.
From Verif.Model Require Import Compiler.
From Verif.Spec Require Import StaticSpec StaticTop.
From Verif.Proofs Require Import CodecP ScopeP CaptureP ExprInd WellFormedP StaticP.

(** [m] adds the variables [D] to the innermost scope, and runs to its end only if the rules [A] and
    [P] hold where it stands. *)
Definition sees {T} (m : M T) (D : env) (A : env -> bool) (P : place -> bool) : Prop :=
  forall s a s' c k vs scs o, m s = Ok (a, s') -> view s = (c, VS k (List.length scs) vs :: scs) :: o ->
    view s' = (c, VS k (List.length scs) (D ++ vs) :: scs) :: o /\
    A (vs ++ rest scs o) = true /\ P (pl c (k :: map vs_kind scs)) = true.
Definition yes {T} (_ : T) : bool := true.
Definition vis (x : expr) : Prop := sees (visit x) (decls x) (fun E => assigns_ok E x) (fun p => placed p x).

Lemma s_conv {T} (m : M T) D A P D' A' P' : sees m D A P -> D = D' ->
  (forall E, A E = true -> A' E = true) -> (forall p, P p = true -> P' p = true) -> sees m D' A' P'.
Proof. intros H <- HA HP s a s' c k vs scs o E V. destruct (H _ _ _ _ _ _ _ _ E V) as (? & ? & ?). auto. Qed.
Lemma s_quiet {T} (m : M T) : quiet m -> sees m [] yes yes.
Proof. intros Q s a s' c k vs scs o E V. split; [|split; reflexivity]. rewrite (Q _ _ _ E). exact V. Qed.
Lemma s_bind {T U} (m : M T) (f : T -> M U) D1 A1 P1 D2 A2 P2 :
  sees m D1 A1 P1 -> (forall a, sees (f a) D2 A2 P2) ->
  sees (bind m f) (D2 ++ D1) (fun E => A1 E && A2 (D1 ++ E)) (fun p => P1 p && P2 p).
Proof.
  intros Hm Hf s b s' c k vs scs o H V. apply bind_ok in H as (a & s1 & H1 & H2).
  destruct (Hm _ _ _ _ _ _ _ _ H1 V) as (V1 & A & P). destruct (Hf _ _ _ _ _ _ _ _ _ H2 V1) as (V2 & A' & P').
  rewrite A, P, <- app_assoc in *. auto.
Qed.
Lemma s_add x st : sees (m_add_local x st) [(x, mutable_state st)] yes yes.
Proof. intros s a s' c k vs scs o E V. split; [|split; reflexivity]. eapply view_add in E; [|exact V]. exact E. Qed.
Lemma s_fail {T} e D A P : sees (@fail T e) D A P.
Proof. intros s a s' c k vs scs o E. discriminate. Qed.
Lemma s_panic {T} D A P : sees (@panic T) D A P.
Proof. intros s a s' c k vs scs o E. discriminate. Qed.

(** Something done in a scope of its own. *)
Lemma s_scope {T U} kind entry (m : M T) (f : T -> scope -> M U) D A P :
  sees m D A P -> (forall a sc, quiet (f a sc)) ->
  sees (m_push_scope kind entry ;;; a <- m ;; sc <- m_pop_scope ;; f a sc)
    [] A (fun p => P (match kind with KBlock => inside p | KLoop => looping p end)).
Proof.
  intros Hm Hf s b s' c k vs scs o H V.
  apply bind_ok in H as (u & s1 & H1 & H). apply bind_ok in H as (a & s2 & H2 & H). apply bind_ok in H as (sc & s3 & H3 & H4).
  eapply view_push in H1; [|exact V]. destruct (Hm _ _ _ _ _ _ _ _ H2 H1) as (V2 & HA & HP).
  eapply view_pop in H3; [|exact V2]. split; [|split].
  - rewrite (Hf _ _ _ _ _ H4). exact H3.
  - cbn [app] in HA. now rewrite rest_scope in HA.
  - cbn [map vs_kind] in HP. destruct kind; [rewrite pl_block in HP|rewrite pl_loop in HP]; exact HP.
Qed.

(** A function body. *)
Lemma s_function k (m : M unit) D A P :
  sees m D A P ->
  sees (push_context k ;;; m ;;; pop_context) [] A (fun _ => P (pl k [KBlock])).
Proof.
  intros Hm s b s' c k0 vs scs o H V.
  apply bind_ok in H as (u & s1 & H1 & H). apply bind_ok in H as (a & s2 & H2 & H3).
  apply push_context_inv in H1. destruct (Hm s1 a s2 k KBlock [] [] (view s) H2 H1) as (V2 & HA & HP).
  eapply pop_context_inv in H3; [|exact V2]. split; [rewrite H3; exact V|]. split; [|exact HP].
  cbn [app] in HA. rewrite V, rest_ctx, rest_scope in HA. exact HA.
Qed.

Lemma s_each (f : expr -> M unit) l : (forall x, In x l -> sees (f x) (decls x) (fun E => assigns_ok E x) (fun p => placed p x)) ->
  sees (each f l) (decls_seq decls l) (fun E => seq_ok assigns_ok E l) (fun p => forallb (placed p) l).
Proof.
  induction l as [|x l IH]; intros H; cbn [each].
  - apply s_quiet, q_ret.
  - eapply s_conv; [apply s_bind; [apply H; now left|intros; apply IH; intros; apply H; now right]|reflexivity| |]; auto.
Qed.
Lemma s_scan e : sees (scan_expr e) (hoisted [e]) yes yes.
Proof.
  induction e; cbn [scan_expr]; try (apply s_quiet, q_ret).
  - eapply s_conv; [apply s_bind; [apply s_add|intros; apply s_quiet, q_ret]|reflexivity| |]; auto.
  - eapply s_conv; [apply s_bind; [apply s_add|intros; apply s_quiet, q_ret]|reflexivity| |]; auto.
  - exact IHe.
Qed.
Lemma immutable_app a b : immutable (a ++ b) = immutable b ++ immutable a.
Proof. unfold immutable. now rewrite map_app, rev_app_distr. Qed.
Lemma immutable_cons a b : immutable (a :: b) = immutable b ++ [(a, false)].
Proof. reflexivity. Qed.
Lemma hoisted_cons x l : hoisted (x :: l) = hoisted l ++ hoisted [x].
Proof. unfold hoisted. cbn [collect]. destruct (hoisted_name x); [apply immutable_cons|now rewrite app_nil_r]. Qed.
Lemma s_scan_items es t : sees (scan_item_decls es t) (hoisted (items_of es t)) yes yes.
Proof.
  unfold scan_item_decls. change (block_items es t) with (items_of es t). induction (items_of es t) as [|x l IH]; cbn [each].
  - apply s_quiet, q_ret.
  - eapply s_conv; [apply s_bind; [apply s_scan|intros; apply IH]|symmetry; apply hoisted_cons| |]; auto.
Qed.
Lemma s_add_locals l : sees (add_locals l) (immutable l) yes yes.
Proof.
  induction l as [|x l IH]; cbn [add_locals]; [apply s_quiet, q_ret|].
  eapply s_conv; [apply s_bind; [apply s_add|intros; apply s_bind; [apply IH|intros; apply s_quiet, q_ret]]| | |]; auto.
Qed.
Lemma s_args b args : sees (visit_args b args) (params args ++ if b then [("", false)] else []) yes yes.
Proof.
  assert (H : sees (each (fun arg => slot <- m_add_local (fa_name arg) (SLocal false true) ;; visit_local_type (fa_type arg) slot) args)
                   (params args) yes yes).
  { induction args as [|x l IH]; cbn [each]; [apply s_quiet, q_ret|].
    eapply s_conv; [apply s_bind; [apply s_bind; [apply s_add|intros; apply s_quiet, q_local_type]|intros; apply IH]| | |]; auto. }
  unfold visit_args. eapply s_conv; [apply s_bind; [|intros; exact H]| | |].
  - instantiate (3 := if b then [("", false)] else []). instantiate (1 := yes). instantiate (1 := yes).
    destruct b; [|apply s_quiet, q_ret].
    eapply s_conv; [apply s_bind; [apply s_add|intros; apply s_quiet, q_ret]| | |]; auto.
  - reflexivity.
  - auto.
  - auto.
Qed.

(** Statements of a block. *)
Definition last_decls (t : option expr) : env := match t with Some x => decls x | None => [] end.
Definition body_places (p : place) (es : list expr) (t : option expr) : bool :=
  forallb (placed p) es && match t with Some x => placed p x | None => true end.
Lemma s_block_body es t : (forall x, In x es -> vis x) -> (forall x, t = Some x -> vis x) ->
  sees (visit_block_body visit es t) (last_decls t ++ decls_seq decls es)
    (fun E => statements_ok assigns_ok t E es) (fun p => body_places p es t).
Proof.
  intros H1 H2. unfold visit_block_body.
  assert (HE : sees (each (fun e => visit e ;;; emit OpPop) es) (decls_seq decls es)
                 (fun E => seq_ok assigns_ok E es) (fun p => forallb (placed p) es)).
  { apply s_each. intros x Hx. eapply s_conv; [apply s_bind; [apply H1; exact Hx|intros; apply s_quiet, q_emit]|reflexivity| |].
    - cbn beta. intros E. now rewrite andb_true_r.
    - cbn beta. intros E. now rewrite andb_true_r. }
  assert (HT : sees (match t with Some e => visit e | None => emit OpPushUnit end) (last_decls t)
                 (fun E => match t with Some x => assigns_ok E x | None => true end)
                 (fun p => match t with Some x => placed p x | None => true end)).
  { destruct t; [apply H2; reflexivity|apply s_quiet, q_emit]. }
  eapply s_conv; [apply s_bind; [exact HE|intros; exact HT]|reflexivity| |].
  - cbn beta. clear. induction es as [|x es IH]; intros E; cbn [seq_ok decls_seq statements_ok app]; [auto|].
    rewrite <- app_assoc, <- andb_assoc. intros H. apply andb_prop in H as [Hx H]. rewrite Hx. apply IH, H.
  - auto.
Qed.

Ltac nil := change (@app (string * bool) []) with (fun l : env => l) in *; cbv beta in *.
Ltac conj := first [assumption | reflexivity | (apply andb_true_intro; split; conj) | idtac].
Ltac fin := cbv beta; unfold yes; cbn [app]; rewrite ?app_nil_r, <- ?app_assoc; intros;
  repeat match goal with H : _ && _ = true |- _ => apply andb_prop in H as [? H] end; cbn [app] in *; rewrite ?app_nil_r, <- ?app_assoc in *;
  conj.
Ltac sg IH := cbv beta; lazymatch goal with
  | |- sees (visit _) _ _ _ => apply IH; esz
  | |- sees (m_add_local _ _) _ _ _ => apply s_add
  | |- sees (add_locals _) _ _ _ => apply s_add_locals
  | |- sees (fail _) _ _ _ => apply s_fail
  | |- sees (bind _ _) _ _ _ => apply s_bind; [sg IH | intros; sg IH]
  | |- sees (each visit _) _ _ _ => apply s_each; intros; apply IH; esz
  | |- _ => apply s_quiet; qt
  end.
Ltac sgo IH := eapply s_conv; [sg IH | fin | fin | fin].

Lemma pl_inside_fn k : match k with KScript | KModule => False | _ => True end ->
  pl k [KBlock] = function (owner_of k) /\ inside (function (owner_of k)) = function (owner_of k).
Proof. now destruct k. Qed.

Definition kind_of (k : fn_kind) : owner :=
  match k with FkConstructor _ => InConstructor | FkMethod => InMethod | _ => InFunction end.
Definition receiver_of (k : fn_kind) : env := match k with FkFunction | FkStaticMethod => [("", false)] | _ => [] end.

Ltac fw IH H V :=
  cbv beta iota in H;
  lazymatch type of H with
  | bind _ _ _ = Ok _ => let H1 := fresh "H1" in let x := fresh "x" in let s1 := fresh "s" in
      apply bind_ok in H as (x & s1 & H1 & H); fw IH H1 V; fw IH H V
  | m_push_scope _ _ _ = _ => eapply view_push in H; [|exact V]; clear V; rename H into V
  | m_pop_scope _ = _ => eapply view_pop in H; [|exact V]; clear V; rename H into V
  | push_context _ _ = _ => apply push_context_inv in H; rewrite V in H; clear V; rename H into V
  | pop_context _ = _ => eapply pop_context_inv in H; [|exact V]; clear V; rename H into V
  | fail _ _ = _ => discriminate H
  | panic _ = _ => discriminate H
  | ?m _ = Ok _ => let Q := fresh "Q" in
      first
      [ assert (Q : quiet m) by (solve [qt]); apply Q in H; clear Q; rewrite V in H; clear V; rename H into V
      | eassert (Q : sees m _ _ _) by (first [eassumption | sg IH]);
        specialize (Q _ _ _ _ _ _ _ _ H V); clear H V; cbv beta in Q;
        let A := fresh "A" in let P := fresh "P" in destruct Q as (V & A & P)
      | match m with match ?x with _ => _ end => destruct x; fw IH H V end ]
  end.
Ltac fin2 V := cbv beta in *; unfold yes in *; cbn [app map vs_kind] in *;
  repeat rewrite ?app_nil_r, <- ?app_assoc, ?rest_scope, ?rest_ctx, ?pl_block, ?pl_loop in *; cbn [app] in *;
  split; [exact V|split; conj].

Lemma s_block b es t : (forall x, In x es -> vis x) -> (forall x, t = Some x -> vis x) ->
  sees (visit_block visit b es t) [] (fun E => block_ok assigns_ok E es t) (fun p => body_places (inside p) es t).
Proof.
  intros H1 H2 s a s' c k vs scs o H V. pose proof (s_block_body es t H1 H2) as HB. pose proof (s_scan_items es t) as HS.
  unfold visit_block in H. assert (IH := I). fw IH H V. fin2 V.
Qed.
Lemma s_fn_block kd args es t body D A P :
  sees body D A P ->
  sees (visit_fn_block kd args es t body) [] (fun E => A (hoisted (items_of es t) ++ params args ++ receiver_of kd ++ E)) (fun p => P (inside p)).
Proof.
  intros HB s a s' c k vs scs o H V. pose proof (s_scan_items es t) as HS. unfold visit_fn_block in H.
  assert (HA := s_args (match kd with FkFunction | FkStaticMethod => true | _ => false end) args).
  replace (if match kd with FkFunction | FkStaticMethod => true | _ => false end then [("", false)] else []) with (receiver_of kd) in HA by now destruct kd.
  assert (Q1 : quiet (match kd with FkConstructor CDerived => assert_super_call es t | _ => ret tt end)) by qt.
  assert (Q2 : quiet (match kd with
   | FkConstructor _ => l <- m_local SELF ;; match l with None => panic | Some v => emit OpPop ;;; emit_u8 OpLoadLocal (u8_of (sv_slot v)) ;;; emit OpReturn end
   | _ => visit_return end)) by qt.
  assert (IH := I). fw IH H V. fin2 V.
Qed.

Definition body_vis (b : expr) : Prop :=
  vis b /\ forall es t, b = EBlock es t -> (forall x, In x es -> vis x) /\ (forall x, t = Some x -> vis x).
Lemma s_compile_fn args rt kd b : body_vis b ->
  sees (compile_fn visit args rt kd b) [] (fun E => body_ok assigns_ok (params args ++ receiver_of kd ++ E) b)
    (fun _ => placed (function (kind_of kd)) b).
Proof.
  intros [HV HB] s a s' c k vs scs o H V. unfold compile_fn in H.
  apply bind_ok in H as (u & s1 & H1 & H).
  assert (E : s1 = s). { destruct kd, rt; try discriminate H1; injection H1 as _ <-; reflexivity. } subst s1. clear H1.
  assert (HM : sees (match b with
                     | EBlock es t => visit_fn_block kd args es t (visit_block_body visit es t)
                     | _ => visit_fn_block kd args [] (Some b) (visit b)
                     end) [] (fun E => body_ok assigns_ok (params args ++ receiver_of kd ++ E) b)
                   (fun p => match b with EBlock es t => body_places (inside p) es t | _ => placed (inside p) b end)).
  { pose proof (s_fn_block kd args [] (Some b) (visit b) _ _ _ HV) as HN.
    destruct b; try exact HN. clear HN. destruct (HB _ _ eq_refl) as [Ha Hb].
    exact (s_fn_block kd args expressions trailing _ _ _ _ (s_block_body expressions trailing Ha Hb)). }
  destruct (s_function _ _ _ _ _ HM _ _ _ _ _ _ _ _ H V) as (V' & HA & HP). split; [exact V'|]. split; [exact HA|].
  assert (X : pl (match kd with FkMethod => KMethod rt | FkConstructor _ => KConstructor | _ => KFunction rt end) [KBlock]
              = function (kind_of kd)) by now destruct kd. cbv beta in HP. rewrite X in HP. clear X.
  assert (X : inside (function (kind_of kd)) = function (kind_of kd)) by now destruct kd. rewrite X in HP.
  destruct b; try exact HP.
Qed.
Lemma s_method x args rt b kd : body_vis b ->
  sees (visit_method visit x args rt b kd) [] (fun E => body_ok assigns_ok (params args ++ receiver_of kd ++ E) b)
    (fun _ => placed (function (kind_of kd)) b).
Proof.
  intros HB s a s' c k vs scs o H V. pose proof (s_compile_fn args rt kd b HB) as HC. unfold visit_method in H.
  assert (IH := I). fw IH H V. fin2 V.
Qed.
Lemma s_op_decl op args rt b m : body_vis b ->
  sees (visit_op_decl visit op args rt b m) [] (fun E => body_ok assigns_ok (if m then method_env args E else function_env args E) b)
    (fun _ => placed (function (if m then InMethod else InFunction)) b).
Proof.
  intros HB s a s' c k vs scs o H V. pose proof (s_compile_fn args rt (if m then FkMethod else FkFunction) b HB) as HC.
  unfold visit_op_decl in H. assert (IH := I). destruct m; fw IH H V; fin2 V.
Qed.
Lemma s_anonymous args rt b : body_vis b ->
  sees (visit_anonymous_fn visit args rt b) [] (fun E => body_ok assigns_ok (function_env args E) b)
    (fun _ => placed (function InFunction) b).
Proof.
  intros HB s a s' c k vs scs o H V. pose proof (s_compile_fn args rt FkFunction b HB) as HC.
  unfold visit_anonymous_fn in H. assert (IH := I). fw IH H V; fin2 V.
Qed.
Lemma s_fn_decl x args rt b : body_vis b ->
  sees (visit_fn_decl visit x args rt b) [] (fun E => body_ok assigns_ok (function_env args E) b)
    (fun _ => placed (function InFunction) b).
Proof.
  intros HB s a s' c k vs scs o H V. pose proof (s_compile_fn args rt FkFunction b HB) as HC.
  unfold visit_fn_decl in H. assert (IH := I).
  apply bind_ok in H as (x1 & s1 & H1 & H). fw IH H1 V.
  apply bind_ok in H as (x2 & s2 & H2 & H). fw IH H2 V.
  apply bind_ok in H as (x3 & s3 & H3 & H). fw IH H3 V.
  apply bind_ok in H as (l & s4 & HL & H). pose proof HL as HL'. apply local_inv in HL' as (-> & _).
  destruct l as [v|]; [|discriminate]. destruct (sv_state v) as [|[]|] eqn:ES; try discriminate.
  apply bind_ok in H as (x5 & s5 & H5 & H). eapply view_set_state in H5; [|exact HL|unfold sv_is_mutable; now rewrite ES].
  rewrite V in H5. clear V. rename H5 into V. fw IH H V. fin2 V.
Qed.

Definition item_vis (item : expr) : Prop :=
  match item with EFnDecl _ _ _ b | EOpDecl _ _ _ b => body_vis b | _ => True end.
Definition item_placed (item : expr) : bool :=
  match item with
  | EFnDecl x args _ b => placed (function (member_owner x args)) b
  | EOpDecl _ _ _ b => placed (function InMethod) b
  | _ => false
  end.
Lemma has_self_param args : has_self args = match self_param args with Some _ => true | None => false end.
Proof. destruct args; [reflexivity|]. cbn [has_self self_param]. unfold SELF. now destruct (String.eqb _ _). Qed.
Lemma s_class_item slot ck item : item_vis item ->
  sees (visit_class_item visit slot ck item) [] (fun E => class_item_ok assigns_ok E item) (fun _ => item_placed item).
Proof.
  intros HI s a s' c k vs scs o H V. assert (IH := I).
  destruct item; cbn [visit_class_item item_vis class_item_ok item_placed] in *; try discriminate.
  - unfold visit_class_fn in H. unfold member_owner. rewrite has_self_param. destruct (self_param args) as [p|].
    + destruct (fa_type p); [discriminate|]. unfold NEW in H.
      pose proof (s_method name args return_ item (if String.eqb name "new" then FkConstructor ck else FkMethod) HI) as HM.
      replace (kind_of (if String.eqb name "new" then FkConstructor ck else FkMethod))
        with (if String.eqb name "new" then InConstructor else InMethod) in HM by now destruct (String.eqb name "new").
      replace (receiver_of (if String.eqb name "new" then FkConstructor ck else FkMethod)) with (@nil (string * bool)) in HM
        by now destruct (String.eqb name "new").
      unfold method_env.
      fw IH H V. fin2 V.
    + destruct (String.eqb name NEW); [discriminate|].
      pose proof (s_method name args return_ item FkStaticMethod HI) as HM. unfold function_env.
      fw IH H V. fin2 V.
  - unfold visit_class_op in H. destruct (self_param args) as [p|]; [|discriminate]. destruct (fa_type p); [discriminate|].
    pose proof (s_op_decl op args return_ item true HI) as HM. fw IH H V. fin2 V.
Qed.
Lemma s_items slot ck items : (forall x, In x items -> item_vis x) ->
  sees (each (visit_class_item visit slot ck) items) [] (fun E => forallb (class_item_ok assigns_ok E) items) (fun _ => forallb item_placed items).
Proof.
  induction items as [|x l IH]; intros H; cbn [each]; [apply s_quiet, q_ret|].
  eapply s_conv; [apply s_bind; [apply s_class_item, H; now left|intros; apply IH; intros; apply H; now right]|reflexivity| |]; auto.
Qed.
Lemma s_class x items base : (forall b, base = Some b -> vis b) -> (forall i, In i items -> item_vis i) ->
  sees (visit_class visit x items base) [] (fun E => assigns_ok E (EClassDecl x items base)) (fun p => placed p (EClassDecl x items base)).
Proof.
  intros HB HI s a s' c k vs scs o H V. assert (IH := I). unfold visit_class in H.
  assert (HB' : sees (match base with Some b => visit b | None => visit_ident ANY_CLASS end)
                  (last_decls base) (fun E => match base with Some b => assigns_ok E b | None => true end)
                  (fun p => match base with Some b => placed p b | None => true end)).
  { destruct base as [b|]; [exact (HB b eq_refl)|apply s_quiet, q_ident]. }
  apply bind_ok in H as (x1 & s1 & H1 & H). fw IH H1 V.
  apply bind_ok in H as (x2 & s2 & H2 & H). fw IH H2 V.
  apply bind_ok in H as (x3 & s3 & H3 & H). fw IH H3 V.
  apply bind_ok in H as (x4 & s4 & H4 & H). fw IH H4 V.
  apply bind_ok in H as (l & s5 & HL & H). pose proof HL as HL'. apply local_inv in HL' as (-> & _).
  destruct l as [v|]; [|discriminate]. apply bind_ok in H as (x5 & s5 & H5 & H).
  assert (V' : view s5 = view s4).
  { destruct (sv_state v) as [|[]|[]] eqn:ES; try discriminate; try (injection H5 as _ <-; reflexivity).
    eapply view_set_state in H5; [exact H5|exact HL|unfold sv_is_mutable; now rewrite ES]. }
  rewrite V in V'. clear V H5. rename V' into V.
  pose proof (s_items (sv_slot v) (match base with Some _ => CDerived | None => CBase end) items HI) as HM.
  fw IH H V. fin2 V.
Qed.

Lemma view_env s c k d vs scs o : view s = (c, VS k d vs :: scs) :: o -> env_of (view s) = vs ++ rest scs o.
Proof. intros ->. unfold env_of. cbn [flat_map snd vs_vars]. unfold rest. now rewrite <- app_assoc. Qed.
Lemma local_mutability x s v s' : m_local x s = Ok (Some v, s') -> mutability x (env_of (view s)) = Some (sv_is_mutable v).
Proof. intros H. apply local_inv in H as (_ & c & o & E & L). unfold view. rewrite E, mutability_ctx, <- L. reflexivity. Qed.
Lemma upvalue_mutability x s s' i s1 c s2 d : m_local x s = Ok (None, s') -> m_resolve_upvalue x s' = Ok (Some i, s1) ->
  get_context s1 = Ok (c, s2) -> nth_error (cx_upvalues c) i = Some d -> mutability x (env_of (view s)) = Some (upvalue_is_mutable d).
Proof.
  intros H HR HC HN. apply local_inv in H as (-> & c0 & o & E & L). unfold m_resolve_upvalue in HR.
  destruct (resolve_upvalue x (cs_stack s)) as [[j st]|] eqn:R; [|discriminate]. injection HR as -> <-.
  unfold get_context in HC. cbn [cs_stack] in HC. destruct st as [|c' o']; [discriminate|]. injection HC as -> <-.
  apply resolve_mutability in R as (d' & N & HM). unfold view. rewrite E, mutability_ctx, <- L. rewrite E in HM. cbn [tl] in HM. congruence.
Qed.
Lemma s_assign_slot l a n m op rhs : vis rhs ->
  sees (assign_slot visit l a n m op rhs) (decls rhs) (fun E => m && assigns_ok E rhs) (fun p => placed p rhs).
Proof.
  intros HR s x s' c k vs scs o H V. unfold assign_slot in H. destruct m; [|discriminate]. assert (IH := I).
  assert (HR' : sees (visit rhs) (decls rhs) (fun E => assigns_ok E rhs) (fun p => placed p rhs)) by exact HR.
  destruct op; fw IH H V; fin2 V.
Qed.
Lemma s_assign_ident op x rhs : vis rhs ->
  sees (assign_ident visit op x rhs) (decls rhs)
    (fun E => match mutability x E with Some true => assigns_ok E rhs | _ => false end) (fun p => placed p rhs).
Proof.
  intros HR s y s' c k vs scs o H V. unfold assign_ident in H. pose proof (view_env _ _ _ _ _ _ _ V) as HE. rewrite <- HE.
  apply bind_ok in H as (l & s1 & HL & H). destruct l as [v|].
  - rewrite (local_mutability _ _ _ _ HL). apply local_inv in HL as (-> & _).
    destruct (s_assign_slot _ _ _ _ _ _ HR _ _ _ _ _ _ _ _ H V) as (V' & A & P). rewrite HE. split; [exact V'|]. split; [|exact P].
    apply andb_prop in A as [-> A]. exact A.
  - apply bind_ok in H as (u & s2 & HU & H). destruct u as [i|]; [|discriminate].
    apply bind_ok in H as (c0 & s3 & HC & H). destruct (nth_error (cx_upvalues c0) i) as [d|] eqn:HN; [|discriminate].
    rewrite (upvalue_mutability _ _ _ _ _ _ _ _ HL HU HC HN). apply local_inv in HL as (-> & _).
    apply q_resolve in HU. apply q_get_context in HC. rewrite HU in HC. rewrite V in HC.
    destruct (s_assign_slot _ _ _ _ _ _ HR _ _ _ _ _ _ _ _ H HC) as (V' & A & P). rewrite HE. split; [exact V'|]. split; [|exact P].
    apply andb_prop in A as [-> A]. exact A.
Qed.
Lemma s_isolated x : vis x -> sees (visit_isolated visit x) (decls x) (fun E => assigns_ok E x) (fun p => placed p x).
Proof.
  intros HX s y s' c k vs scs o H V. unfold visit_isolated in H. assert (IH := I).
  assert (HX' : sees (visit x) (decls x) (fun E => assigns_ok E x) (fun p => placed p x)) by exact HX.
  fw IH H V. fin2 V.
Qed.
Lemma s_call_args l : (forall x, In x l -> vis x) ->
  sees (visit_call_args visit l) (decls_seq decls l) (fun E => seq_ok assigns_ok E l) (fun p => forallb (placed p) l).
Proof.
  intros HX s y s' c k vs scs o H V. unfold visit_call_args in H. assert (IH := I).
  assert (HX' := s_each (visit_isolated visit) l (fun x Hx => s_isolated x (HX x Hx))).
  fw IH H V. fin2 V.
Qed.
Lemma s_object items : (forall k x, In (k, x) items -> vis x) ->
  sees (visit_object visit items) (decls_seq (fun p => match p with (_, x) => decls x end) items)
    (fun E => fields_ok assigns_ok E items) (fun p => forallb (fun q => match q with (_, x) => placed p x end) items).
Proof.
  intros HX. unfold visit_object.
  assert (HE : sees (each (fun p => match p with (k, e) =>
      emit_u8 OpDup 0 ;;; visit e ;;; emit_c OpStoreField (CSymbol k) ;;; emit OpPop end) items)
      (decls_seq (fun p => match p with (_, x) => decls x end) items) (fun E => fields_ok assigns_ok E items)
      (fun p => forallb (fun q => match q with (_, x) => placed p x end) items)).
  { induction items as [|[k x] l IH]; cbn [each]; [apply s_quiet, q_ret|].
    assert (H1 : sees (emit_u8 OpDup 0 ;;; visit x ;;; emit_c OpStoreField (CSymbol k) ;;; emit OpPop) (decls x)
               (fun E => assigns_ok E x) (fun p => placed p x)).
    { intros s y s' c k0 vs scs o H V. assert (HX' : sees (visit x) (decls x) (fun E => assigns_ok E x) (fun p => placed p x))
        by (apply (HX k); now left). assert (I0 := I). fw I0 H V. fin2 V. }
    eapply s_conv; [apply s_bind; [exact H1|intros; apply IH; intros k' y Hy; apply (HX k'); now right]|reflexivity| |]; auto. }
  intros s y s' c k0 vs scs o H V. assert (I0 := I). fw I0 H V. fin2 V.
Qed.
Lemma in_context_view c : in_context_of KLoop (cx_scopes c) = existsb is_loop_kind (map vs_kind (snd (view_ctx c))).
Proof.
  unfold in_context_of, first_of_kind, view_ctx. cbn [snd]. induction (ss_scopes (cx_scopes c)) as [|sc l IH]; cbn [map find existsb]; [reflexivity|].
  unfold is_loop_kind at 1. cbn [view_scope vs_kind]. destruct (scope_kind_eqb (sc_kind sc) KLoop); [reflexivity|exact IH].
Qed.
Lemma get_context_view s c s' : get_context s = Ok (c, s') -> s' = s /\ exists o, view s = view_ctx c :: o.
Proof.
  unfold get_context, view. destruct (cs_stack s) as [|c0 o]; [discriminate|]. intros H. injection H as <- <-. split; [reflexivity|]. cbn. eauto.
Qed.
Lemma s_loop_only (m : M unit) e : quiet m ->
  sees (c <- get_context ;; if in_context_of KLoop (cx_scopes c) then m else fail e) [] yes in_loop.
Proof.
  intros Q s y s' c k vs scs o H V. apply bind_ok in H as (cx & s1 & HC & H). apply get_context_view in HC as (-> & o' & E).
  rewrite in_context_view in H. destruct (existsb _ _) eqn:HX; [|discriminate]. rewrite (Q _ _ _ H). split; [exact V|].
  split; [reflexivity|]. rewrite V in E. assert (E' := f_equal (fun l => snd (hd (KScript, []) l)) E). cbn [hd] in E'. rewrite <- E' in HX. exact HX.
Qed.
Lemma s_export x : vis x -> sees (visit_export visit x) (decls x) (fun E => assigns_ok E x) (fun p => placed p (EExportDecl x)).
Proof.
  intros HX s y s' c k vs scs o H V. assert (HX' : sees (visit x) (decls x) (fun E => assigns_ok E x) (fun p => placed p x)) by exact HX.
  unfold visit_export in H. apply bind_ok in H as (kd & s1 & HK & H). apply kind_inv in HK as (-> & HK). apply HK in V as E. subst kd.
  destruct c; try discriminate. apply bind_ok in H as (sc & s1 & HT & H). pose proof (top_inv _ _ _ HT _ _ _ _ _ _ V) as HD.
  apply q_top_scope in HT. rewrite V in HT. clear V. rename HT into V. rewrite HD in H.
  destruct (1 <? List.length scs) eqn:HN; [discriminate|]. assert (I0 := I). destruct (export_name x); fw I0 H V.
  split; [exact V|]. split; [exact A|]. cbn [placed]. apply andb_true_intro. split; [|exact P].
  unfold pl. cbn [pl_owner pl_level owner_of level_of List.length]. rewrite map_length. apply Nat.ltb_ge in HN.
  destruct (List.length scs) as [|[|n]]; [reflexivity|reflexivity|lia].
Qed.
Lemma s_returning (m : M unit) e D A P : sees m D A P ->
  sees (k <- get_kind ;; match k with KFunction _ | KMethod _ => m | _ => fail e end) D A (fun p => returns_value (pl_owner p) && P p).
Proof.
  intros HM s y s' c k vs scs o H V. apply bind_ok in H as (kd & s1 & HK & H). apply kind_inv in HK as (-> & HK). apply HK in V as E. subst kd.
  destruct c; try discriminate; exact (HM _ _ _ _ _ _ _ _ H V).
Qed.
Lemma s_return_expr r : (forall x, r = Some x -> vis x) ->
  sees (visit_return_expr visit r) (last_decls r) (fun E => assigns_ok E (EReturn r)) (fun p => placed p (EReturn r)).
Proof.
  intros HX s y s' c k vs scs o H V. unfold visit_return_expr in H.
  apply bind_ok in H as (kd & s0 & HK & H). apply kind_inv in HK as (-> & HK). apply bind_ok in H as (u & s1 & H1 & H).
  apply HK in V as E. subst kd. assert (I0 := I).
  destruct c; try discriminate; destruct r as [x|]; try discriminate;
    try (assert (HX' : sees (visit x) (decls x) (fun E => assigns_ok E x) (fun p => placed p x)) by exact (HX x eq_refl));
    fw I0 H1 V; fw I0 H V; fin2 V.
Qed.
Lemma s_in_call (m : M unit) D A P : sees m D A P -> sees (in_call m) D A P.
Proof. intros HM s y s' c k vs scs o H V. unfold in_call in H. assert (I0 := I). fw I0 H V. fin2 V. Qed.
Lemma s_super_access f c0 : sees (visit_super_access f c0) [] yes (fun p => placed p (ESuperAccess f c0)).
Proof.
  intros s y s' c k vs scs o H V. unfold visit_super_access in H. apply bind_ok in H as (kd & s0 & HK & H). apply kind_inv in HK as (-> & HK).
  apply HK in V as E. subst kd. assert (I0 := I). destruct c; try discriminate; fw I0 H V; fin2 V.
Qed.

Lemma s_range_loop b x lo hi body : vis lo -> vis hi -> vis body ->
  sees (visit_range_loop visit b x lo hi body) (decls lo ++ decls hi)
    (fun E => assigns_ok E hi && assigns_ok (decls hi ++ E) lo && assigns_ok ((x, false) :: decls lo ++ decls hi ++ E) body)
    (fun p => placed p lo && placed p hi && placed (looping p) body).
Proof.
  intros H1 H2 H3 s y s' c k vs scs o H V. unfold visit_range_loop in H. unfold vis in *. assert (I0 := I). fw I0 H V. fin2 V.
Qed.
Lemma s_iterator_loop x src body : vis src -> vis body ->
  sees (visit_iterator_loop visit x src body) (decls src)
    (fun E => assigns_ok E src && assigns_ok ((x, false) :: decls src ++ E) body)
    (fun p => placed p src && placed (looping p) body).
Proof.
  intros H1 H2 s y s' c k vs scs o H V. unfold visit_iterator_loop in H. unfold vis in *. assert (I0 := I). fw I0 H V. fin2 V.
Qed.

Theorem visit_sees : forall e, vis e.
Proof.
  induction e as [e IH] using expr_size_ind.
  assert (IB : forall b, esize b < esize e -> body_vis b).
  { intros b L. split; [apply IH, L|]. intros es t ->. split; intros; apply IH; subst; esz. }
  unfold vis. destruct e; cbn [visit decls assigns_ok placed].
  - apply s_quiet, q_ident.
  - apply s_quiet, q_emit.
  - apply s_quiet, q_emit.
  - apply s_quiet, q_int.
  - apply s_quiet, q_float.
  - apply s_quiet, q_emit_c.
  - apply s_quiet, q_push_bool.
  - apply s_anonymous. apply IB. esz.
  - apply s_object. intros k x Hx. apply IH. esz.
  - unfold visit_list. sgo IH.
  - apply s_in_call. unfold visit_null_propagate. sgo IH.
  - apply s_in_call. unfold visit_error_propagate. apply s_returning. sgo IH.
  - apply s_in_call. unfold visit_field_access. sgo IH.
  - apply s_in_call. apply s_super_access.
  - apply s_in_call. unfold visit_fn_call. eapply s_conv; [apply s_bind; [apply IH; esz|intros; apply s_bind; [apply s_call_args; intros; apply IH; esz|intros; sg IH]]|fin|fin|fin].
  - apply s_in_call. intros s y s' c k vs scs o H V. unfold visit_super_call in H.
    assert (HX := s_call_args args (fun x Hx => IH x ltac:(esz))).
    apply bind_ok in H as (l & s1 & HL & H). fw IH HL V. destruct l as [v|]; [|discriminate]. fw IH H V. fin2 V.
  - apply s_in_call. unfold visit_index. eapply s_conv; [apply s_bind; [apply IH; esz|intros; apply s_bind; [apply s_isolated; apply IH; esz|intros; sg IH]]|fin|fin|fin].
  - unfold visit_is. destruct (ta_nullable type_); sgo IH.
  - unfold visit_prefix. sgo IH.
  - unfold visit_binary, visit_logical. destruct op; sgo IH.
  - unfold visit_assignment. destruct e1; try apply s_fail.
    + eapply s_conv; [apply s_assign_ident, IH; esz|fin|fin|fin].
    + unfold assign_field. destruct op; sgo IH.
    + unfold assign_index. destruct op; sgo IH.
  - unfold visit_var_decl. destruct kind; sgo IH.
  - apply s_fn_decl. apply IB. esz.
  - eapply s_conv; [apply (s_op_decl _ _ _ _ false); apply IB; esz|reflexivity| |]; auto.
  - eapply s_conv; [apply s_class|reflexivity| |]; auto.
    + intros b ->. apply IH. esz.
    + intros i Hi. destruct i; cbn [item_vis]; auto; apply IB; esz.
  - unfold visit_import. destruct module_import; sgo IH.
  - apply s_export. apply IH. esz.
  - unfold visit_if. destruct secondary; sgo IH.
  - intros s y s' c k vs scs o H V. unfold visit_while in H. destruct e2; try discriminate.
    assert (HB := fun b => s_block b expressions trailing (fun x Hx => IH x ltac:(esz)) (fun x Hx => IH x ltac:(subst; esz))).
    assert (HB' := HB true). clear HB. fw IH H V. fin2 V.
  - unfold visit_for.
    assert (HI := s_iterator_loop variable e1 e2 (IH e1 ltac:(esz)) (IH e2 ltac:(esz))).
    destruct e1; cbv beta iota; lazymatch goal with |- sees (visit_iterator_loop _ _ _ _) _ _ _ => exact HI | |- _ => idtac end.
    destruct op; lazymatch goal with |- sees (visit_iterator_loop _ _ _ _) _ _ _ => exact HI | |- _ => apply s_range_loop; apply IH; esz end.
  - intros s y s' c k vs scs o H V. unfold visit_loop in H. destruct e; try discriminate.
    assert (HB := fun b => s_block b expressions trailing (fun x Hx => IH x ltac:(esz)) (fun x Hx => IH x ltac:(subst; esz))).
    assert (HB' := HB true). clear HB. fw IH H V. fin2 V.
  - apply s_block; intros; apply IH; subst; esz.
  - eapply s_conv; [apply s_loop_only; qt|reflexivity| |]; auto.
  - eapply s_conv; [apply s_loop_only; qt|reflexivity| |]; auto.
  - eapply s_conv; [apply s_return_expr; intros; apply IH; subst; esz| | |]; auto.
Qed.
