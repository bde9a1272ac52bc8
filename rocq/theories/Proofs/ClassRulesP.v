(** Classes of accepted programs. *)
From Coq Require Import Lia.
From Verif.Model Require Import Compiler.
From Verif.Spec Require Import StaticSpec.
From Verif.Proofs Require Import CodecP ScopeP CaptureP ExprInd WellFormedP StaticP StaticTopP.

(** [m] succeeds only if [P]. *)
Definition needs {A} (m : M A) (P : bool) : Prop := forall s a s', m s = Ok (a, s') -> P = true.
Ltac conj2 := rewrite ?andb_true_r; first [assumption | reflexivity | (apply andb_true_intro; split; conj2)].
(** Collects in [N] what the visits that took place in [H] needed. *)
Ltac nf IH H :=
  cbv beta iota in H;
  lazymatch type of H with
  | bind _ _ _ = Ok _ => let H1 := fresh "H1" in let x := fresh "x" in let s1 := fresh "s" in
      apply bind_ok in H as (x & s1 & H1 & H); nf IH H1; nf IH H
  | fail _ _ = _ => discriminate H
  | panic _ = _ => discriminate H
  | visit ?x _ = _ => let N := fresh "N" in
      assert (N : classes_ok x = true) by (refine (IH x _ _ _ _ H); esz); clear H
  | ?m _ = Ok _ =>
      first
      [ let Q := fresh "Q" in eassert (Q : needs m _) by eassumption; let N := fresh "N" in assert (N := Q _ _ _ H); clear Q; clear H
      | match m with match ?x with _ => _ end => destruct x; nf IH H end
      | clear H ]
  end.
Lemma n_each {B} (f : B -> M unit) P l : (forall x, In x l -> needs (f x) (P x)) -> needs (each f l) (forallb P l).
Proof.
  induction l as [|x l IH]; intros H s a s' E; [reflexivity|]. cbn [each] in E. apply bind_ok in E as (u & s1 & E1 & E2).
  cbn [forallb]. rewrite (H x (or_introl eq_refl) _ _ _ E1). eapply IH; [|exact E2]. intros; apply H; now right.
Qed.
Notation fine x := (needs (visit x) (classes_ok x)).
Lemma n_isolated x : fine x -> needs (visit_isolated visit x) (classes_ok x).
Proof.
  intros HX s a s' H. unfold visit_isolated in H.
  repeat match type of H with bind _ _ _ = _ => let u := fresh "u" in let s1 := fresh "s" in let E1 := fresh "E" in apply bind_ok in H as (u & s1 & E1 & H) end.
  match goal with E : visit _ _ = Ok _ |- _ => exact (HX _ _ _ E) end.
Qed.
Lemma n_call_args l : (forall x, In x l -> fine x) -> needs (visit_call_args visit l) (forallb classes_ok l).
Proof.
  intros H s a s' E. unfold visit_call_args in E.
  repeat match type of E with bind _ _ _ = _ => let u := fresh "u" in let s1 := fresh "s" in let E1 := fresh "E" in apply bind_ok in E as (u & s1 & E1 & E) end.
  match goal with E : each _ _ _ = Ok _ |- _ => revert E end. apply n_each. intros x Hx. first [apply H, Hx|apply n_isolated, H, Hx].
Qed.
Lemma n_body es t : (forall x, In x es -> fine x) -> (forall x, t = Some x -> fine x) ->
  needs (visit_block_body visit es t) (forallb classes_ok es && match t with Some x => classes_ok x | None => true end).
Proof.
  intros HE HT s a s' H. unfold visit_block_body in H. apply bind_ok in H as (u & s1 & H1 & H2). apply andb_true_intro. split.
  - revert H1. apply n_each. intros x Hx s0 a0 s0' E. apply bind_ok in E as (? & ? & E & _). eapply HE; eauto.
  - destruct t as [x|]; [|reflexivity]. eapply HT; eauto.
Qed.
Lemma n_block b es t : (forall x, In x es -> fine x) -> (forall x, t = Some x -> fine x) ->
  needs (visit_block visit b es t) (forallb classes_ok es && match t with Some x => classes_ok x | None => true end).
Proof.
  intros HE HT s a s' H. assert (HB := n_body es t HE HT). unfold visit_block in H.
  repeat match type of H with bind _ _ _ = _ => let u := fresh "u" in let s1 := fresh "s" in let E1 := fresh "E" in apply bind_ok in H as (u & s1 & E1 & H) end.
  match goal with E : visit_block_body _ _ _ _ = Ok _ |- _ => exact (HB _ _ _ E) end.
Qed.
Definition body_fine (b : expr) : Prop := fine b /\ forall es t, b = EBlock es t -> (forall x, In x es -> fine x) /\ (forall x, t = Some x -> fine x).
(** The rule for a body that is the body of a constructor or not. *)
Definition kind_ok (kd : fn_kind) (rt : option type_ann) (b : expr) : bool :=
  match kd with
  | FkConstructor k => match rt with None => true | Some _ => false end && match k with CDerived => starts_with_super b | CBase => true end
  | _ => true
  end.
Lemma n_fn_block kd args es t body P : needs body P ->
  needs (visit_fn_block kd args es t body) (P && match kd with FkConstructor CDerived => match items_of es t with ESuperCall _ :: _ => true | _ => false end | _ => true end).
Proof.
  intros HB s a s' H. unfold visit_fn_block in H. apply bind_ok in H as (u & s1 & E1 & H).
  apply bind_ok in H as (u2 & s2 & E2 & H). apply bind_ok in H as (u3 & s3 & E3 & H). apply bind_ok in H as (u4 & s4 & E4 & H).
  apply bind_ok in H as (u5 & s5 & E5 & H). rewrite (HB _ _ _ E5). cbn [andb]. destruct kd as [| | |[|]]; try reflexivity.
  unfold assert_super_call in E1. change (block_items es t) with (items_of es t) in E1. destruct (items_of es t) as [|[] ?]; try discriminate E1. reflexivity.
Qed.
Lemma n_compile_fn args rt kd b : body_fine b -> needs (compile_fn visit args rt kd b) (classes_ok b && kind_ok kd rt b).
Proof.
  intros [HB HL] s a s' H. unfold compile_fn in H. apply bind_ok in H as (u & s1 & E1 & H). apply bind_ok in H as (u2 & s2 & E2 & H).
  apply bind_ok in H as (u3 & s3 & E3 & H).
  assert (R : match kd with FkConstructor _ => match rt with None => true | Some _ => false end | _ => true end = true).
  { destruct kd; try reflexivity. destruct rt; [discriminate E1|reflexivity]. }
  assert (X : classes_ok b && match kd with FkConstructor CDerived => starts_with_super b | _ => true end = true).
  { destruct b; try exact (n_fn_block _ _ _ _ _ _ HB _ _ _ E3). destruct (HL _ _ eq_refl) as [A B].
    exact (n_fn_block _ _ _ _ _ _ (n_body _ _ A B) _ _ _ E3). }
  apply andb_prop in X as [X1 X2]. rewrite X1. unfold kind_ok. destruct kd as [| | |[|]]; try reflexivity; now rewrite R, ?X2.
Qed.
Lemma n_method x args rt b kd : body_fine b -> needs (visit_method visit x args rt b kd) (classes_ok b && kind_ok kd rt b).
Proof.
  intros HB s a s' H. unfold visit_method in H. apply bind_ok in H as (u & s1 & E1 & H). apply bind_ok in H as (u2 & s2 & E2 & H).
  exact (n_compile_fn _ _ _ _ HB _ _ _ E2).
Qed.
Lemma n_fn_decl x args rt b : body_fine b -> needs (visit_fn_decl visit x args rt b) (classes_ok b).
Proof.
  intros HB s a s' H. unfold visit_fn_decl in H. apply bind_ok in H as (u & s1 & E1 & H). apply bind_ok in H as (u2 & s2 & E2 & H).
  apply (n_compile_fn _ _ _ _ HB) in E2. now apply andb_prop in E2.
Qed.
Lemma n_op_decl op args rt b m : body_fine b -> needs (visit_op_decl visit op args rt b m) (classes_ok b).
Proof.
  intros HB s a s' H. unfold visit_op_decl in H. apply bind_ok in H as (u & s1 & E1 & H). apply bind_ok in H as (u2 & s2 & E2 & H).
  apply (n_compile_fn _ _ _ _ HB) in E2. now apply andb_prop in E2.
Qed.
Lemma n_anonymous args rt b : body_fine b -> needs (visit_anonymous_fn visit args rt b) (classes_ok b).
Proof.
  intros HB s a s' H. unfold visit_anonymous_fn in H. apply bind_ok in H as (id & s1 & E1 & H). apply bind_ok in H as (c & s2 & E2 & H).
  apply (n_compile_fn _ _ _ _ HB) in E2. now apply andb_prop in E2.
Qed.
Definition item_fine (item : expr) : Prop :=
  match item with EFnDecl _ _ _ b | EOpDecl _ _ _ b => body_fine b | _ => True end.
Lemma self_receiver args p : self_param args = Some p -> has_self args = true /\ untyped_receiver args = match fa_type p with None => true | Some _ => false end.
Proof.
  unfold self_param, has_self. destruct args as [|[x t] r]; [discriminate|]. cbn [fa_name]. change SELF with "self". destruct (String.eqb x "self"); [|discriminate].
  intros [= <-]. split; [reflexivity|]. reflexivity.
Qed.
Lemma no_self_receiver args : self_param args = None -> has_self args = false.
Proof. unfold self_param, has_self. destruct args as [|[x t] r]; [reflexivity|]. cbn [fa_name]. change SELF with "self". now destruct (String.eqb x "self"). Qed.
Lemma n_class_item slot ck item : item_fine item ->
  needs (visit_class_item visit slot ck item) (member_ok (match ck with CDerived => true | CBase => false end) item && classes_ok item).
Proof.
  intros HI s a s' H. destruct item; cbn [visit_class_item item_fine member_ok classes_ok] in *; try discriminate.
  - unfold visit_class_fn in H. destruct (self_param args) as [p|] eqn:SP.
    + apply self_receiver in SP as [-> ->]. destruct (fa_type p); [discriminate|]. apply bind_ok in H as (u & s1 & E1 & H).
      apply (n_method _ _ _ _ _ HI) in E1. apply andb_prop in E1 as [-> K]. change NEW with "new" in K.
      destruct (String.eqb name "new"); [|reflexivity]. cbn [kind_ok negb orb andb] in *. rewrite andb_true_r. destruct ck; cbn [negb orb]; [now rewrite andb_true_r in *|exact K].
    + apply no_self_receiver in SP as ->. change NEW with "new" in H. destruct (String.eqb name "new"); [discriminate|]. apply bind_ok in H as (u & s1 & E1 & H).
      apply (n_method _ _ _ _ _ HI) in E1. apply andb_prop in E1 as [-> K]. reflexivity.
  - unfold visit_class_op in H. destruct (self_param args) as [p|] eqn:SP; [|discriminate]. apply self_receiver in SP as [-> ->].
    destruct (fa_type p); [discriminate|]. apply bind_ok in H as (u & s1 & E1 & H). now rewrite (n_op_decl _ _ _ _ _ HI _ _ _ E1).
Qed.
Lemma forallb_split {A} (f g : A -> bool) l : forallb (fun x => f x && g x) l = forallb f l && forallb g l.
Proof. induction l as [|x l IH]; [reflexivity|]. cbn [forallb]. rewrite IH. destruct (f x), (g x), (forallb f l); reflexivity. Qed.
Lemma n_class x items base : (forall b, base = Some b -> fine b) -> (forall i, In i items -> item_fine i) ->
  needs (visit_class visit x items base) (classes_ok (EClassDecl x items base)).
Proof.
  intros HB HI s a s' H. unfold visit_class in H. cbn [classes_ok].
  apply bind_ok in H as (u1 & s1 & E1 & H). apply bind_ok in H as (u2 & s2 & E2 & H).
  assert (X : match base with Some b => classes_ok b | None => true end = true) by (destruct base as [b|]; [exact (HB b eq_refl _ _ _ E2)|reflexivity]).
  rewrite X, andb_true_r. clear X E2.
  apply bind_ok in H as (u3 & s3 & E3 & H). apply bind_ok in H as (u4 & s4 & E4 & H). apply bind_ok in H as (l & s5 & HL & H).
  destruct l as [v|]; [|discriminate]. apply bind_ok in H as (u6 & s6 & E6 & H). apply bind_ok in H as (u7 & s7 & E7 & H).
  apply bind_ok in H as (u8 & s8 & E8 & H). apply bind_ok in H as (u9 & s9 & E9 & H). rewrite <- forallb_split. revert E9. apply n_each.
  intros i Hi s0 a0 s0' E. specialize (HI i Hi). apply (n_class_item _ _ _ HI) in E. destruct base; exact E.
Qed.
Lemma n_in_call m P : needs m P -> needs (in_call m) P.
Proof. intros HM s a s' H. unfold in_call in H. apply bind_ok in H as (u1 & s1 & E1 & H). apply bind_ok in H as (u2 & s2 & E2 & H). eapply HM; eauto. Qed.
Lemma n_assign_slot l a n m op rhs : fine rhs -> needs (assign_slot visit l a n m op rhs) (classes_ok rhs).
Proof.
  intros HR s x s' H. unfold assign_slot in H. destruct m; [|discriminate].
  destruct op; try (apply bind_ok in H as (u1 & s1 & E1 & H); exact (HR _ _ _ E1));
    apply bind_ok in H as (u1 & s1 & E1 & H); apply bind_ok in H as (u2 & s2 & E2 & H); exact (HR _ _ _ E2).
Qed.
Lemma n_assign_ident op x rhs : fine rhs -> needs (assign_ident visit op x rhs) (classes_ok rhs).
Proof.
  intros HR s y s' H. unfold assign_ident in H. apply bind_ok in H as (l & s1 & HL & H). destruct l as [v|].
  - exact (n_assign_slot _ _ _ _ _ _ HR _ _ _ H).
  - apply bind_ok in H as (u & s2 & HU & H). destruct u as [i|]; [|discriminate]. apply bind_ok in H as (c0 & s3 & HC & H).
    destruct (nth_error (cx_upvalues c0) i) as [d|]; [|discriminate]. exact (n_assign_slot _ _ _ _ _ _ HR _ _ _ H).
Qed.

Theorem visit_classes : forall e, fine e.
Proof.
  induction e as [e IH] using expr_size_ind.
  assert (IB : forall b, esize b < esize e -> body_fine b).
  { intros b L. split; [apply IH, L|]. intros es t ->. split; intros; apply IH; subst; esz. }
  destruct e; cbn [visit classes_ok]; try (intros s a s' H; reflexivity); try apply n_in_call.
  - apply n_anonymous, IB. esz.
  - intros s a s' H. unfold visit_object in H. apply bind_ok in H as (u & s1 & E1 & H). revert H. apply n_each.
    intros [k x] Hx s0 a0 s0' E. assert (L : esize x < esize (ELitObject items)) by esz.
    apply bind_ok in E as (? & s2 & E2 & E). apply bind_ok in E as (? & s3 & E3 & E). exact (IH x L _ _ _ E3).
  - intros s a s' H. unfold visit_list in H. apply bind_ok in H as (u & s1 & E1 & H). revert E1. apply n_each. intros x Hx. apply IH. esz.
  - intros s a s' H. unfold visit_null_propagate in H. nf IH H. conj2.
  - intros s a s' H. unfold visit_error_propagate in H. nf IH H; conj2.
  - intros s a s' H. unfold visit_field_access in H. nf IH H; conj2.
  - intros s a s' H. unfold visit_fn_call in H. apply bind_ok in H as (u & s1 & E1 & H). nf IH E1. rewrite N. cbn [andb].
    apply bind_ok in H as (u2 & s2 & E2 & H). revert E2. apply n_call_args. intros x Hx. apply IH. esz.
  - intros s a s' H. unfold visit_super_call in H. apply bind_ok in H as (l & s1 & HL & H).
    destruct l as [v|]; [|discriminate]. apply bind_ok in H as (u & s2 & E1 & H).
    apply bind_ok in H as (u2 & s3 & E2 & H). revert E2. apply n_call_args. intros x Hx. apply IH. esz.
  - intros s a s' H. unfold visit_index in H. apply bind_ok in H as (u & s1 & E1 & H). nf IH E1. rewrite N. cbn [andb].
    apply bind_ok in H as (u2 & s2 & E2 & H). revert E2. apply n_isolated, IH. esz.
  - intros s a s' H. unfold visit_is in H. destruct (ta_nullable type_); nf IH H; conj2.
  - intros s a s' H. unfold visit_prefix in H. nf IH H; conj2.
  - intros s a s' H. unfold visit_binary, visit_logical in H. destruct op; nf IH H; conj2.
  - intros s a s' H. unfold visit_assignment in H. destruct e1; try discriminate.
    + cbn [andb]. revert H. apply n_assign_ident, IH. esz.
    + unfold assign_field in H. destruct op; nf IH H; conj2.
    + unfold assign_index in H. destruct op; nf IH H; conj2.
  - intros s a s' H. unfold visit_var_decl in H. apply bind_ok in H as (u & s1 & E1 & H); nf IH E1. exact N.
  - apply n_fn_decl, IB. esz.
  - apply n_op_decl, IB. esz.
  - apply n_class; [intros b ->; apply IH; esz|]. intros i Hi. destruct i; cbn [item_fine]; auto; apply IB; esz.
  - intros s a s' H. unfold visit_export in H. nf IH H; conj2.
  - intros s a s' H. unfold visit_if in H. destruct secondary; nf IH H; conj2.
  - intros s a s' H. unfold visit_while in H. destruct e2; try discriminate.
    assert (HB := n_block true expressions trailing (fun x Hx => IH x ltac:(esz)) (fun x Hx => IH x ltac:(subst; esz))). nf IH H. cbn [classes_ok]. conj2.
  - intros s a s' H. unfold visit_for in H.
    assert (HI : visit_iterator_loop visit variable e1 e2 s = Ok (a, s') -> classes_ok e1 && classes_ok e2 = true).
    { clear H. intros H. unfold visit_iterator_loop in H. nf IH H. conj2. }
    assert (HR : forall b lo hi, esize lo < esize (EFor variable e1 e2) -> esize hi < esize (EFor variable e1 e2) ->
       visit_range_loop visit b variable lo hi e2 s = Ok (a, s') -> classes_ok lo && classes_ok hi && classes_ok e2 = true).
    { clear H HI. intros b lo hi L1 L2 H. unfold visit_range_loop in H.
      apply bind_ok in H as (u & s1 & E1 & H). pose proof (IH _ L2 _ _ _ E1).
      apply bind_ok in H as (u2 & s2 & E2 & H). pose proof (IH _ L1 _ _ _ E2). nf IH H. conj2. }
    destruct e1; try exact (HI H). destruct op; try exact (HI H); (eapply HR; [| |exact H]; esz).
  - intros s a s' H. unfold visit_loop in H. destruct e; try discriminate.
    assert (HB := n_block true expressions trailing (fun x Hx => IH x ltac:(esz)) (fun x Hx => IH x ltac:(subst; esz))). nf IH H. cbn [classes_ok]. conj2.
  - apply n_block; intros; apply IH; subst; esz.
  - intros s a s' H. unfold visit_return_expr in H. destruct result; [|reflexivity]. nf IH H; conj2.
Qed.
Lemma compile_classes kind root b : compile kind root = Ok b -> classes_ok root = true.
Proof. intros H. apply compile_inv in H as (s0 & a & s1 & c & vs & H & _). exact (visit_classes root _ _ _ H). Qed.

(** class A { fn new(self) {} } class B : A { fn new(self, x) { super(); self.x = x } fn make() { B(1) } } with
    variations of the constructor of B. *)
Definition class_with (new : expr) : expr :=
  EBlock [EClassDecl "A" [EFnDecl "new" [FnArg "self" None] None (EBlock [] None)] None;
          EClassDecl "B" [new; EFnDecl "make" [] None (EBlock [] (Some (EFnCall (ELitIdent "B") [ELitInt 1])))] (Some (ELitIdent "A"))] None.
Definition store_x : expr := EAssignment AAssign (EFieldAccess (ELitIdent "self") "x") (ELitIdent "x").
Definition params_x : list fn_arg := [FnArg "self" None; FnArg "x" None].
Definition good_class : expr := class_with (EFnDecl "new" params_x None (EBlock [ESuperCall []] (Some store_x))).
Definition bad_classes : list expr := map class_with
  [EFnDecl "new" params_x None (EBlock [store_x] (Some (ESuperCall []))); EFnDecl "new" params_x None (EBlock [] None);
   EFnDecl "new" params_x (Some (TypeAnn "A" false)) (EBlock [ESuperCall []] None); EFnDecl "new" [FnArg "x" None] None (EBlock [ESuperCall []] None);
   EFnDecl "m" [FnArg "self" (Some (TypeAnn "A" false))] None (EBlock [] None); EOpDecl OAdd [FnArg "x" None] None (EBlock [] None)].
