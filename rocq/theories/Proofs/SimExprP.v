(** Simulation of the expressions without variables of their own. *)
From Verif.Spec Require Import SupportSpec.
From Verif.Proofs Require Import StackP VmPrimP CallP ReachP CodeP MemP StepP ScopeSimP CallSimP SimP.
#[local] Open Scope string_scope.
#[local] Open Scope list_scope.
#[local] Open Scope nat_scope.

Section Expr.
Variable w : world.
Variable lit : nat -> fn_bytecode.
Notation Inv := (Inv lit).
Notation code := (code lit).
Variable I : interp.
Variables (fr : frame) (ups : option (list nat)).
Variables (rho0 : names_of) (V0 : view) (b0 : list value) (p0 : nat) (m0 : memory) (K0 : links) (t0 : list value).
Variables (G : ctx) (S : scene) (lt : list value) (P : answer -> Prop) (q0 : nat).
Notation s0 := (state m0 K0 b0 t0).
Notation bc := (g_bc G).
Notation reached := (reached w lit fr ups rho0 V0 b0 p0 s0 bc).
Hypothesis H0 : here lit G S fr ups lt rho0 V0 b0 m0 K0 t0.
Hypothesis HP : closed w lit P G fr ups lt rho0 V0 b0 p0 s0 t0.
Hypothesis HV : forall v rho b m K, reached q0 (v :: t0) rho V0 b m K -> P (AVal v m).
Hypothesis ROOM : enough <= s_room S.
Hypothesis SE : sim_eval w lit I.
Hypothesis SC : sim_call w lit I.

Ltac lens := repeat match goal with R : SimP.reached _ _ _ _ _ _ _ _ _ _ _ _ _ _ ?b _ _ |- _ =>
    lazymatch goal with
    | H : List.length b = List.length b0 |- _ => fail
    | _ => pose proof (reached_len _ _ _ _ _ _ _ _ _ _ _ _ _ _ _ _ _ R)
    end end.
Ltac ft := match goal with |- ?g => tryif has_evar g then fail else idtac end; lens; pose proof (h_room _ _ _ _ _ _ _ _ _ _ _ _ H0); unfold fits, enough in *; cbn [List.length app] in *;
  rewrite ?app_length, ?rev_length, ?set_nth_len in *; cbn [List.length] in *; lia.
Ltac go R L := eapply reach_step_ in R; [|solve [eapply L; first [eassumption | reflexivity | ft]]].
Ltac ev n u := eapply (use_eval w lit I fr ups rho0 V0 b0 p0 m0 K0 t0 t0 G S lt P H0 HP ROOM SE n u).
Ltac inn := eapply (use_inner w lit I fr ups rho0 V0 b0 p0 m0 K0 t0 t0 G S lt P H0 HP ROOM SE).
Ltac tail := eapply (use_tail w lit I fr ups rho0 V0 b0 p0 m0 K0 t0 t0 G S lt P H0 HP ROOM SE).
Ltac agn := eapply (use_again w lit I fr ups rho0 V0 b0 p0 m0 K0 t0 t0 G S lt P H0 HP SE).
Ltac agb := eapply (use_again_bind w lit I fr ups rho0 V0 b0 p0 m0 K0 t0 t0 G S lt P H0 HP SE).
Ltac vmm := eapply (use_vm w lit fr ups rho0 V0 b0 p0 m0 K0 t0 t0 G lt P HP).
Ltac ldd u := eapply (use_load w lit fr ups rho0 V0 b0 p0 m0 K0 t0 t0 G S lt P H0 HP ROOM _ _ _ u).
Ltac sto := eapply (use_store w lit fr ups rho0 V0 b0 p0 m0 K0 t0 t0 G S lt P H0 HP ROOM).
Ltac cll u := eapply (use_call w lit I fr ups rho0 V0 b0 p0 m0 K0 t0 t0 G S lt P H0 HP ROOM SC _ u).
Ltac opr u := eapply (use_operate w lit I fr ups rho0 V0 b0 p0 m0 K0 t0 t0 G S lt P H0 HP ROOM SC _ u).
Ltac bi := unfold enough in *; cbn [List.length]; lia.

Notation start := (start w lit fr ups rho0 V0 b0 p0 m0 K0 t0 t0 G S lt H0).
Notation snd_ := (fun p t rho b m K => use_sound w lit fr ups rho0 V0 b0 p0 m0 K0 t0 t0 G lt P HP p t rho b m K).

Lemma fail_at p t rho b m K e b' t' : reached p t rho V0 b m K -> leads w bc fr ups p (state m K b t) (Failed e (state m K b' t')) -> P (AFail e m).
Proof. intros R L. apply (so_fail _ _ _ _ _ _ _ (snd_ _ _ _ _ _ _ R)). eapply fails_at; eauto. Qed.

Lemma sim_ident k x : code G k (ELitIdent x) p0 q0 -> P (load (s_env S) x m0).
Proof.
  cbn [CodeP.code]. intros C. rewrite <- (vbind_val (load _ _ _)). ldd (@nil value); [apply start|exact C|bi|].
  intros v R. eapply HV. exact R.
Qed.
Lemma sim_push o v : at_ bc p0 (INone o) q0 -> pushes o = Some v -> P (AVal v m0).
Proof. intros A E. pose proof start as R. go R lead_push. eapply HV; eauto. Qed.
Lemma sim_const c : at_const bc OpPushConst c p0 q0 -> P (AVal (value_of_const c) m0).
Proof. intros A. pose proof start as R. go R lead_const. eapply HV; eauto. Qed.
Lemma sim_literal k e : code G k e p0 q0 ->
  match e with
  | ELitUnit => P (AVal VUnit m0)
  | ELitNull => P (AVal VNull m0)
  | ELitBool b => P (AVal (VBool b) m0)
  | ELitInt z => P (AVal (VInt z) m0)
  | ELitFloat x => P (AVal (VFloat (if f64_eqb x f64_zero then f64_zero else if f64_eqb x f64_one then f64_one else x)) m0)
  | ELitString x => P (AVal (VString x) m0)
  | _ => True
  end.
Proof.
  intros C. destruct e; auto; cbn [CodeP.code] in C.
  - eapply sim_push; [exact C|reflexivity].
  - eapply sim_push; [exact C|reflexivity].
  - match type of C with context [Z.eqb ?z 0] => set (x := z) in * end.
    destruct (Z.eqb_spec x 0) as [E|_]; [rewrite E; eapply sim_push; [exact C|reflexivity]|].
    destruct (Z.eqb_spec x 1) as [E|_]; [rewrite E; eapply sim_push; [exact C|reflexivity]|]. apply (sim_const (CInt x)). exact C.
  - destruct (f64_eqb value f64_zero); [eapply sim_push; [exact C|reflexivity]|].
    destruct (f64_eqb value f64_one); [eapply sim_push; [exact C|reflexivity]|]. apply (sim_const (CFloat value)). exact C.
  - apply (sim_const (CString value)). exact C.
  - eapply sim_push; [exact C|]. destruct value; reflexivity.
Qed.

Lemma sim_fn k args ret body : code G k (ELitAnonymousFn args ret body) p0 q0 ->
  P (make_fn lit k (Source "" args (Returning ret) body (k + 1)) (s_env S) m0).
Proof.
  cbn [CodeP.code]. intros C. rewrite <- (vbind_val (make_fn _ _ _ _ _)).
  eapply make_fn_sim with (t := t0); [apply H0|apply H0|exact C| | |].
  - intros cups HF. unfold fn_is. cbn [src_body src_args src_role src_self src_first]. destruct body; exact HF.
  - ft.
  - intros v m' rho' K' L HI X _. eapply (HV v rho' b0 m' K'). split; [exact L|]. split; auto. apply keep_refl.
Qed.

Lemma sim_list : forall es n u k p q rho b m K next,
  list_code code (g_deep n G) k es p q -> reached p (u ++ t0) rho V0 b m K -> List.length u = n -> n + 3 <= s_room S ->
  (forall vs rho' b' m' K', reached q (rev vs ++ u ++ t0) rho' V0 b' m' K' -> List.length vs = List.length es ->
     n + List.length es + 3 <= s_room S -> P (next vs m')) ->
  P (eval_list I (deep n S) k es m next).
Proof.
  induction es as [|e es IH]; intros n u k p q rho b m K next C R Lu Lr N; cbn [list_code eval_list] in *.
  - subst q. apply (N [] rho b m K); auto. cbn [List.length]. lia.
  - destruct C as (p1 & C1 & C2). ev n u; [exact R|exact Lu|exact C1|]. intros Lr' v m1 rho1 b1 K1 R1.
    rewrite deep_deep. rewrite g_deep_deep in C2.
    eapply (IH (n + 1) (v :: u)); [exact C2|exact R1|cbn [List.length]; lia|unfold enough in *; lia|].
    intros vs rho' b' m' K' R2 L2 L3. apply (N (v :: vs) rho' b' m' K').
    + cbn [rev]. rewrite <- app_assoc. exact R2.
    + cbn [List.length]. lia.
    + cbn [List.length]. lia.
Qed.

Lemma sim_list_literal k es : code G k (ELitList es) p0 q0 ->
  P (eval_list I (inner S) k es m0 (fun vs m1 => with_vm (new_array vs) m1 AVal)).
Proof.
  cbn [CodeP.code]. intros (p1 & C & A). rewrite inner_deep. eapply (sim_list es 0 []); [exact C|apply start|reflexivity|bi|].
  intros vs rho' b' m' K' R L1 L2. cbn [app] in R. vmm; [exact R| |].
  - rewrite <- (rev_involutive vs) at 1. eapply lead_new_array; [exact A|now rewrite rev_length|ft].
  - intros a m2 R2. eapply HV. exact R2.
Qed.

Lemma sim_fields o : forall items k p q rho b m K,
  fields_code code G k items p q -> reached p (VObject o :: t0) rho V0 b m K ->
  (forall rho' b' m' K', reached q (VObject o :: t0) rho' V0 b' m' K' -> P (AVal (VObject o) m')) ->
  P (eval_fields I (deep 2 S) k o items m).
Proof.
  induction items as [|[key e] items IH]; intros k p q rho b m K C R N; cbn [fields_code eval_fields] in *.
  - subst q. eapply N; eauto.
  - destruct C as (p1 & p2 & p3 & p4 & A1 & C & A2 & A3 & CR). go R (lead_dup w bc fr ups 0 (VObject o)).
    ev 2 [VObject o; VObject o]; [exact R|reflexivity|exact C|]. intros Lr v m1 rho1 b1 K1 R1.
    vmm; [exact R1|apply (lead_write_field w bc fr ups false); [exact A2|ft]|]. cbv beta iota.
    intros a m2 R2. go R2 lead_pop. eapply IH; eauto.
Qed.
Lemma sim_object k items : code G k (ELitObject items) p0 q0 ->
  P (with_vm new_any_object m0 (fun o m1 => eval_fields I (deep 2 S) k o items m1)).
Proof.
  cbn [CodeP.code]. intros (p1 & A & C). vmm; [apply start|apply lead_new_object; [exact A|ft]|]. cbv beta.
  intros o m1 R. eapply sim_fields; eauto.
Qed.

Lemma sim_prefix k op x : code G k (EPrefix op x) p0 q0 -> P (vbind (i_eval I (inner S) k x m0) (prefix_op w op)).
Proof.
  cbn [CodeP.code]. intros (p1 & C & A). inn; [apply start|exact C|]. intros v m1 rho1 b1 K1 R1.
  assert (F : fits b1 t0 1) by ft. pose proof (lead_prefix w bc fr ups op v p1 q0 m1 K1 b1 t0 A F) as L.
  pose proof (snd_ _ _ _ _ _ _ R1) as SO.
  destruct (prefix_op w op v m1) as [x' m'|m'|m'|x' m'|m'|e m'| |]; try contradiction.
  - destruct L as (-> & L). eapply HV. eapply reach_step_; eauto.
  - apply (so_fail _ _ _ _ _ _ _ SO). exact L.
  - apply (so_crash _ _ _ _ _ _ _ SO). exact L.
  - apply (so_unknown _ _ _ _ _ _ _ SO).
Qed.

Lemma null_test_eq (o : opcode) v p p' rho b m K : reached p (v :: t0) rho V0 b m K -> null_test bc o p p' -> (o = OpEqual \/ o = OpNotEqual) ->
  reached p' (VBool (match o, v with OpEqual, VNull => true | OpEqual, _ => false | _, VNull => false | _, _ => true end) :: v :: t0) rho V0 b m K.
Proof.
  intros R (p1 & p2 & A1 & A2 & A3) Ho. assert (F : fits b t0 3) by ft.
  go R (lead_dup w bc fr ups 0 v). go R (lead_push w bc fr ups OpPushNull VNull).
  eapply reach_step_; [exact R|]. eapply lead_ok; [exact A3|]. intros r.
  assert (E : step w r bc fr ups (INone o) (Z.of_nat p') = (binary w r o >>> rret (Continue (Z.of_nat p')))) by (destruct Ho as [-> | ->]; reflexivity).
  rewrite E. unfold binary. rewrite rbind_assoc. unfold rbind at 1. rewrite state_pop by room.
  rewrite rbind_assoc. unfold rbind at 1. rewrite (state_peek _ _ _ _ 0 v) by reflexivity.
  assert (B : builtin_binary (w_dbg w) o v VNull = Some (Ok (VBool (match o, v with OpEqual, VNull => true | OpEqual, _ => false | _, VNull => false | _, _ => true end))))
    by (destruct Ho as [-> | ->]; destruct v; reflexivity).
  rewrite B. unfold VM.lift, rbind. rewrite state_poke by room. reflexivity.
Qed.

Lemma sim_logical k op lhs rhs (H : op = BLogicalAnd \/ op = BLogicalOr) : code G k (EBinary op lhs rhs) p0 q0 -> P (binary_op w I S k op lhs rhs m0).
Proof.
  intros C.
  assert (C' : exists p1 p2 p3 p4 p5 p6,
    code (g_in G) k lhs p0 p1 /\ at_ bc p1 (IByte OpDup 0) p2 /\ at_ bc p2 (INone OpAssertBool) p3 /\
    jumps bc (match op with BLogicalAnd => OpJumpIfFalse | _ => OpJumpIfTrue end) p3 p4 q0 /\
    at_ bc p4 (INone OpPop) p5 /\ code (g_in G) (k + fns lhs) rhs p5 p6 /\ at_ bc p6 (INone OpAssertBool) q0) by (destruct H as [-> | ->]; exact C).
  clear C. destruct C' as (p1 & p2 & p3 & p4 & p5 & p6 & C1 & A1 & A2 & J & A3 & C2 & A4).
  assert (RHS : forall c rho b m K, reached p4 (VBool c :: t0) rho V0 b m K ->
     P (vbind (i_eval I (inner S) (k + fns lhs) rhs m) (fun r m2 => as_logical r m2 (fun _ => AVal r m2)))).
  { intros c rho b m K R. go R lead_pop. inn; [exact R|exact C2|]. intros r m2 rho2 b2 K2 R2. unfold as_logical.
    destruct r; try (eapply fail_at; [exact R2|eapply lead_assert_bool_err; [exact A4|exact Logic.I]]).
    go R2 lead_assert_bool. eapply HV; eauto. }
  assert (LHS : forall v m1 rho1 b1 K1, reached p1 (v :: t0) rho1 V0 b1 m1 K1 ->
      match v with VBool c => reached (match op with BLogicalAnd => if c then p4 else q0 | _ => if c then q0 else p4 end) (VBool c :: t0) rho1 V0 b1 m1 K1
      | _ => P (AFail TYPE_ASSERTION_BOOL_FAILURE m1) end).
  { intros v m1 rho1 b1 K1 R1. go R1 (lead_dup w bc fr ups 0 v).
    destruct v; try (eapply fail_at; [exact R1|eapply lead_assert_bool_err; [exact A2|exact Logic.I]]).
    go R1 lead_assert_bool. destruct H as [-> | ->].
    - eapply reach_step_; [exact R1|]. apply lead_jif; [exact J|ft].
    - eapply reach_step_; [exact R1|]. apply lead_jit; [exact J|ft]. }
  destruct H as [-> | ->]; cbn [binary_op]; (inn; [apply start|exact C1|]); intros v m1 rho1 b1 K1 R1; specialize (LHS _ _ _ _ _ R1);
    unfold as_logical at 1; destruct v; try exact LHS; destruct b; try (eapply RHS; exact LHS); eapply HV; exact LHS.
Qed.
Lemma sim_coalesce k lhs rhs : code G k (EBinary BCoalesce lhs rhs) p0 q0 -> P (binary_op w I S k BCoalesce lhs rhs m0).
Proof.
  cbn [CodeP.code binary_op]. intros (p1 & p2 & p3 & p4 & C1 & NT & J & A & C2). inn; [apply start|exact C1|].
  intros l m1 rho1 b1 K1 R1. pose proof (null_test_eq OpEqual l p1 p2 rho1 b1 m1 K1 R1 NT (or_introl eq_refl)) as R2. cbv beta iota in R2.
  assert (R3 : reached (if (match l with VNull => true | _ => false end) then p3 else q0) (l :: t0) rho1 V0 b1 m1 K1).
  { eapply reach_step_; [exact R2|]. apply lead_jif; [exact J|ft]. }
  destruct l; try (eapply HV; exact R3). go R3 lead_pop. tail; [exact R3|exact C2|]. intros. eapply HV; eauto.
Qed.
Lemma sim_pipeline k lhs rhs : code G k (EBinary BPipeline lhs rhs) p0 q0 -> P (binary_op w I S k BPipeline lhs rhs m0).
Proof.
  cbn [CodeP.code binary_op]. intros (p1 & p2 & C1 & C2 & A). inn; [apply start|exact C1|]. intros f m1 rho1 b1 K1 R1.
  ev 1 [f]; [exact R1|reflexivity|exact C2|]. intros _ x m2 rho2 b2 K2 R2.
  rewrite <- (vbind_val (i_call _ _ _ _ _)). cll (@nil value); [exact R2|bi|exact A|]. intros v m' rho' b' K' R3. eapply HV; eauto.
Qed.
Lemma sim_operator k op lhs rhs o : operation op = Some o -> code G k (EBinary op lhs rhs) p0 q0 -> P (binary_op w I S k op lhs rhs m0).
Proof.
  intros E C.
  assert (C' : exists p1 p2, code (g_in G) k lhs p0 p1 /\ code (g_deep 1 G) (k + fns lhs) rhs p1 p2 /\ at_ bc p2 (INone o) q0).
  { destruct op; try discriminate E; cbn [CodeP.code operation] in C, E; injection E as <-; exact C. }
  assert (D : binary_op w I S k op lhs rhs m0 = vbind (i_eval I (inner S) k lhs m0) (fun l m1 =>
      vbind (i_eval I (deep 1 S) (k + fns lhs) rhs m1) (fun r m2 => operate w I (s_room S) o l r m2))).
  { destruct op; try discriminate E; cbn [operation] in E; injection E as <-; reflexivity. }
  rewrite D. destruct C' as (p1 & p2 & C1 & C2 & A). inn; [apply start|exact C1|]. intros l m1 rho1 b1 K1 R1.
  ev 1 [l]; [exact R1|reflexivity|exact C2|]. intros _ r m2 rho2 b2 K2 R2.
  rewrite <- (vbind_val (operate _ _ _ _ _ _ _)). opr (@nil value); [exact R2|bi|bi|exact A| |intros; eapply HV; eauto].
  destruct op; cbn [operation] in E; try discriminate E; injection E as <-; reflexivity.
Qed.
Lemma sim_binary k op lhs rhs : code G k (EBinary op lhs rhs) p0 q0 -> P (binary_op w I S k op lhs rhs m0).
Proof.
  intros C. destruct op; try (eapply sim_operator; [reflexivity|exact C]).
  - apply sim_logical; auto.
  - apply sim_logical; auto.
  - apply sim_coalesce; auto.
  - apply sim_pipeline; auto.
Qed.

Lemma sim_is k x t : code G k (EIs x t) p0 q0 ->
  P (vbind (i_eval I (inner S) k x m0) (fun v m1 =>
      if ta_nullable t then
        match v with
        | VNull => AVal (VBool true) m1
        | _ =>
            vbind (i_eval I (inner S) (k + fns x) x m1) (fun v2 m2 =>
            vbind (load (s_env S) (ta_name t) m2) (fun c m3 => with_vm (is_type c v2) m3 (fun b m4 => AVal (VBool b) m4)))
        end
      else vbind (load (s_env S) (ta_name t) m1) (fun c m2 => with_vm (is_type c v) m2 (fun b m3 => AVal (VBool b) m3)))).
Proof.
  cbn [CodeP.code]. intros C.
  assert (FIN : forall p p1 v rho b m K, reached p (v :: t0) rho V0 b m K -> loads G (ta_name t) p p1 -> at_ bc p1 (INone OpIs) q0 ->
     P (vbind (load (s_env S) (ta_name t) m) (fun c m3 => with_vm (is_type c v) m3 (fun b m4 => AVal (VBool b) m4)))).
  { intros p p1 v rho b m K R A1 A2. ldd [v]; [exact R|exact A1|bi|]. intros c R1. vmm; [exact R1|apply lead_is; [exact A2|ft]|]. cbv beta.
    intros a m' R2. eapply HV; eauto. }
  destruct (ta_nullable t).
  - destruct C as (p1 & p2 & p3 & p4 & p5 & p6 & p7 & p8 & C1 & A1 & A2 & A3 & J & A4 & C2 & A5 & A6). inn; [apply start|exact C1|].
    intros v m1 rho1 b1 K1 R1.
    assert (R2 : reached p3 (VBool (match v with VNull => true | _ => false end) :: t0) rho1 V0 b1 m1 K1).
    { go R1 (lead_push w bc fr ups OpPushNull VNull). eapply reach_step_; [exact R1|]. eapply lead_ok; [exact A2|]. intros r.
      cbn [step]. unfold binary. rewrite rbind_assoc. unfold rbind at 1. rewrite state_pop by ft.
      rewrite rbind_assoc. unfold rbind at 1. rewrite (state_peek _ _ _ _ 0 v) by reflexivity.
      assert (B : builtin_binary (w_dbg w) OpEqual v VNull = Some (Ok (VBool (match v with VNull => true | _ => false end)))) by (destruct v; reflexivity).
      rewrite B. unfold VM.lift, rbind. rewrite state_poke by ft. reflexivity. }
    set (c := match v with VNull => true | _ => false end) in *. go R2 (lead_dup w bc fr ups 0 (VBool c)).
    assert (R3 : reached (if c then q0 else p5) (VBool c :: t0) rho1 V0 b1 m1 K1).
    { eapply reach_step_; [exact R2|]. apply lead_jit; [exact J|ft]. }
    assert (NN : c = false -> P (vbind (i_eval I (inner S) (k + fns x) x m1) (fun v2 m2 =>
            vbind (load (s_env S) (ta_name t) m2) (fun c m3 => with_vm (is_type c v2) m3 (fun b m4 => AVal (VBool b) m4))))).
    { intros Ec. rewrite Ec in R3. go R3 lead_pop. inn; [exact R3|exact C2|]. intros v2 m2 rho2 b2 K2 R4. eapply FIN; eauto. }
    destruct v; try (apply NN; reflexivity). eapply HV; exact R3.
  - destruct C as (p1 & p2 & C1 & A1 & A2). inn; [apply start|exact C1|]. intros v m1 rho1 b1 K1 R1. eapply FIN; eauto.
Qed.

Lemma sim_if k c x s : code G k (EIf c x s) p0 q0 ->
  P (vbind (i_eval I (inner S) k c m0) (fun v m1 => as_condition v m1 (fun b =>
      if b then i_eval I (inner S) (k + fns c) x m1
      else match s with Some y => i_eval I (inner S) (k + fns c + fns x) y m1 | None => AVal VUnit m1 end))).
Proof.
  cbn [CodeP.code]. intros (p1 & p2 & p3 & p4 & C1 & J1 & C2 & J2 & C3). inn; [apply start|exact C1|]. intros v m1 rho1 b1 K1 R1.
  unfold as_condition. destruct v; try (eapply fail_at; [exact R1|eapply lead_j_err; [exact J1|now left|ft|exact Logic.I]]).
  assert (R2 : reached (if b then p2 else p4) t0 rho1 V0 b1 m1 K1) by (eapply reach_step_; [exact R1|apply lead_jif; [exact J1|ft]]).
  destruct b.
  - tail; [exact R2|exact C2|]. intros v2 m2 rho2 b2 K2 R3. go R3 lead_jump. eapply HV; eauto.
  - destruct s as [y|].
    + tail; [exact R2|exact C3|]. intros; eapply HV; eauto.
    + go R2 (lead_push w bc fr ups OpPushUnit VUnit). eapply HV; eauto.
Qed.

(** Assignment. *)
Lemma sim_assign k op lhs rhs : code G k (EAssignment op lhs rhs) p0 q0 -> P (assign w I S k op lhs rhs m0).
Proof.
  intros C. assert (ST : forall x v p rho b m K, reached p (v :: t0) rho V0 b m K -> assigns G x p q0 -> P (store (s_env S) x v m)).
  { intros x v p rho b m K R A. rewrite <- (vbind_val (store _ _ _ _)). sto; [exact R|exact A|]. intros; eapply HV; eauto. }
  assert (BOP : forall o, compound op = Some o -> binary_opcode o = true) by (intros o; destruct op; cbn; intros [= <-]; reflexivity).
  assert (OC : forall o p q, compound op = Some o -> operator_code G op p q -> at_ bc p (INone o) q) by (intros o p q E H; unfold operator_code in H; now rewrite E in H).
  destruct lhs; try (cbn [CodeP.code] in C; contradiction); cbn [CodeP.code assign] in *.
  - destruct (compound op) as [o|] eqn:Eo.
    + assert (C' : exists p1 p2 p3, loads G name p0 p1 /\ code (g_deep 1 G) k rhs p1 p2 /\ operator_code G op p2 p3 /\ assigns G name p3 q0) by (destruct op; try discriminate Eo; exact C).
      destruct C' as (p1 & p2 & p3 & A1 & C1 & A2 & A3). ldd (@nil value); [apply start|exact A1|bi|]. intros old R1.
      ev 1 [old]; [exact R1|reflexivity|exact C1|]. intros _ v m2 rho2 b2 K2 R2.
      opr (@nil value); [exact R2|bi|bi|eapply OC; eauto|auto|]. intros y m3 rho3 b3 K3 R3. eapply ST; eauto.
    + assert (C' : exists p1, code (g_in G) k rhs p0 p1 /\ assigns G name p1 q0) by (destruct op; try discriminate Eo; exact C).
      destruct C' as (p1 & C1 & A1). inn; [apply start|exact C1|]. intros v m1 rho1 b1 K1 R1. eapply ST; eauto.
  - destruct C as (p1 & C1 & C). inn; [apply start|exact C1|]. intros t m1 rho1 b1 K1 R1. destruct (compound op) as [o|] eqn:Eo.
    + assert (C' : exists p2 p3 p4 p5, at_ bc p1 (IByte OpDup 0) p2 /\ at_const bc OpLoadField (CSymbol field) p2 p3 /\
               code (g_deep 2 G) (k + fns lhs) rhs p3 p4 /\ operator_code G op p4 p5 /\ at_const bc OpAssignField (CSymbol field) p5 q0) by (destruct op; try discriminate Eo; exact C).
      destruct C' as (p2 & p3 & p4 & p5 & A1 & A2 & C2 & A3 & A4). go R1 (lead_dup w bc fr ups 0 t).
      vmm; [exact R1|apply lead_load_field; [exact A2|ft]|]. cbv beta. intros old m2 R2.
      ev 2 [old; t]; [exact R2|reflexivity|exact C2|]. intros _ v m3 rho3 b3 K3 R3.
      opr [t]; [exact R3|bi|bi|eapply OC; eauto|auto|]. intros y m4 rho4 b4 K4 R4.
      vmm; [exact R4|apply (lead_write_field w bc fr ups true); [exact A4|ft]|]. cbv beta iota. intros a m5 R5. eapply HV; eauto.
    + assert (C' : exists p2, code (g_deep 1 G) (k + fns lhs) rhs p1 p2 /\ at_const bc OpStoreField (CSymbol field) p2 q0) by (destruct op; try discriminate Eo; exact C).
      destruct C' as (p2 & C2 & A). ev 1 [t]; [exact R1|reflexivity|exact C2|]. intros _ v m2 rho2 b2 K2 R2.
      vmm; [exact R2|apply (lead_write_field w bc fr ups false); [exact A|ft]|]. cbv beta iota. intros a m5 R5. eapply HV; eauto.
  - destruct C as (p1 & p2 & C1 & C2 & C). inn; [apply start|exact C1|]. intros t m1 rho1 b1 K1 R1.
    ev 1 [t]; [exact R1|reflexivity|exact C2|]. intros _ i m2 rho2 b2 K2 R2. destruct (compound op) as [o|] eqn:Eo.
    + assert (C' : exists p3 p4 p5 p6 p7, at_ bc p2 (IByte OpDup 1) p3 /\ at_ bc p3 (IByte OpDup 1) p4 /\ at_ bc p4 (INone OpLoadIndex) p5 /\
               code (g_deep 3 G) (k + fns lhs1 + fns lhs2) rhs p5 p6 /\ operator_code G op p6 p7 /\ at_ bc p7 (INone OpAssignIndex) q0) by (destruct op; try discriminate Eo; exact C).
      destruct C' as (p3 & p4 & p5 & p6 & p7 & A1 & A2 & A3 & C3 & A4 & A5). go R2 (lead_dup w bc fr ups 1 t). go R2 (lead_dup w bc fr ups 1 i).
      vmm; [exact R2|apply lead_load_index; [exact A3|ft]|]. cbv beta. intros old m3 R3.
      ev 3 [old; i; t]; [exact R3|reflexivity|exact C3|]. intros _ v m4 rho4 b4 K4 R4.
      opr [i; t]; [exact R4|bi|bi|eapply OC; eauto|auto|]. intros y m5 rho5 b5 K5 R5.
      vmm; [exact R5|apply lead_write_index; [exact A5|ft]|]. cbv beta. intros a m6 R6. eapply HV; eauto.
    + assert (C' : exists p3, code (g_deep 2 G) (k + fns lhs1 + fns lhs2) rhs p2 p3 /\ at_ bc p3 (INone OpAssignIndex) q0) by (destruct op; try discriminate Eo; exact C).
      destruct C' as (p3 & C3 & A). ev 2 [i; t]; [exact R2|reflexivity|exact C3|]. intros _ v m3 rho3 b3 K3 R3.
      vmm; [exact R3|apply lead_write_index; [exact A|ft]|]. cbv beta. intros a m6 R6. eapply HV; eauto.
Qed.

(** Leaving. *)
Lemma cut_start : forall i, cut (fr_start fr + List.length (g_vars G)) V0 i = V0 i.
Proof.
  intros i. unfold cut. destruct (Nat.ltb_spec i (fr_start fr + List.length (g_vars G))); auto. symmetry. apply (sc_free _ _ _ _ _ _ (h_scope _ _ _ _ _ _ _ _ _ _ _ _ H0)). assumption.
Qed.
Lemma forget_vars n rho b m K : n <= List.length (g_vars G) -> unflagged (firstn (List.length (g_vars G) - n) (g_vars G)) -> Inv rho V0 b m K -> Inv rho (cut (fr_start fr + n) V0) b m K.
Proof.
  intros Ln U HI. eapply Inv_forget; [exact HI|]. intros i. unfold cut. destruct (Nat.ltb_spec i (fr_start fr + n)) as [|Li]; [now left|].
  destruct (V0 i) as [[l fl]|] eqn:EV; [|now left]. right. split; auto. intros l' fl' [= <- <-].
  destruct (h_scope _ _ _ _ _ _ _ _ _ _ _ _ H0) as [(El & Eo & _ & HL & _) SF _ _].
  destruct (Nat.lt_ge_cases i (fr_start fr + List.length (g_vars G))) as [Lj|Lj]; [|rewrite SF in EV by assumption; discriminate].
  revert U HL Li Lj EV. clear -Ln. generalize (fr_start fr) as base. revert El Ln. generalize (g_vars G) as vs. intros vs El Ln base U HL Li Lj EV.
  assert (X : forall vs El k, locals base V0 vs El -> k <= List.length vs -> unflagged (firstn k vs) -> base + (List.length vs - k) <= i < base + List.length vs -> fl = false).
  { clear -EV. induction vs as [|[x f] vs IH]; intros [|[y l'] El] k HL Lk U Li; cbn in HL; try contradiction; cbn [List.length] in *; [lia|].
    destruct HL as (-> & H1 & H2). destruct k as [|k]; [lia|]. cbn [firstn] in U. inversion_clear U as [|? ? U1 U2]. cbn [snd] in U1.
    destruct (Nat.eq_dec i (base + List.length vs)) as [->|Ni]; [congruence|]. eapply (IH El k); eauto; lia. }
  eapply (X vs El (List.length vs - n)); eauto; lia.
Qed.
Lemma sim_break k : code G k EBreak p0 q0 -> P (ABreak m0).
Proof.
  cbn [CodeP.code]. intros (l & EL & ED & U & J). apply HP; [exact Logic.I|]. cbn [rest]. rewrite EL.
  pose proof (h_loop _ _ _ _ _ _ _ _ _ _ _ _ H0) as HL. rewrite EL in HL. destruct HL as ((ex & Et) & LL & LV).
  assert (ex = []). { pose proof (h_depth _ _ _ _ _ _ _ _ _ _ _ _ H0) as HD. rewrite Et, app_length in HD. destruct ex; auto. cbn in HD. lia. }
  subst ex. cbn in Et. rewrite <- Et. exists rho0, b0, K0. split; [apply (lead_jump w bc fr ups _ _ _ _ _ _ _ J)|].
  split; [apply forget_vars; auto; apply H0|apply ext_refl|apply keep_refl].
Qed.
Lemma sim_continue k : code G k EContinue p0 q0 -> P (AContinue m0).
Proof.
  cbn [CodeP.code]. intros ([vs z nx d] & tgt & EL & ED & U & EN & J). cbn [lp_next lp_depth] in *. subst nx. apply HP; [exact Logic.I|]. cbn [rest]. rewrite EL.
  pose proof (h_loop _ _ _ _ _ _ _ _ _ _ _ _ H0) as HL. rewrite EL in HL. destruct HL as ((ex & Et) & LL & LV). cbn [lp_depth lp_vars] in *.
  assert (ex = []). { pose proof (h_depth _ _ _ _ _ _ _ _ _ _ _ _ H0) as HD. rewrite Et, app_length in HD. destruct ex; auto. cbn in HD. lia. }
  subst ex. cbn in Et. rewrite <- Et. exists rho0, b0, K0. split; [apply (lead_jump w bc fr ups _ _ _ _ _ _ _ J)|].
  split; [apply forget_vars; auto; apply H0|apply ext_refl|apply keep_refl].
Qed.
Lemma use_return ro v p p' q rho b m K : reached p (v :: t0) rho V0 b m K -> s_fn S = Some ro -> unflagged (g_vars G) ->
  drops bc (g_depth G) p p' -> rets G p' q ->
  P (match ro with Returning rt => check (s_env S) rt v m (fun m2 => AReturn v m2) | Constructing => AReturn v m end).
Proof.
  intros R EF U D RT. pose proof (h_depth _ _ _ _ _ _ _ _ _ _ _ _ H0) as HD. rewrite <- HD in D.
  assert (F : fits b t0 1) by ft.
  assert (R1 : reached p' [v] rho V0 b m K) by (eapply reach_step_; [exact R|apply lead_drops; auto]).
  eapply (rets_sim w lit fr ups P G rho V0 (s_env S) b m K v ro p' q (fun m2 => AReturn v m2)); [eapply use_scope; eauto|eapply reached_inv; eauto|eapply use_frame; eauto| |exact RT| |eapply use_sound; eauto|].
  - rewrite <- (h_fn _ _ _ _ _ _ _ _ _ _ _ _ H0). exact EF.
  - ft.
  - intros m' L SM. apply HP; [exact Logic.I|]. cbn [rest]. exists rho, b, K. split; [eapply leads_trans; [apply (reached_leads _ _ _ _ _ _ _ _ _ _ _ _ _ _ _ _ _ R1)|exact L]|].
    destruct (reached_good _ _ _ _ _ _ _ _ _ _ _ _ _ _ _ _ _ R1) as [A B C]. split; auto.
    rewrite <- (Nat.add_0_r (fr_start fr)). apply forget_vars; [lia| |eapply same_inv; eauto]. rewrite Nat.sub_0_r, firstn_all. exact U.
Qed.
Lemma sim_return k r : code G k (EReturn r) p0 q0 ->
  P (match s_fn S with
      | None => AUnknown
      | Some (Returning rt) =>
          vbind (match r with Some x => i_eval I (inner S) k x m0 | None => AVal VUnit m0 end) (fun v m1 =>
          check (s_env S) rt v m1 (fun m2 => AReturn v m2))
      | Some Constructing =>
          match r with
          | Some _ => AUnknown
          | None => vbind (load (s_env S) "self" m0) (fun v m1 => AReturn v m1)
          end
      end).
Proof.
  cbn [CodeP.code]. intros (p1 & p2 & U & C & D & RT). rewrite <- (h_fn _ _ _ _ _ _ _ _ _ _ _ _ H0) in C.
  destruct (s_fn S) as [[rt|]|] eqn:EF; [| |eapply P_unknown; eauto].
  - destruct r as [x|].
    + inn; [apply start|exact C|]. intros v m1 rho1 b1 K1 R1. eapply (use_return (Returning rt)); eauto.
    + cbn [vbind]. pose proof start as R. go R (lead_push w bc fr ups OpPushUnit VUnit). eapply (use_return (Returning rt)); eauto.
  - destruct r as [x|]; [eapply P_unknown; eauto|]. ldd (@nil value); [apply start|exact C|bi|].
    intros v R. eapply (use_return Constructing); eauto.
Qed.

(** The base class. *)
Lemma sim_super_access k f c : code G k (ESuperAccess f c) p0 q0 ->
  P (vbind (load (s_env S) (match c with Some x => x | None => "super" end) m0) (fun class m1 =>
      vbind (load (s_env S) "self" m1) (fun self m2 => with_vm (super_method f class self) m2 AVal))).
Proof.
  cbn [CodeP.code]. intros (p1 & p2 & A1 & A2 & A3). ldd (@nil value); [apply start|exact A1|bi|]. intros class R1.
  ldd [class]; [exact R1|exact A2|bi|]. intros self R2.
  vmm; [exact R2|apply lead_load_method; [exact A3|ft]|]. cbv beta. intros a m1 R3. eapply HV; eauto.
Qed.
Lemma sim_super_call k args : code G k (ESuperCall args) p0 q0 ->
  P (vbind (load (s_env S) "self" m0) (fun self m1 =>
      eval_list I (deep 1 S) k args m1 (fun vs m2 =>
      vbind (load (s_env S) "super" m2) (fun c m3 =>
      with_vm (VM.lift (as_class c)) m3 (fun class m4 => initialize I (s_room S) class self vs m4))))).
Proof.
  cbn [CodeP.code]. intros (p1 & p2 & p3 & A1 & CL & A2 & A3). ldd (@nil value); [apply start|exact A1|bi|]. intros self R1.
  eapply (sim_list args 1 [self]); [exact CL|exact R1|reflexivity|bi|]. intros vs rho' b' m' K' R2 L2 L3.
  ldd (rev vs ++ [self]); [rewrite <- app_assoc; exact R2|exact A2|rewrite app_length, rev_length; bi|]. intros c R3.
  rewrite <- app_assoc in R3. cbn [app] in R3.
  assert (F : fits b' (c :: rev vs ++ self :: t0) 0) by ft. assert (SO := snd_ _ _ _ _ _ _ R3).
  assert (ST : forall r, step w r bc fr ups (IByte OpCallSuper (List.length args)) (Z.of_nat q0) (state m' K' b' (c :: rev vs ++ self :: t0)) =
     ((let* class := VM.lift (as_class c) in let* receiver := peek (List.length args) in
       let* v := call_class_constructor r (List.length args) class receiver in push v) >>> rret (Continue (Z.of_nat q0))) (state m' K' b' (rev vs ++ self :: t0))).
  { intros r. cbn [step]. rewrite rbind_assoc. unfold rbind at 1. rewrite state_pop by (unfold fits in *; cbn [List.length] in *; lia). reflexivity. }
  unfold with_vm. destruct (as_class c) as [class|e| |]; cbn [VM.lift] in *.
  - assert (EM : set_vm (m_vm m') m' = m') by (destruct m'; reflexivity). rewrite EM.
    rewrite <- (vbind_val (initialize _ _ _ _ _ _)).
    eapply (step_action w lit bc fr ups P (fun r => (let* v := call_class_constructor r (List.length vs) class self in push v) (state m' K' b' (rev vs ++ self :: t0))) rho' V0 b' t0 _ _ _ q0 _ AVal A3).
    + intros r. rewrite ST, L2. rewrite rbind_assoc. unfold rbind at 1. unfold VM.lift.
      rewrite rbind_assoc. unfold rbind at 1. rewrite (state_peek _ _ _ _ (List.length args) self).
      * unfold rbind at 1. destruct ((let* v := call_class_constructor r (List.length args) class self in push v) (state m' K' b' (rev vs ++ self :: t0))); reflexivity.
      * rewrite nth_error_app2 by (rewrite rev_length; lia). rewrite rev_length, L2, Nat.sub_diag. reflexivity.
    + apply initialize_sim; [exact SC|eapply reached_inv; eauto| |lia].
      pose proof (h_room _ _ _ _ _ _ _ _ _ _ _ _ H0). pose proof (reached_len _ _ _ _ _ _ _ _ _ _ _ _ _ _ _ _ _ R3). lia.
    + exact SO.
    + intros v m1 rho1 b1 K1 Lv GD. eapply HV. eapply reach_good; eauto. eapply good_le; [exact GD|].
      rewrite (reached_len _ _ _ _ _ _ _ _ _ _ _ _ _ _ _ _ _ R3). eapply use_start; eauto.
  - apply (so_fail _ _ _ _ _ _ _ SO). assert (EM : m_vm (set_vm (m_vm m') m') = m_vm m') by reflexivity. rewrite EM. eapply fails_at. eapply lead_err; [exact A3|]. intros r. rewrite ST. reflexivity.
  - apply (so_crash _ _ _ _ _ _ _ SO). eapply lead_panic; [exact A3|]. intros r. rewrite ST. reflexivity.
  - apply (so_unknown _ _ _ _ _ _ _ SO).
Qed.

(** Chains; the context is that of the target. *)
Lemma sim_null_propagate k x p1 p2 z : code G k x p0 p1 -> null_test bc OpNotEqual p1 p2 -> g_null G = Some z -> jumps bc OpJumpIfFalse p2 q0 z ->
  P (vbind (i_eval I S k x m0) (fun v m1 => match v with VNull => ANull m1 | _ => AVal v m1 end)).
Proof.
  intros C NT EN J. agb; [apply start|exact C|]. intros v m1 rho1 b1 K1 R1.
  pose proof (null_test_eq OpNotEqual v p1 p2 rho1 b1 m1 K1 R1 NT (or_intror eq_refl)) as R2. cbv beta iota in R2.
  assert (R3 : reached (if (match v with VNull => false | _ => true end) then q0 else z) (v :: t0) rho1 V0 b1 m1 K1).
  { eapply reach_step_; [exact R2|]. apply lead_jif; [exact J|ft]. }
  destruct v; try (eapply HV; exact R3). apply HP; [exact Logic.I|]. cbn [rest]. rewrite EN. exists rho1, b1, K1. split; apply R3.
Qed.
Lemma sim_error_propagate k x p1 p2 p3 p4 p5 p6 : unflagged (g_vars G) ->
  code G k x p0 p1 -> at_ bc p1 (IByte OpDup 0) p2 -> at_const bc OpLoadField (CSymbol "is_ok") p2 p3 ->
  jumps bc OpJumpIfTrue p3 p4 p6 -> drops bc (g_depth G) p4 p5 -> rets G p5 p6 -> at_const bc OpLoadField (CSymbol "result") p6 q0 ->
  P (vbind (i_eval I S k x m0) (fun v m1 =>
      with_vm (get_field "is_ok" v) m1 (fun ok m2 => as_condition ok m2 (fun b =>
      if b then with_vm (get_field "result" v) m2 AVal
      else match s_fn S with
           | Some (Returning rt) => check (s_env S) rt v m2 (fun m3 => AReturn v m3)
           | _ => AUnknown
           end)))).
Proof.
  intros U C A1 A2 J D RT A3. agb; [apply start|exact C|]. intros v m1 rho1 b1 K1 R1. go R1 (lead_dup w bc fr ups 0 v).
  vmm; [exact R1|apply lead_load_field; [exact A2|ft]|]. cbv beta. intros ok m2 R2. unfold as_condition.
  destruct ok; try (eapply fail_at; [exact R2|eapply lead_j_err; [exact J|now right|ft|exact Logic.I]]).
  assert (R3 : reached (if b then p6 else p4) (v :: t0) rho1 V0 b1 m2 K1) by (eapply reach_step_; [exact R2|apply lead_jit; [exact J|ft]]).
  destruct b.
  - vmm; [exact R3|apply lead_load_field; [exact A3|ft]|]. cbv beta. intros a m3 R4. eapply HV; exact R4.
  - destruct (s_fn S) as [[rt|]|] eqn:EF; [|eapply P_unknown; eauto|eapply P_unknown; eauto]. eapply (use_return (Returning rt)); eauto.
Qed.
Lemma sim_field k x f p1 : code G k x p0 p1 -> at_const bc OpLoadField (CSymbol f) p1 q0 ->
  P (vbind (i_eval I S k x m0) (fun v m1 => with_vm (get_field f v) m1 AVal)).
Proof.
  intros C A. agb; [apply start|exact C|]. intros v m1 rho1 b1 K1 R1.
  vmm; [exact R1|apply lead_load_field; [exact A|ft]|]. cbv beta. intros a m3 R4. eapply HV; exact R4.
Qed.
Lemma sim_fn_call k f args p1 p2 : code G k f p0 p1 -> list_code code (g_deep 1 G) (k + fns f) args p1 p2 -> at_ bc p2 (IByte OpCall (List.length args)) q0 ->
  P (vbind (i_eval I S k f m0) (fun fv m1 =>
      eval_list I (deep 1 S) (k + fns f) args m1 (fun vs m2 => i_call I (s_room S) fv vs m2))).
Proof.
  intros C CL A. agb; [apply start|exact C|]. intros fv m1 rho1 b1 K1 R1.
  eapply (sim_list args 1 [fv]); [exact CL|exact R1|reflexivity|bi|]. intros vs rho' b' m' K' R2 L2 _.
  rewrite <- (vbind_val (i_call _ _ _ _ _)). cll (@nil value); [exact R2|bi|rewrite L2; exact A|]. intros; eapply HV; eauto.
Qed.
Lemma sim_index k x i p1 p2 : code G k x p0 p1 -> code (g_deep 1 G) (k + fns x) i p1 p2 -> at_ bc p2 (INone OpLoadIndex) q0 ->
  P (vbind (i_eval I S k x m0) (fun v m1 =>
      vbind (i_eval I (deep 1 S) (k + fns x) i m1) (fun iv m2 => with_vm (get_index v iv) m2 AVal))).
Proof.
  intros C C2 A. agb; [apply start|exact C|]. intros v m1 rho1 b1 K1 R1. ev 1 [v]; [exact R1|reflexivity|exact C2|]. intros _ i' m2 rho2 b2 K2 R2.
  vmm; [exact R2|apply lead_load_index; [exact A|ft]|]. cbv beta. intros a m3 R4. eapply HV; exact R4.
Qed.
End Expr.

Section Chain.
Variable w : world.
Variable lit : nat -> fn_bytecode.
Notation code := (code lit).
Variable I : interp.
Variables (fr : frame) (ups : option (list nat)).
Variables (rho0 : names_of) (V0 : view) (b0 : list value) (p0 : nat) (m0 : memory) (K0 : links) (t0 : list value).
Variables (G : ctx) (S : scene) (lt : list value) (P : answer -> Prop) (q0 : nat).
Notation s0 := (state m0 K0 b0 t0).
Notation bc := (g_bc G).
Notation reached := (reached w lit fr ups rho0 V0 b0 p0 s0 bc).
Hypothesis H0 : here lit G S fr ups lt rho0 V0 b0 m0 K0 t0.
Hypothesis HP : closed w lit P G fr ups lt rho0 V0 b0 p0 s0 t0.
Hypothesis HV : forall v rho b m K, reached q0 (v :: t0) rho V0 b m K -> P (AVal v m).

Lemma chain_closed : closed w lit (fun a => P (chained S a)) (g_tgt q0 G) fr ups lt rho0 V0 b0 p0 s0 t0.
Proof.
  intros a Na Ra. destruct a as [v m'|m'|m'|v m'|m'|e m'| |]; try contradiction; cbn [chained]; try (apply HP; [exact Logic.I|exact Ra]).
  cbn [rest g_tgt g_null g_bc] in Ra. pose proof (h_chain _ _ _ _ _ _ _ _ _ _ _ _ H0) as HC. destruct (g_null G) as [z|] eqn:EN; rewrite HC.
  - apply HP; [exact Logic.I|]. cbn [rest]. rewrite EN. exact Ra.
  - destruct Ra as (rho' & b' & K' & L & GD). eapply HV. split; eauto.
Qed.

Hypothesis ROOM : enough <= s_room S.
Hypothesis SE : sim_eval w lit I.
Hypothesis SC : sim_call w lit I.
Ltac fin := solve [eassumption | apply here_tgt; exact H0 | exact chain_closed | exact HV].

Lemma sim_chain k e : code G k e p0 q0 ->
  match e with
  | ENullPropagate _ | EErrorPropagate _ | EFieldAccess _ _ | EFnCall _ _ | EIndex _ _ => P (eval w lit I S k e m0)
  | _ => True
  end.
Proof.
  intros C. destruct e; auto; unfold eval; (destruct (Nat.ltb_spec (s_room S) enough); [lia|]); cbn [CodeP.code] in C; unfold chain_code in C.
  - destruct C as (p1 & p2 & z & C1 & NT & EN & J).
    eapply (sim_null_propagate w lit) with (G := g_tgt q0 G) (S := target S) (P := fun a => P (chained S a)); fin.
  - destruct C as (p1 & p2 & p3 & p4 & p5 & p6 & U & C1 & A1 & A2 & J & D & RT & A3).
    eapply (sim_error_propagate w lit) with (G := g_tgt q0 G) (S := target S) (P := fun a => P (chained S a)); fin.
  - destruct C as (p1 & C1 & A). eapply (sim_field w lit) with (G := g_tgt q0 G) (S := target S) (P := fun a => P (chained S a)); fin.
  - destruct C as (p1 & p2 & C1 & C2 & A). eapply (sim_fn_call w lit) with (G := g_tgt q0 G) (S := target S) (P := fun a => P (chained S a)); fin.
  - destruct C as (p1 & p2 & C1 & C2 & A). eapply (sim_index w lit) with (G := g_tgt q0 G) (S := target S) (P := fun a => P (chained S a)); fin.
Qed.
End Chain.
