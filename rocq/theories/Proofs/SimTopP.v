(** The simulation: code that stands for an expression runs as the interpreter says. *)
From Verif.Model Require Import Assembler.
From Verif.Spec Require Import SupportSpec.
From Verif.Proofs Require Import StackP VmPrimP CallP ReachP CodeP MemP StepP ScopeSimP CallSimP SimP SimExprP SimBlockP SimLoopP SimModP SimFnP.
#[local] Open Scope string_scope.
#[local] Open Scope list_scope.
#[local] Open Scope nat_scope.

Section Top.
Variable w : world.
Variable lit : nat -> fn_bytecode.
Notation code := (code lit).

Lemma closed_in P G fr ups lt rho V b p s t : closed w lit P G fr ups lt rho V b p s t -> closed w lit P (g_in G) fr ups lt rho V b p s t.
Proof. intros H a Ha R. apply H; auto. destruct a; cbn [rest] in *; auto. contradiction. Qed.

Section Expr.
Variable I : interp.
Hypothesis SE : sim_eval w lit I.
Hypothesis IMP : sim_import w lit I.
Hypothesis SC : sim_call w lit I.
Hypothesis SR : sim_range w lit I.
Hypothesis SI : sim_iter w lit I.
Variables (fr : frame) (ups : option (list nat)).
Variables (rho0 : names_of) (V0 : view) (b0 : list value) (p0 : nat) (m0 : memory) (K0 : links) (t0 : list value).
Variables (G : ctx) (S : scene) (lt : list value) (P : answer -> Prop) (q0 : nat).
Notation s0 := (state m0 K0 b0 t0).
Notation bc := (g_bc G).
Notation reached := (reached w lit fr ups rho0 V0 b0 p0 s0 bc).
Hypothesis H0 : here lit G S fr ups lt rho0 V0 b0 m0 K0 t0.
Hypothesis HP : closed w lit P G fr ups lt rho0 V0 b0 p0 s0 t0.
Hypothesis HV : forall v rho b m K, reached q0 (v :: t0) rho V0 b m K -> P (AVal v m).
Hypothesis ROOM : enough <= s_room S.
Lemma H1 : here lit (g_in G) (inner S) fr ups lt rho0 V0 b0 m0 K0 t0.
Proof.
  rewrite inner_deep. change t0 with ([] ++ t0). eapply here_deep; [exact H0|apply H0|apply ext_refl|reflexivity|reflexivity|lia].
Qed.

Lemma range_for k op x first last body : op = BRangeInclusive \/ op = BRangeExclusive -> code G k (EFor x (EBinary op first last) body) p0 q0 ->
  P (eval w lit I S k (EFor x (EBinary op first last) body) m0).
Proof.
  intros OP C.
  set (inc := match op with BRangeInclusive => true | _ => false end).
  assert (C' : exists p1 p2, code (g_in G) k last p0 p1 /\ code (g_deep 1 G) (k + fns last) first p1 p2 /\ range_code lit G (k + fns last + fns first) inc x body p2 q0).
  { destruct OP as [-> | ->]; cbn [CodeP.code] in C; destruct C as (fl & p1 & p2 & p3 & p4 & p5 & p6 & p7 & p8 & p9 & p10 & p11 & p12 & p13 & p14 & C);
      cbv zeta in C; destruct C as (HR & C1 & C2 & C); exists p1, p2; (split; [exact C1|split; [exact C2|]]);
      exists fl, p3, p4, p5, p6, p7, p8, p9, p10, p11, p12, p13, p14; (split; [exact HR|exact C]). }
  destruct C' as (p1 & p2 & C1 & C2 & C3).
  assert (EE : eval w lit I S k (EFor x (EBinary op first last) body) m0 =
    (vbind (i_eval I (inner S) k last m0) (fun limit m1 =>
      vbind (i_eval I (deep 1 S) (k + fns last) first m1) (fun v m2 =>
      i_range I (inner S) (k + fns last + fns first) inc x body v limit m2)))).
  { unfold eval. destruct (Nat.ltb_spec (s_room S) enough); [lia|]. destruct OP as [-> | ->]; reflexivity. }
  rewrite EE.
  eapply (use_inner w lit I fr ups rho0 V0 b0 p0 m0 K0 t0 t0 G S lt P H0 HP ROOM SE); [apply (start w lit fr ups rho0 V0 b0 p0 m0 K0 t0 t0 G S lt H0)|exact C1|].
  intros limit m1 rho1 b1 K1 R1.
  eapply (use_eval w lit I fr ups rho0 V0 b0 p0 m0 K0 t0 t0 G S lt P H0 HP ROOM SE 1 [limit]); [exact R1|reflexivity|exact C2|].
  intros RM v m2 rho2 b2 K2 R2.
  eapply (range_again w lit I fr ups rho0 V0 b0 p0 m0 K0 t0 t0 G (inner S) lt P q0 SR HV H1 (closed_in _ _ _ _ _ _ _ _ _ _ _ HP) RM); [exact R2|exact C3].
Qed.

Lemma iter_for k x e1 body : (match e1 with EBinary (BRangeInclusive | BRangeExclusive) _ _ => False | _ => True end) -> code G k (EFor x e1 body) p0 q0 ->
  P (eval w lit I S k (EFor x e1 body) m0).
Proof.
  intros OP C.
  assert (C' : exists p1 p2 p3 p4, code (g_in G) k e1 p0 p1 /\ at_const bc OpLoadField (CSymbol "iter") p1 p2 /\ at_ bc p2 (IByte OpCall 0) p3 /\
      at_const bc OpLoadField (CSymbol "next") p3 p4 /\ iter_code lit G (k + fns e1) x body p4 q0).
  { assert (C' : exists fl p1 p2 p3 p4 p5 p6 p7 p8 p9 p10 p11 p12 p13 p14 p15 p16 p17,
      let slot := List.length (g_vars G) in
      let G' := with_loop None (extend [(x, fl)] (g_deep 1 G)) in
      has_room G /\
      code (g_in G) k e1 p0 p1 /\ at_const bc OpLoadField (CSymbol "iter") p1 p2 /\ at_ bc p2 (IByte OpCall 0) p3 /\
      at_const bc OpLoadField (CSymbol "next") p3 p4 /\
      at_ bc p4 (IByte OpDup 0) p5 /\ at_ bc p5 (IByte OpCall 0) p6 /\ at_ bc p6 (IByte OpDup 0) p7 /\
      at_const bc OpLoadField (CSymbol "is_done") p7 p8 /\ jumps bc OpJumpIfTrue p8 p9 p15 /\
      (exists i, at_ bc p9 (ITwo OpLoadFieldToLocal i slot) p10 /\ nth_error (bc_constants bc) i = Some (CSymbol "value")) /\
      at_ bc p10 (INone OpPop) p11 /\ code G' (k + fns e1) body p11 p12 /\ at_ bc p12 (INone OpPop) p13 /\
      closes bc (if fl then [slot] else []) p13 p14 /\ jumps bc OpJump p14 p15 p4 /\
      at_ bc p15 (INone OpPop) p16 /\ at_ bc p16 (INone OpPop) p17 /\ at_ bc p17 (INone OpPushUnit) q0).
    { destruct e1; try exact C. destruct op; try contradiction; exact C. }
    clear C. destruct C' as (fl & p1 & p2 & p3 & p4 & p5 & p6 & p7 & p8 & p9 & p10 & p11 & p12 & p13 & p14 & p15 & p16 & p17 & C).
    cbv zeta in C. destruct C as (HR & C1 & C2 & C3 & C4 & C). exists p1, p2, p3, p4. repeat (split; [assumption|]).
    exists fl, p5, p6, p7, p8, p9, p10, p11, p12, p13, p14, p15, p16, p17. split; [exact HR|exact C]. }
  destruct C' as (p1 & p2 & p3 & p4 & C1 & A2 & A3 & A4 & C5).
  assert (EE : eval w lit I S k (EFor x e1 body) m0 =
      vbind (i_eval I (inner S) k e1 m0) (fun v m1 =>
      with_vm (get_field "iter" v) m1 (fun f m2 =>
      vbind (i_call I (s_room S) f [] m2) (fun it m3 =>
      with_vm (get_field "next" it) m3 (fun next m4 => i_iter I (inner S) (k + fns e1) x body next m4))))).
  { unfold eval. destruct (Nat.ltb_spec (s_room S) enough); [lia|]. destruct e1; try reflexivity. destruct op; try contradiction; reflexivity. }
  rewrite EE.
  pose proof (h_room _ _ _ _ _ _ _ _ _ _ _ _ H0) as HR.
  eapply (use_inner w lit I fr ups rho0 V0 b0 p0 m0 K0 t0 t0 G S lt P H0 HP ROOM SE); [apply (start w lit fr ups rho0 V0 b0 p0 m0 K0 t0 t0 G S lt H0)|exact C1|].
  intros v m1 rho1 b1 K1 R1. pose proof (reached_len _ _ _ _ _ _ _ _ _ _ _ _ _ _ _ _ _ R1) as L1.
  eapply (use_vm w lit fr ups rho0 V0 b0 p0 m0 K0 t0 t0 G lt P HP); [exact R1|apply lead_load_field; [exact A2|unfold fits, enough in *; lia]|]. cbv beta.
  intros f m2 R2.
  eapply (use_call w lit I fr ups rho0 V0 b0 p0 m0 K0 t0 t0 G S lt P H0 HP ROOM SC (s_room S) [] f []); [exact R2|cbn; lia|exact A3|].
  intros it m3 rho3 b3 K3 R3. cbn [app] in R3. pose proof (reached_len _ _ _ _ _ _ _ _ _ _ _ _ _ _ _ _ _ R3) as L3.
  eapply (use_vm w lit fr ups rho0 V0 b0 p0 m0 K0 t0 t0 G lt P HP); [exact R3|apply lead_load_field; [exact A4|unfold fits, enough in *; lia]|]. cbv beta.
  intros next m4 R4.
  destruct (Nat.lt_ge_cases (s_room S) (enough + 1)) as [Lo|Hi].
  - rewrite (proj2 SI) by exact Lo. apply HP; exact Logic.I.
  - eapply (iter_again w lit I fr ups rho0 V0 b0 p0 m0 K0 t0 t0 G (inner S) lt P q0 SI HV H1 (closed_in _ _ _ _ _ _ _ _ _ _ _ HP) Hi); [exact R4|exact C5].
Qed.

Lemma sim_block k es t : code G k (EBlock es t) p0 q0 -> P (block lit I (inner S) k es t m0).
Proof.
  intros C. cbn [CodeP.code] in C.
  eapply (block_sim w lit I fr ups rho0 V0 b0 p0 m0 K0 t0 t0 (g_in G) (inner S) lt P H1 eq_refl (closed_in _ _ _ _ _ _ _ _ _ _ _ HP) ROOM SE IMP false);
    [apply (start w lit fr ups rho0 V0 b0 p0 m0 K0 t0 t0 G S lt H0)|exact C|].
  intros v rho' b' m' K' R. eapply HV; exact R.
Qed.

Lemma sim_class k name es base : code G k (EClassDecl name es base) p0 q0 -> P (class_decl lit I (inner S) k name es base m0).
Proof.
  intros C. cbn [CodeP.code] in C.
  eapply (class_sim w lit I fr ups rho0 V0 b0 p0 m0 K0 t0 t0 (g_in G) (inner S) lt P H1 eq_refl (closed_in _ _ _ _ _ _ _ _ _ _ _ HP) ROOM SE);
    [apply (start w lit fr ups rho0 V0 b0 p0 m0 K0 t0 t0 G S lt H0)|exact C|].
  intros v rho' b' m' K' R. eapply HV; exact R.
Qed.

Lemma expr_sim k e : code G k e p0 q0 -> P (eval w lit I S k e m0).
Proof.
  intros C. pose proof (sim_literal w lit fr ups rho0 V0 b0 p0 m0 K0 t0 G S lt P q0 H0 HV ROOM k e C) as LIT.
  pose proof (sim_chain w lit I fr ups rho0 V0 b0 p0 m0 K0 t0 G S lt P q0 H0 HP HV ROOM SE SC k e C) as CH.
  assert (FOR : match e with EFor x e1 body => P (eval w lit I S k e m0) | _ => True end).
  { destruct e; try exact Logic.I. destruct e1; try (apply iter_for; [exact Logic.I|exact C]).
    destruct op; try (apply iter_for; [exact Logic.I|exact C]); apply range_for; auto. }
  assert (EV : forall a, eval w lit I S k e m0 = a -> P a -> P (eval w lit I S k e m0)) by (intros a -> H; exact H).
  destruct e; try contradiction; try (exact CH); try (exact FOR); clear CH FOR; (eapply EV; [unfold eval; destruct (Nat.ltb_spec (s_room S) enough); [lia|reflexivity]|]); try (exact LIT); clear LIT EV.
  all: try (eapply (sim_ident w lit fr ups rho0 V0 b0 p0 m0 K0 t0 G S lt P q0); eassumption).
  all: try (eapply (sim_fn w lit fr ups rho0 V0 b0 p0 m0 K0 t0 G S lt P q0); eassumption).
  all: try (eapply (sim_list_literal w lit I fr ups rho0 V0 b0 p0 m0 K0 t0 G S lt P q0); eassumption).
  all: try (eapply (sim_object w lit I fr ups rho0 V0 b0 p0 m0 K0 t0 G S lt P q0); eassumption).
  all: try (eapply (sim_prefix w lit I fr ups rho0 V0 b0 p0 m0 K0 t0 G S lt P q0); eassumption).
  all: try (eapply (sim_binary w lit I fr ups rho0 V0 b0 p0 m0 K0 t0 G S lt P q0); eassumption).
  all: try (eapply (sim_is w lit I fr ups rho0 V0 b0 p0 m0 K0 t0 G S lt P q0); eassumption).
  all: try (eapply (sim_if w lit I fr ups rho0 V0 b0 p0 m0 K0 t0 G S lt P q0); eassumption).
  all: try (eapply (sim_assign w lit I fr ups rho0 V0 b0 p0 m0 K0 t0 G S lt P q0); eassumption).
  all: try (eapply (sim_break w lit fr ups rho0 V0 b0 p0 m0 K0 t0 G S lt P q0); eassumption).
  all: try (eapply (sim_continue w lit fr ups rho0 V0 b0 p0 m0 K0 t0 G S lt P q0); eassumption).
  all: try (eapply (sim_return w lit I fr ups rho0 V0 b0 p0 m0 K0 t0 G S lt P q0); eassumption).
  all: try (eapply (sim_super_call w lit I fr ups rho0 V0 b0 p0 m0 K0 t0 G S lt P q0); eassumption).
  all: try (eapply (sim_super_access w lit fr ups rho0 V0 b0 p0 m0 K0 t0 G S lt P q0); eassumption).
  all: try (eapply sim_class; eassumption).
  all: try (eapply sim_block; eassumption).
  all: try (apply HP; exact Logic.I).
  - destruct e2; try contradiction. eapply (sim_while w lit I fr ups rho0 V0 b0 p0 m0 K0 t0 t0 G S lt P q0); try eassumption. reflexivity.
  - destruct e; try contradiction. eapply (sim_loop w lit I fr ups rho0 V0 b0 p0 m0 K0 t0 t0 G S lt P q0); try eassumption. reflexivity.
Qed.
End Expr.

Lemma post_closed G fr ups lt rho V b p s t q : closed w lit (post w lit G fr ups lt rho V b p s t q) G fr ups lt rho V b p s t.
Proof. intros a Ha R. destruct a; try contradiction; exact R. Qed.
Lemma post_val G fr ups lt rho V b p s t q v rho' b' m K :
  reached w lit fr ups rho V b p s (g_bc G) q (v :: t) rho' V b' m K -> post w lit G fr ups lt rho V b p s t q (AVal v m).
Proof. intros (L & H). exists rho', b', K. auto. Qed.

End Top.

(** The interpreter at every amount of fuel. *)
Lemma interpreter_sim w pg n : natives_blind w -> same_library w (pg_lit pg) (pg_library pg) ->
  let I := interpreter w pg n in let lit := pg_lit pg in sim_eval w lit I /\ sim_call w lit I /\ sim_range w lit I /\ sim_iter w lit I /\ sim_import w lit I.
Proof.
  intros W LIB. cbv zeta. set (lit := pg_lit pg) in *. induction n as [|n (SE & SC & SR & SI & IMP)].
  - cbn [interpreter]. repeat split; intros; exact Logic.I.
  - cbn [interpreter]. fold lit. set (I := interpreter w pg n) in *. repeat split; intros.
    + cbn [i_eval]. eapply (expr_sim w lit I SE IMP SC SR SI _ _ _ _ _ _ _ _ _ G S lt _ q); [exact H|apply post_closed| |assumption|assumption]. intros. eapply post_val; eassumption.
    + cbn [i_eval]. unfold eval. destruct (Nat.ltb_spec (s_room S) enough); [reflexivity|lia].
    + cbn [i_call]. eapply call_fn_sim; eassumption.
    + cbn [i_call]. unfold call. destruct (Nat.ltb_spec room (1 + List.length args)); [reflexivity|lia].
    + cbn [i_range]. eapply (range_sim w lit I); try eassumption; [|apply post_closed|reflexivity]. intros. eapply (post_val w lit (g_in G)); eassumption.
    + cbn [i_range]. unfold range. destruct (Nat.ltb_spec (s_room S) (enough + 1)); [reflexivity|lia].
    + cbn [i_iter]. eapply (iter_sim w lit I); try eassumption; [|apply post_closed|reflexivity]. intros. eapply (post_val w lit (g_in G)); eassumption.
    + cbn [i_iter]. unfold EvalSpec.iter. destruct (Nat.ltb_spec (s_room S) (enough + 1)); [reflexivity|lia].
    + unfold sim_import. intros. cbn [i_import]. eapply import_run_sim; eassumption.
Qed.
