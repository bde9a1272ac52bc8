(** What function literals, blocks and statements leave in the finished bytecode. *)
From Verif.Model Require Import Compiler Assembler.
From Verif.Spec Require Import Encoding SupportSpec.
From Verif.Proofs Require Import ExprInd ReachP CodeP CodecP AssemblerP PoolP WellFormedP WellFormedPrimP CaptureP StackP EmitP VisitMonoP FitsP JumpsP ScopesP DeclsP.
#[local] Open Scope string_scope.
#[local] Open Scope list_scope.
#[local] Open Scope nat_scope.

Lemma captured_slot vs g v : numbered vs -> agree vs g -> In v vs -> sv_captured v = true -> nth_error (rev g) (sv_slot v) = Some (sv_name v, true).
Proof.
  intros NB A. revert NB. induction A as [|w [y fl] vs g (A1 & A2) A IH]; intros NB H HC; [destruct H|]. destruct H as [<-|H].
  - destruct NB as (NB & _). cbn [fst snd] in *. rewrite (A2 HC), A1. cbn [rev]. rewrite NB, (F2_length _ _ _ A), <- rev_length, nth_error_app2 by apply le_n. rewrite Nat.sub_diag. reflexivity.
  - destruct NB as (_ & NB). cbn [rev]. specialize (IH NB H HC). rewrite nth_error_app1; [exact IH|]. apply nth_error_Some. rewrite IH. discriminate.
Qed.
Lemma make_new c a i a' : make_constant c a = Ok (i, a') -> (forall c', In c' (asm_consts a) -> const_eqb c' c = false) -> nth_error (asm_consts a') i = Some c.
Proof.
  unfold make_constant. destruct (position _ (asm_consts a)) as [p|] eqn:E; intros H HN.
  - exfalso. apply position_some in E. destruct E as (c' & E1 & E2). apply nth_error_In in E1. rewrite (HN _ E1) in E2. discriminate.
  - cbn [asm_consts] in H. rewrite app_length in H. cbn [List.length] in H. rewrite Nat.add_sub in H. destruct (Nat.ltb_spec 255 (List.length (asm_consts a))) as [|L]; [discriminate|]. injection H as <- <-.
    cbn [asm_consts]. unfold u8_of. rewrite Nat.mod_small by lia. rewrite nth_error_app2, Nat.sub_diag by apply le_n. reflexivity.
Qed.

Section FnCode.
Variable lit : nat -> fn_bytecode.
Local Notation fits := (fits lit).
Local Notation static := (static lit).
Local Notation ED := (ED lit).
Local Notation EE := (EE lit).

(** ** The code of a function *)
Definition fn_scene (bc : bytecode) (ups : list upvalue_desc) (ret : role) (G : ctx) : ctx :=
  Ctx bc [] ups (level_of G :: g_outer G) (Some ret) None None 0.
Record compiled (ret : role) (n : nat) (R : ctx -> nat -> unit -> nat -> nat -> Prop) (s : cstate) (c : context) (s' : cstate) : Prop := {
  cf_wf : wf s'; cf_asm : cx_asm (top s') = cx_asm (top s); cf_next : cs_next_id s' = cs_next_id s + n;
  cf_code : forall c0 G b, static c0 G b s' -> tame lit (finish c) ->
    R (fn_scene (finish c) (cx_upvalues c) ret G) (cs_next_id s) tt 0 (List.length (bc_data (finish c)));
  cf_descs : forall c0 G b, static c0 G b s' -> Forall (CodeP.desc_ok G) (cx_upvalues c) }.
Lemma fn_unit P C n k ret m R : role_of k = Some ret -> EE P C n m R -> pl_chain P = Fresh -> pl_exit P = false ->
  forall s c s', wf s -> bind (push_context k) (fun _ => bind m (fun _ => pop_context)) s = Ok (c, s') -> compiled ret n R s c s'.
Proof.
  intros HR H HP HX s c s' W E. apply bind_ok in E. destruct E as (u & s1 & E1 & E). injection E1 as _ <-. apply bind_ok in E. destruct E as ([] & s2 & E2 & E).
  fold (entered k s) in E2. pose proof (entered_wf k s W) as W1.
  destruct (H _ _ _ W1 ltac:(unfold placed; rewrite HP; reflexivity) E2) as (M & K). pose proof (mv_wf _ _ _ _ _ M) as W2. destruct (mv_mono _ _ _ _ _ M) as (N & O).
  apply (pop_context_ok _ _ _ W2) in E. destruct E as (-> & ->). destruct (left_spec _ _ _ _ _ W W2 O) as (W3 & M3 & _).
  pose proof (m_outer _ _ _ _ _ O) as F. change (outer (entered k s)) with (cs_stack s) in F.
  split.
  - exact W3.
  - rewrite (stack_eta s W) in F. cbn [cs_stack] in F. unfold left_fn, top at 1. cbn [cs_stack]. inversion F as [|a b r r' O1 O2 Q1 Q2]; subst. cbn [hd]. exact (ol_asm _ _ _ O1).
  - exact (mv_next _ _ _ _ _ M).
  - intros c0 G b ST TM. apply (K (fn_scene (finish (top s2)) (cx_upvalues (top s2)) ret G)).
    + cbn [List.length]. rewrite drop_0. split; cbn [fn_scene g_fn g_depth g_loop g_null]; try discriminate.
      * intros _. exists ret. rewrite <- HR. reflexivity.
      * intros _. reflexivity.
      * rewrite HX. discriminate.
      * rewrite HP. reflexivity.
    + rewrite HP. split; [|intros i _ _; reflexivity]. destruct ST as [F1 F2 F3 F4 F5 F6 F7 F8 F9 F11 F12].
      split; cbn [fn_scene g_bc g_vars g_ups g_outer g_fn g_loop g_null]; try discriminate.
      * exact TM.
      * apply le_n.
      * apply prefix_refl.
      * apply prefix_refl.
      * reflexivity.
      * destruct (mono_vars _ _ _ _ _ W1 W2 O) as (new & old & V1 & V2 & V3 & _). apply map_eq_nil in V2. subst new. inversion V3 as [V4 V5|]; subst. rewrite V1. constructor.
      * pose proof (stack_eta _ W3) as SE. change (cs_stack (left_fn s2)) with (outer s2) in SE. assert (SE2 : outer s2 = top (left_fn s2) :: outer (left_fn s2)) by (pose proof (f_equal cs_stack SE) as X; exact X).
        rewrite SE2. constructor; [|exact F7]. split; [exact F6|exact F4].
      * apply le_n.
      * rewrite (m_kind _ _ _ _ _ O). symmetry. exact HR.
  - intros c0 G b ST. pose proof (wf_chained _ W2) as CH. rewrite (stack_eta s2 W2) in CH. cbn [cs_stack chained] in CH.
    pose proof (f_equal cs_stack (stack_eta _ W3)) as SE2. change (cs_stack (left_fn s2)) with (outer s2) in SE2. cbn [cs_stack] in SE2. rewrite SE2 in CH. destruct CH as (CH & _).
    rewrite Forall_forall in *. intros d Hd. specialize (CH d Hd). destruct d as [j mt|j mt]; cbn [desc_in CodeP.desc_ok] in *.
    + destruct CH as (v & V1 & <- & V3). exists (sv_name v). exact (captured_slot _ _ _ (top_numbered _ W3) (f_vars _ _ _ _ _ ST) V1 V3).
    + pose proof (prefix_length _ _ (f_ups _ _ _ _ _ ST)) as X. unfold ups in X. change (@List.length upvalue_desc) with (@List.length upvalue_desc) in *. lia.
Qed.

(** Pushing a compiled function. *)
Lemma upvalue_bytes_desc G d : List.length (g_vars G) <= 256 -> List.length (g_ups G) <= 256 -> CodeP.desc_ok G d -> upvalue_bytes d = [fst (desc_bytes d); snd (desc_bytes d)].
Proof.
  intros L1 L2 H. unfold upvalue_bytes. destruct d as [j mt|j mt]; cbn [upvalue_description desc_bytes fst snd CodeP.desc_ok] in *.
  - destruct H as (x & H). assert (j < List.length (g_vars G)) by (rewrite <- rev_length; apply nth_error_Some; rewrite H; discriminate). rewrite u8_small by lia. reflexivity.
  - rewrite u8_small by lia. reflexivity.
Qed.
Lemma closure_bytes G ds : List.length (g_vars G) <= 256 -> List.length (g_ups G) <= 256 -> Forall (CodeP.desc_ok G) ds ->
  flat_map upvalue_bytes ds = flat_map (fun '(a, b) => [a; b]) (map desc_bytes ds).
Proof. intros L1 L2. induction 1 as [|d ds H F IH]; cbn; [reflexivity|]. rewrite (upvalue_bytes_desc G d L1 L2 H), IH. destruct (desc_bytes d). reflexivity. Qed.
Lemma new_const id name c s : (forall f, In (CFunction f) (consts s) -> fn_id f < id) ->
  forall c', In c' (asm_consts (cx_asm (top s))) -> const_eqb c' (CFunction (MkFn id name (finish c))) = false.
Proof. intros H [z|z|z|z|f] Hc; try reflexivity. cbn. apply Nat.eqb_neq. specialize (H f Hc). lia. Qed.
Lemma pushed_fn C name id c s u s' : wf s -> id < cs_next_id s -> (forall f, In (CFunction f) (consts s) -> fn_id f < id) -> emit_compiled name id c s = Ok (u, s') ->
  moves [] C 0 s s' /\ forall c0 G, fits c0 G (pos s) s' -> Forall (CodeP.desc_ok G) (cx_upvalues c) ->
    lit id = MkFn id name (finish c) /\ tame lit (finish c) /\
    exists i, nth_error (bc_constants (g_bc G)) i = Some (CFunction (lit id)) /\
      match cx_upvalues c with [] => at_ (g_bc G) (pos s) (IByte OpPushConst i) (pos s') | ds => at_ (g_bc G) (pos s) (IClosure i (map desc_bytes ds)) (pos s') end.
Proof.
  intros W LT HN E. assert (MV : moves [] C 0 s s').
  { destruct (Tlt_compiled name id c (pos s) C (kind_names (kind s)) s u s' LT W (le_n _) (incl_refl _) E) as (X1 & X2 & X3 & X4). split; eauto. }
  split; [exact MV|]. pose proof (mv_wf _ _ _ _ _ MV) as W'. intros c0 G F DO. pose proof (new_const id name c s HN) as NC.
  assert (FIN : forall i, nth_error (consts s') i = Some (CFunction (MkFn id name (finish c))) -> lit id = MkFn id name (finish c) /\ tame lit (finish c) /\ nth_error (bc_constants (g_bc G)) i = Some (CFunction (lit id))).
  { intros i Hi. pose proof (const_final _ _ _ _ _ _ _ F Hi) as HF. pose proof (f_tame _ _ _ _ _ F) as TM. inversion TM as [bc L1 L2 L3 L4 EQ]. destruct (L4 _ (nth_error_In _ _ HF)) as (L5 & L6). cbn [fn_id fn_code] in L5, L6. rewrite L5. auto. }
  unfold emit_compiled in E. destruct (cx_upvalues c) as [|d ds] eqn:EU.
  - apply on_asm_with in E. destruct E as (asm & E & ->). apply omap_ok in E. destruct E as (a1 & E & [= _ <-]). unfold emit_const in E. apply obind_ok in E.
    destruct E as ([i a2] & E & [= <-]). destruct (make_constant_prefix _ _ _ _ E) as (_ & D). destruct (FIN i (make_new _ _ _ _ E NC)) as (X1 & X2 & X3). split; [exact X1|]. split; [exact X2|]. exists i. split; [exact X3|].
    eapply emitted; eauto; [rewrite emit1_data, D; reflexivity|]. reflexivity.
  - apply on_asm_with in E. destruct E as (asm & E & ->). apply omap_ok in E. destruct E as (a1 & E & [= _ <-]). unfold emit_closure in E. apply obind_ok in E.
    destruct E as ([i a2] & E & E2). destruct (255 <? _); [discriminate|]. injection E2 as <-. destruct (make_constant_prefix _ _ _ _ E) as (_ & D). destruct (FIN i (make_new _ _ _ _ E NC)) as (X1 & X2 & X3).
    split; [exact X1|]. split; [exact X2|]. exists i. split; [exact X3|].
    assert (S2 : List.length (g_ups G) <= 256) by (pose proof (f_tame _ _ _ _ _ F) as TM; inversion TM as [bc L1 L2 L3 L4 EQ]; pose proof (f_count _ _ _ _ _ F); lia).
    assert (S1 : List.length (g_vars G) <= 256) by exact (proj1 (fits_small _ _ _ _ _ W' F)).
    eapply emitted; eauto.
    + match goal with |- asm_data ?a = _ => change (asm_data a) with ((asm_data a2 ++ [i]) ++ flat_map upvalue_bytes (d :: ds)) end. cbn [put_u8 asm_data] in D. rewrite D, (closure_bytes G (d :: ds) S1 S2 DO), <- !app_assoc. reflexivity.
    + rewrite X1 in X3. cbn [instr_ok]. rewrite X3. cbn [fn_code finish generate bc_upvalue_count]. rewrite EU, map_length. reflexivity.
Qed.

(** ** Function literals *)
Definition numbered_after (s : cstate) : cstate := CState (cs_stack s) (S (cs_next_id s)).
Lemma fresh_moves C s : wf s -> moves [] C 1 s (numbered_after s).
Proof.
  intros W. pose proof (T_moves [] [] C 1 (bind fresh_id (fun id => ret id)) (fun _ => True) s (cs_next_id s) (numbered_after s)) as X. apply X; [|exact W|reflexivity].
  intros b N _. change 1 with (1 + 0). apply T_fresh_bind. intros id. eapply T_Tlt. apply (T_ret b C N id (fun _ => True)). exact Logic.I.
Qed.
Definition role_for (fk : fn_kind) (ret : option type_ann) : role := match fk with FkConstructor _ => Constructing | _ => Returning ret end.
Lemma role_for_kind fk ret : role_of (kind_of fk ret) = Some (role_for fk ret).
Proof. destruct fk; reflexivity. Qed.
Section Literal.
Variables (ret_ : option type_ann) (fk : fn_kind) (n : nat) (R : ctx -> nat -> unit -> nat -> nat -> Prop) (fn : nat -> nat -> ctx -> list upvalue_desc -> Prop).
Hypothesis fn_made : forall id k G ups q, bc_upvalue_count (fn_code (lit id)) = List.length ups -> R (fn_scene (fn_code (lit id)) ups (role_for fk ret_) G) k tt 0 q -> fn id k G ups.
Lemma literal_core C name id c m s1 s2 s3 u s4 : compiled (role_for fk ret_) n R s1 c s2 -> moves [] C m s2 s3 -> id < cs_next_id s3 -> (forall f, In (CFunction f) (consts s3) -> fn_id f < id) ->
  emit_compiled name id c s3 = Ok (u, s4) ->
  moves [] C 0 s3 s4 /\ forall c0 G, fits c0 G (pos s3) s4 -> literal lit G id (fun ups => fn id (cs_next_id s1) G ups) (pos s3) (pos s4).
Proof.
  intros CF M3 LT HN E. pose proof (mv_wf _ _ _ _ _ M3) as W3. pose proof (cf_wf _ _ _ _ _ _ CF) as W2. destruct (pushed_fn C _ _ _ _ _ _ W3 LT HN E) as (M4 & K). split; [exact M4|]. intros c0 G F.
  assert (S2 : static c0 G (pos s3) s2).
  { eapply static_le0; [exact W2|exact W3|exact (moves_le _ _ _ _ _ M3)|apply le_n|]. eapply static_le0; [exact W3|exact (mv_wf _ _ _ _ _ M4)|exact (moves_le _ _ _ _ _ M4)|apply le_n|exact (f_static _ _ _ _ _ F)]. }
  pose proof (cf_descs _ _ _ _ _ _ CF _ _ _ S2) as DO. destruct (K _ _ F DO) as (K1 & K2 & i & K3 & K4). pose proof (cf_code _ _ _ _ _ _ CF _ _ _ S2 K2) as K5.
  exists (cx_upvalues c), i. split; [|split; [exact K3|]].
  - apply (fn_made id (cs_next_id s1) G (cx_upvalues c) (List.length (bc_data (finish c)))); rewrite K1; [reflexivity|exact K5].
  - destruct (cx_upvalues c); [exact K4|]. split; [exact K4|exact DO].
Qed.
Variables (P Pf : place) (C Cb : list string) (args : list fn_arg) (body : expr) (m : M unit).
Hypothesis compile_is : forall s r, compile_fn visit args ret_ fk body s = Ok r -> bind (push_context (kind_of fk ret_)) (fun _ => bind m (fun _ => pop_context)) s = Ok r.
Hypothesis compile_moves : moving [] C n (compile_fn visit args ret_ fk body).
Hypothesis body_code : EE Pf Cb n m R.
Hypothesis body_fresh : pl_chain Pf = Fresh.
Hypothesis body_exit : pl_exit Pf = false.
Lemma compile_unit s c s' : wf s -> compile_fn visit args ret_ fk body s = Ok (c, s') -> compiled (role_for fk ret_) n R s c s'.
Proof. intros W E. apply compile_is in E. exact (fn_unit Pf Cb n (kind_of fk ret_) (role_for fk ret_) m R (role_for_kind fk ret_) body_code body_fresh body_exit s c s' W E). Qed.
Lemma EE_anonymous : fk = FkFunction -> EE P C (1 + n) (visit_anonymous_fn visit args ret_ body) (fun G k _ p q => literal lit G k (fun ups => fn k (k + 1) G ups) p q).
Proof.
  intros EF s u s' W PL E. unfold visit_anonymous_fn in E. rewrite <- EF in E. apply bind_ok in E. destruct E as (id & s1 & E1 & E). injection E1 as <- <-. fold (numbered_after s) in E. apply bind_ok in E. destruct E as (c & s2 & E2 & E).
  pose proof (fresh_moves C s W) as M1. pose proof (mv_wf _ _ _ _ _ M1) as W1. pose proof (compile_unit _ _ _ W1 E2) as CF. pose proof (compile_moves _ _ _ W1 E2) as M2.
  pose proof (cf_wf _ _ _ _ _ _ CF) as W2. pose proof (cf_asm _ _ _ _ _ _ CF) as A2. pose proof (cf_next _ _ _ _ _ _ CF) as N2. cbn [numbered_after cs_next_id] in N2.
  assert (LT : cs_next_id s < cs_next_id s2) by lia.
  assert (HN : forall f, In (CFunction f) (consts s2) -> fn_id f < cs_next_id s).
  { unfold consts. rewrite A2. intros f Hf. pose proof W as W'. rewrite (stack_eta s W) in W'. exact (cw_consts _ _ (wf_top _ _ _ W') f Hf). }
  destruct (literal_core C _ _ _ 0 _ _ _ _ _ CF (moves_refl C s2 W2) LT HN E) as (M3 & K).
  split; [eapply (moves_trans [] []); [exact M1|]; rewrite <- (Nat.add_0_r n); eapply (moves_trans [] []); eauto|].
  intros G S F. assert (PS : pos s2 = pos s) by (unfold pos, data; rewrite A2; reflexivity). rewrite <- PS in *. specialize (K _ _ F). cbn [numbered_after cs_next_id] in K. rewrite Nat.add_1_r. exact K.
Qed.
Lemma decl_core name s c s1 s3 u s4 : wf s -> compile_fn visit args ret_ fk body s = Ok (c, s1) -> moves [] C 0 (numbered_after s1) s3 -> cx_asm (top s3) = cx_asm (top s1) ->
  emit_compiled name (cs_next_id s1) c s3 = Ok (u, s4) ->
  moves [] C (n + 1) s s4 /\ forall c0 G, fits c0 G (pos s) s4 -> literal lit G (cs_next_id s + n) (fun ups => fn (cs_next_id s + n) (cs_next_id s) G ups) (pos s) (pos s4).
Proof.
  intros W E M3 A3 E4. pose proof (compile_unit _ _ _ W E) as CF. pose proof (compile_moves _ _ _ W E) as M1. pose proof (cf_wf _ _ _ _ _ _ CF) as W1. pose proof (cf_asm _ _ _ _ _ _ CF) as A1.
  pose proof (fresh_moves C s1 W1) as M2. pose proof (mv_next _ _ _ _ _ M3) as N3. cbn [numbered_after cs_next_id] in N3. rewrite <- (cf_next _ _ _ _ _ _ CF).
  assert (LT : cs_next_id s1 < cs_next_id s3) by lia.
  assert (HN : forall f, In (CFunction f) (consts s3) -> fn_id f < cs_next_id s1).
  { unfold consts. rewrite A3. intros f Hf. pose proof W1 as W'. rewrite (stack_eta s1 W1) in W'. exact (cw_consts _ _ (wf_top _ _ _ W') f Hf). }
  assert (M23 : moves [] C (1 + 0) s1 s3) by (eapply (moves_trans [] []); eauto).
  destruct (literal_core C _ _ _ _ _ _ _ _ _ CF M23 LT HN E4) as (M4 & K).
  assert (PS : pos s3 = pos s) by (unfold pos, data; rewrite A3, A1; reflexivity). rewrite <- PS.
  split; [|exact K]. eapply (moves_trans [] []); [exact M1|]. change 1 with (1 + 0 + 0). eapply (moves_trans [] []); eauto.
Qed.
Lemma unique_ok s u s' : assert_unique_params args s = Ok (u, s') -> s' = s.
Proof. unfold assert_unique_params. destruct (unique_names _); [intros [= _ <-]; reflexivity|discriminate]. Qed.
Lemma EE_op_decl op : fk = FkFunction -> EE P C (n + 1) (visit_op_decl visit op args ret_ body false) (fun G k _ p q => exists p1 p2,
  literal lit G (k + n) (fun ups => fn (k + n) k G ups) p p1 /\ at_const (g_bc G) OpStoreGlobal (CSymbol (op_name op)) p1 p2 /\ at_ (g_bc G) p2 (INone OpPushUnit) q).
Proof.
  intros EF s u s' W PL E. unfold visit_op_decl in E. rewrite <- EF in E. apply bind_ok in E. destruct E as (u0 & s0 & E0 & E). apply unique_ok in E0. subst s0. apply bind_ok in E. destruct E as (c & s1 & E1 & E).
  apply bind_ok in E. destruct E as (id & s2 & E2 & E). injection E2 as <- <-. fold (numbered_after s1) in E. apply bind_ok in E. destruct E as (u3 & s4 & E3 & E).
  pose proof (cf_wf _ _ _ _ _ _ (compile_unit _ _ _ W E1)) as W1. pose proof (mv_wf _ _ _ _ _ (fresh_moves C s1 W1)) as W2.
  destruct (decl_core _ _ _ _ _ _ _ W E1 (moves_refl C _ W2) eq_refl E3) as (M4 & K4).
  assert (X : EE P C 0 (emit_c OpStoreGlobal (CSymbol (op_name op)) ;;; emit OpPushUnit) (fun G _ _ p q => exists p2, at_const (g_bc G) OpStoreGlobal (CSymbol (op_name op)) p p2 /\ at_ (g_bc G) p2 (INone OpPushUnit) q)).
  { eapply (EE_then lit 0 0); [apply EE_emit_c; [reflexivity|discriminate|apply symbol_exact]|apply EE_emit; reflexivity|reflexivity|]. cbn beta. eauto. }
  destruct (X _ _ _ (mv_wf _ _ _ _ _ M4) (placed_le _ _ _ _ _ (moves_le _ _ _ _ _ M4) PL) E) as (M5 & K5).
  split; [rewrite <- (Nat.add_0_r (n + 1)); eapply (moves_trans [] []); eauto|]. intros G S F. cbn [List.length] in S. rewrite drop_0 in S.
  destruct (K5 G) as (p2 & K6 & K7); [cbn [List.length]; rewrite drop_0; eapply stands_le; [exact (moves_le _ _ _ _ _ M4)|exact S]|eapply fits_base; [exact (moves_pos _ _ _ _ _ M4)|exact F]|].
  exists (pos s4), p2. split; [|auto]. eapply K4. eapply fits_le0; [exact (mv_wf _ _ _ _ _ M4)|exact (mv_wf _ _ _ _ _ M5)|exact (moves_le _ _ _ _ _ M5)|eapply moves_keeps; [exact M5|apply le_n]|apply le_n|exact F].
Qed.
Lemma EE_fn_decl name : fk = FkFunction -> EE P C (n + 1) (visit_fn_decl visit name args ret_ body) (fun G k _ p q => exists p1 j fl,
  literal lit G (k + n) (fun ups => fn (k + n) k G ups) p p1 /\ lookup name (g_vars G) = Some (j, fl) /\ at_ (g_bc G) p1 (IByte OpStoreLocal j) q).
Proof.
  intros EF s u s' W PL E. unfold visit_fn_decl in E. rewrite <- EF in E. apply bind_ok in E. destruct E as (u0 & s0 & E0 & E). apply unique_ok in E0. subst s0. apply bind_ok in E. destruct E as (c & s1 & E1 & E).
  apply bind_ok in E. destruct E as (id & s2 & E2 & E). injection E2 as <- <-. fold (numbered_after s1) in E. apply bind_ok in E. destruct E as (l & s2 & E2 & E). pose proof E2 as E2'. apply local_ok in E2. destruct E2 as (-> & ->).
  pose proof (cf_wf _ _ _ _ _ _ (compile_unit _ _ _ W E1)) as W1. pose proof (fresh_moves C s1 W1) as M2. pose proof (mv_wf _ _ _ _ _ M2) as W2.
  destruct (find_local name (scopes (numbered_after s1))) as [v|] eqn:EL; [|discriminate]. destruct (sv_state v) as [? ?|[|]|?]; try discriminate.
  apply bind_ok in E. destruct E as (u3 & s3 & E3 & E). apply bind_ok in E. destruct E as (u4 & s4 & E4 & E).
  destruct (T_moves [] [] C 0 (m_set_state name (SFunction true)) (fun _ => True) _ _ _ (fun b N _ => T_set_state b C N name (SFunction true)) W2 E3) as (M3 & _).
  pose proof (set_state_asm _ _ _ _ _ W2 E3) as A3.
  destruct (decl_core _ _ _ _ _ _ _ W E1 M3 A3 E4) as (M4 & K4).
  destruct (EE_emit_u8 lit P C OpStoreLocal (u8_of (sv_slot v)) eq_refl _ _ _ (mv_wf _ _ _ _ _ M4) (placed_le _ _ _ _ _ (moves_le _ _ _ _ _ M4) PL) E) as (M5 & K5).
  split; [rewrite <- (Nat.add_0_r (n + 1)); eapply (moves_trans [] []); eauto|]. intros G S F. cbn [List.length] in S. rewrite drop_0 in S.
  pose proof (mv_wf _ _ _ _ _ M4) as W4.
  assert (F4 : fits (pl_chain P) G (pos s) s4) by (eapply fits_le0; [exact W4|exact (mv_wf _ _ _ _ _ M5)|exact (moves_le _ _ _ _ _ M5)|eapply moves_keeps; [exact M5|apply le_n]|apply le_n|exact F]).
  assert (S2 : static (pl_chain P) G (pos s) (numbered_after s1)).
  { pose proof (mv_wf _ _ _ _ _ M3) as W3. eapply static_le0; [exact W2|exact W3|exact (moves_le _ _ _ _ _ M3)|apply le_n|].
    assert (M34 : moves [] C 0 s3 s4).
    { destruct (Tlt_compiled name (cs_next_id s1) c (pos s3) C (kind_names (kind s3)) s3 u4 s4) as (X1 & X2 & X3 & X4); auto using incl_refl; [pose proof (mv_next _ _ _ _ _ M3) as X; cbn [numbered_after cs_next_id] in X; lia|]. split; eauto. }
    eapply static_le0; [exact W3|exact W4|exact (moves_le _ _ _ _ _ M34)|apply le_n|exact (f_static _ _ _ _ _ F4)]. }
  pose proof (lookup_agree name _ _ (f_vars _ _ _ _ _ S2)) as LA. rewrite (lookup_local _ _ (top_numbered _ W2)), EL in LA. destruct LA as (fl & LA & _).
  assert (U : u8_of (sv_slot v) = sv_slot v) by (apply u8_small; pose proof (lookup_below lit _ _ _ _ LA) as X1; pose proof (proj1 (fits_small _ _ _ _ _ W4 F4)) as X2; exact (Nat.lt_le_trans _ _ _ X1 X2)).
  exists (pos s4), (sv_slot v), fl. split; [exact (K4 _ _ F4)|]. split; [exact LA|]. rewrite <- U. apply K5; [cbn [List.length]; rewrite drop_0; eapply stands_le; [exact (moves_le _ _ _ _ _ M4)|exact S]|eapply fits_base; [exact (moves_pos _ _ _ _ _ M4)|exact F]].
Qed.
Lemma EE_method name : EE P C (n + 1) (visit_method visit name args ret_ body fk) (fun G k _ p q => literal lit G (k + n) (fun ups => fn (k + n) k G ups) p q).
Proof.
  intros s u s' W PL E. unfold visit_method in E. apply bind_ok in E. destruct E as (u0 & s0 & E0 & E). apply unique_ok in E0. subst s0. apply bind_ok in E. destruct E as (c & s1 & E1 & E).
  apply bind_ok in E. destruct E as (id & s2 & E2 & E). injection E2 as <- <-. fold (numbered_after s1) in E.
  pose proof (cf_wf _ _ _ _ _ _ (compile_unit _ _ _ W E1)) as W1. pose proof (mv_wf _ _ _ _ _ (fresh_moves C s1 W1)) as W2.
  destruct (decl_core _ _ _ _ _ _ _ W E1 (moves_refl C _ W2) eq_refl E) as (M4 & K4).
  split; [exact M4|]. intros G S F. exact (K4 _ _ F).
Qed.
Lemma EE_op_method op : fk = FkMethod -> EE P C (n + 1) (visit_op_decl visit op args ret_ body true) (fun G k _ p q => literal lit G (k + n) (fun ups => fn (k + n) k G ups) p q).
Proof.
  intros EF. apply (ED_sim lit P [] C (n + 1) (visit_method visit (op_name op) args ret_ body fk)); [|apply EE_method].
  intros s r W E. unfold visit_op_decl in E. rewrite <- EF in E. unfold visit_method.
  revert E. unfold bind. destruct (assert_unique_params args s) as [[? s1]| | |]; [|discriminate..]. destruct (compile_fn visit args ret_ fk body s1) as [[? s2]| | |]; [|discriminate..]. destruct (fresh_id s2) as [[? s3]| | |]; [|discriminate..].
  destruct (emit_compiled _ _ _ s3) as [[[] s4]| | |]; [|discriminate..]. exact (fun H => H).
Qed.
End Literal.
End FnCode.
