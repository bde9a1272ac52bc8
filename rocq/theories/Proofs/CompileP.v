(** The code of a whole script, and its execution. *)
From Coq Require Import Lia.
From Verif.Model Require Import Compiler Host.
From Verif.Spec Require Import MeaningSpec.
From Verif.Proofs Require Import CodecP StackP VmPrimP RunP ReachP CodeP MemP StepP ScopeSimP CallSimP SimP SimModP SimTopP WellFormedP WellFormedPrimP EmitP VisitMonoP FitsP JumpsP ScopesP
  DeclsP FnCodeP VisitCodeP VisitAllP NumberP.
#[local] Open Scope string_scope.
#[local] Open Scope list_scope.
#[local] Open Scope nat_scope.

(** ** The table of functions *)
Lemma functions_eq b : functions b = flat_map functions_c (bc_constants b).
Proof. destruct b; reflexivity. Qed.
Lemma within_functions f cs : within f cs <-> In f (flat_map functions_c cs).
Proof.
  split.
  - intros H. induction H as [cs H|cs g H W IH]; apply in_flat_map; eexists; (split; [exact H|]); cbn [functions_c].
    + destruct f. left; reflexivity.
    + destruct g as [i n b]. right. rewrite functions_eq. exact IH.
  - revert f.
    assert (K : forall k b, List.length (functions b) <= k -> forall f, In f (functions b) -> within f (bc_constants b)).
    { induction k as [|k IH]; intros b L f H.
      - destruct (functions b); [destruct H|cbn in L; lia].
      - rewrite functions_eq in H. apply in_flat_map in H as (c & Hc & H). destruct c as [| | | |[i n b']]; try contradiction.
        destruct H as [<-|H]; [now apply within_here|]. apply (within_deep f _ (MkFn i n b')); [exact Hc|]. cbn [fn_code]. apply IH; [|exact H].
        rewrite functions_eq in L. apply in_split in Hc as (l1 & l2 & E). rewrite E, flat_map_app, app_length in L. cbn [flat_map functions_c functions_f] in L.
        rewrite app_length in L. cbn [List.length] in L. lia. }
    intros f H. assert (X : within f (bc_constants (MkBytecode [] 0 0 cs))) by (eapply K; [apply le_n|]; exact H). exact X.
Qed.

Lemma table_ok bc : (forall f g, within f (bc_constants bc) -> within g (bc_constants bc) -> fn_id f = fn_id g -> f = g) ->
  forall f, within f (bc_constants bc) -> table bc (fn_id f) = f.
Proof.
  intros U f W. unfold table. destruct (find _ _) as [g|] eqn:E.
  - apply find_some in E as [H E]. apply Nat.eqb_eq in E. rewrite functions_eq in H. apply within_functions in H. now apply U.
  - exfalso. assert (H : In f (functions bc)) by (rewrite functions_eq; now apply within_functions).
    pose proof (find_none _ _ E _ H) as X. cbn in X. now rewrite Nat.eqb_refl in X.
Qed.

Lemma functions_sub f bc : In f (functions bc) -> incl (functions (fn_code f)) (functions bc).
Proof.
  intros H g Hg. rewrite functions_eq in *. apply within_functions in H, Hg. apply within_functions.
  induction H as [cs H|cs h H W IH].
  - eapply within_deep; eauto.
  - eapply within_deep; eauto.
Qed.
Lemma tame_table lit : forall k bc, List.length (functions bc) <= k -> (forall f, In f (functions bc) -> lit (fn_id f) = f) -> all_limited bc = true -> tame lit bc.
Proof.
  induction k as [|k IH]; intros bc L HL A; unfold all_limited in A; apply andb_prop in A as [A1 A2]; pose proof A1 as A3; unfold limited in A3;
    apply andb_prop in A3 as [A3 A4]; apply andb_prop in A3 as [A3 A5]; apply Z.leb_le in A3; apply Nat.leb_le in A4, A5; (split; [exact A3|exact A5|exact A4|]).
  - intros f H. exfalso. assert (X : In f (functions bc)) by (rewrite functions_eq; apply within_functions; now apply within_here).
    destruct (functions bc); [destruct X|cbn in L; lia].
  - intros f H. assert (X : In f (functions bc)) by (rewrite functions_eq; apply within_functions; now apply within_here).
    split; [now apply HL|]. rewrite forallb_forall in A2. apply IH.
    + rewrite functions_eq in L. apply in_split in H as (l1 & l2 & E). rewrite E, flat_map_app, app_length in L. destruct f as [i n b]. cbn [flat_map functions_c functions_f fn_code] in *.
      rewrite app_length in L. cbn [List.length] in L. lia.
    + intros g Hg. apply HL. eapply functions_sub; eauto.
    + unfold all_limited. rewrite (A2 _ X). cbn [andb]. apply forallb_forall. intros g Hg. apply A2. eapply functions_sub; eauto.
Qed.

(** ** The code of a script *)
Definition script_ctx (bc : bytecode) (depth : nat) : ctx := Ctx bc [] [] [] None None None depth.

Lemma wf_new kind n : wf (CState [context_new kind] n).
Proof.
  split.
  - discriminate.
  - discriminate.
  - exact Logic.I.
  - intros l x [].
  - intros sc x [<-|[]] [].
  - intros sc [<-|[]] _. reflexivity.
  - constructor; [|constructor]. split; [exact Logic.I|constructor; auto|apply le_n|intros f []].
  - cbn [cs_stack chained]. split; [constructor|exact Logic.I].
  - split; [intros e []|]. split; [intros sc [<-|[]]; apply apart_nil|intros e []].
Qed.
Lemma script_code lit root bc depth : compile KScript root = Ok bc -> supported script_place root = true -> tame lit bc ->
  code lit (script_ctx bc depth) 0 root 0 (List.length (bc_data bc)).
Proof.
  intros HC HS TM. destruct (compile_numbers _ _ _ _ HC) as (UC & _).
  unfold compile in HC. apply omap_ok in HC as ([b0 s'] & H & <-). cbn [fst] in *.
  set (s0 := CState [context_new KScript] 0) in *. unfold compile_m in H.
  apply bind_ok in H as (u1 & s1 & H1 & H). injection H1 as _ <-. apply bind_ok in H as ([] & s2 & H2 & H).
  apply bind_ok in H as (u3 & s3 & H3 & H). injection H3 as _ <-. apply bind_ok in H as (c & s4 & H4 & [= <- <-]).
  pose proof (wf_new KScript 0 : wf s0) as W0.
  destruct (visit_code lit root) as (V & _).
  destruct (V script_place HS eq_refl s0 tt s2 W0 eq_refl H2) as (M & K).
  pose proof (mv_wf _ _ _ _ _ M) as W2. destruct (mv_mono _ _ _ _ _ M) as (N & O).
  apply (pop_context_ok _ _ _ W2) in H4 as (-> & ->).
  set (bc := finish (top s2)) in *.
  assert (UP : cx_upvalues (top s2) = []) by (apply length_zero_iff_nil; exact UC).
  refine (K (script_ctx bc depth) _ _ (kept_none script_place root _ _ eq_refl eq_refl)).
  - rewrite drop_0. split; cbn [script_ctx g_fn g_depth g_loop g_null script_place pl_fn pl_exact pl_exit pl_chain]; try discriminate. reflexivity.
  - split; [|intros i _ _; reflexivity].
    split; cbn [script_ctx g_bc g_vars g_ups g_outer g_fn g_loop g_null]; try discriminate.
    + exact TM.
    + apply le_n.
    + apply prefix_refl.
    + unfold ups. rewrite UP. apply prefix_refl.
    + symmetry. exact UC.
    + destruct (mono_vars _ _ _ _ _ W0 W2 O) as (new & old & V1 & V2 & V3 & _). apply map_eq_nil in V2. subst new. inversion V3 as [V4 V5|]; subst. rewrite V1. constructor.
    + pose proof (m_outer _ _ _ _ _ O) as F. change (outer s0) with (@nil context) in F. inversion F. constructor.
    + apply le_n.
    + rewrite (m_kind _ _ _ _ _ O). reflexivity.
Qed.

(** ** The code of a module *)
Definition module_body (root : expr) : M unit :=
  m_add_local EXPORT (state_initialized false) ;;; visit root ;;;
  l <- m_local EXPORT ;;
  match l with
  | None => panic
  | Some v => emit OpPop ;;; emit_u8 OpLoadLocal (u8_of (sv_slot v))
  end.
Lemma ED_module lit root : supported script_place root = true ->
  ED lit script_place [EXPORT] (captures root) (fns root) (module_body root)
    (fun G k _ p q => has_room (FitsP.drop 1 G) /\ exists fl j p1 p2, lookup EXPORT (g_vars G) = Some (j, fl) /\ code lit G k root p p1 /\
      at_ (g_bc G) p1 (INone OpPop) p2 /\ at_ (g_bc G) p2 (IByte OpLoadLocal j) q).
Proof.
  intros HS. destruct (visit_code lit root) as (V & _). specialize (V script_place HS eq_refl). unfold module_body.
  eapply (ED_seq lit [EXPORT] [] 0 (fns root)) with (R2 := fun _ G k _ p q => exists fl j p1 p2, lookup EXPORT (g_vars G) = Some (j, fl) /\ code lit G k root p p1 /\
      at_ (g_bc G) p1 (INone OpPop) p2 /\ at_ (g_bc G) p2 (IByte OpLoadLocal j) q); [apply ED_add_local| |reflexivity|reflexivity|].
  - intros slot. eapply (EE_then lit (fns root) 0) with (R2 := fun G _ _ p q => exists fl j p1, lookup EXPORT (g_vars G) = Some (j, fl) /\ at_ (g_bc G) p (INone OpPop) p1 /\ at_ (g_bc G) p1 (IByte OpLoadLocal j) q); [exact V| |lia|].
    + eapply (EE_seq lit 0 0) with (R2 := fun l G _ _ p q => exists v p1, l = Some v /\ at_ (g_bc G) p (INone OpPop) p1 /\ at_ (g_bc G) p1 (IByte OpLoadLocal (u8_of (sv_slot v))) q); [apply EE_local| |reflexivity|].
      * intros [v|]; [|intros s a s' W PL E; discriminate E]. eapply (EE_then lit 0 0); [apply EE_emit; reflexivity|apply EE_emit_u8; reflexivity|reflexivity|]. cbn beta. intros. eauto.
      * cbn beta. intros G k b p q l p1 (<- & H1) (v & p2 & -> & H2 & H3). destruct H1 as ((fl & H1) & HS1). rewrite HS1 in H3. eauto 8.
    + cbn beta. intros G k b p q a p1 H1 (fl & j & p2 & H2 & H3 & H4). exists fl, j, p1, p2. split; [exact H2|]. split; [|auto]. apply H1. apply kept_none; reflexivity.
  - cbn beta. intros G k b p q slot p1 (<- & _ & _ & H1 & _) H2. cbn [List.length] in *. rewrite FitsP.drop_0 in H1. rewrite Nat.add_0_r in H2. auto.
Qed.
Lemma module_compiles lit md bc : compile_from (md_first md) KModule (md_tree md) = Ok bc -> md_slots md = bc_slot_count bc -> supported_module (md_tree md) = true -> tame lit bc -> module_code lit md bc.
Proof.
  intros HC HL HS TM. destruct (compile_numbers _ _ _ _ HC) as (UC & _). unfold supported_module in HS. apply andb_prop in HS as [HS HX].
  unfold compile_from in HC. apply omap_ok in HC as ([b0 s'] & H & <-). cbn [fst] in *.
  set (s0 := CState [context_new KModule] (md_first md)) in *.
  assert (E : exists s2, module_body (md_tree md) s0 = Ok (tt, s2) /\ (c <- pop_context ;; ret (finish c)) s2 = Ok (b0, s')).
  { unfold compile_m in H. apply bind_ok in H as ([] & s1 & H1 & H). apply bind_ok in H1 as (slot & s1' & H1 & [= ->]).
    apply bind_ok in H as ([] & s2 & H2 & H). apply bind_ok in H as ([] & s3 & H3 & H). exists s3. split; [|exact H].
    unfold module_body. unfold bind at 1. rewrite H1. unfold bind at 1. rewrite H2. exact H3. }
  destruct E as (s2 & E & H4). apply bind_ok in H4 as (c & s4 & H4 & [= <- <-]).
  pose proof (wf_new KModule (md_first md) : wf s0) as W0.
  destruct (ED_module lit (md_tree md) HS s0 tt s2 W0 eq_refl E) as (M & K).
  pose proof (mv_wf _ _ _ _ _ M) as W2. destruct (mv_mono _ _ _ _ _ M) as (N & O).
  apply (pop_context_ok _ _ _ W2) in H4 as (-> & ->).
  set (bc := finish (top s2)) in *.
  assert (UP : cx_upvalues (top s2) = []) by (apply length_zero_iff_nil; exact UC).
  destruct (K (module_ctx bc)) as (RM & fl & j & p1 & p2 & X1 & X2 & X3 & X4).
  - split; cbn [module_ctx FitsP.drop g_fn g_depth g_loop g_null script_place pl_fn pl_exact pl_exit pl_chain]; try discriminate. reflexivity.
  - split; [|intros i _ _; reflexivity].
    split; cbn [module_ctx g_bc g_vars g_ups g_outer g_fn g_loop g_null]; try discriminate.
    + exact TM.
    + apply le_n.
    + apply prefix_refl.
    + unfold ups. rewrite UP. apply prefix_refl.
    + symmetry. exact UC.
    + destruct (mono_vars _ _ _ _ _ W0 W2 O) as (new & old & V1 & V2 & V3 & V4). rewrite V1. inversion V3; subst. rewrite app_nil_r. destruct new as [|v [|]]; try discriminate V2. injection V2 as V2.
      constructor; [|constructor]. split; [symmetry; exact V2|]. intros CP. inversion V4 as [|? ? V5 _]; subst. specialize (V5 CP). rewrite V2 in V5. unfold EXPORT in V5.
      exfalso. unfold mem in HX. rewrite negb_true_iff in HX. assert (Y : existsb (String.eqb "#export") (captures (md_tree md)) = true) by (apply existsb_exists; exists "#export"; split; [exact V5|apply String.eqb_refl]). congruence.
    + pose proof (m_outer _ _ _ _ _ O) as F. change (outer s0) with (@nil context) in F. inversion F. constructor.
    + apply le_n.
    + rewrite (m_kind _ _ _ _ _ O). reflexivity.
  - cbn in X1. injection X1 as <- <-. split; [exact HL|exact RM|]. exists p1, p2. auto.
Qed.
Lemma tame_linked lit bc : all_limited bc = true -> (forall f, In f (functions bc) -> lit (fn_id f) = f) -> tame lit bc.
Proof. intros HL HF. eapply tame_table; [apply le_n|exact HF|exact HL]. Qed.
Lemma linked_library w pg root bc : MeaningSpec.linked w pg root bc -> same_library w (pg_lit pg) (pg_library pg).
Proof.
  intros K seen name. pose proof (lk_modules _ _ _ _ K seen name) as X. destruct (pg_library pg seen name) as [md|e| |]; auto.
  destruct X as (mb & E & [L1 L2 L3 L4 L5]). exists mb. split; [exact E|]. apply module_compiles; auto. apply tame_linked; auto.
Qed.


(** ** Running a script *)
Section Run.
Variables (w : world) (bc : bytecode) (below : list value) (s : vm).
Let slots := bc_slot_count bc.
Let cells := below ++ repeat VNull slots.
Let fr := Frame (List.length below) (List.length below + slots).
Hypothesis R : ready below s.
Hypothesis F : List.length below + slots < max_stack_size.

Lemma script_enter n : runtime_run w n bc s =
  (let* v := execute w (machine w n) bc fr None in on_stack_ (stack_release VNull (w_dbg w) fr) >>> rret v) (with_stack cells [] s).
Proof.
  unfold runtime_run, run_script. rewrite (ws_id _ _ _ (proj1 R)) at 1. unfold rbind at 1.
  rewrite reserve_ws by (unfold VmSpec.fits; cbn [List.length]; fold slots; lia). cbn [List.length rev app]. rewrite Nat.add_0_r. reflexivity.
Qed.
Lemma cells_length : List.length cells = List.length below + slots.
Proof. unfold cells. rewrite app_length, repeat_length. reflexivity. Qed.

Lemma script_ends v m K b : leads w bc fr None 0 (with_stack cells [] s) (Done (state m K b [v])) ->
  List.length b = List.length cells -> (forall i, i < List.length below -> nth_error b i = nth_error cells i) -> List.length cells + 1 <= max_stack_size ->
  from (fun n => runtime_run w n bc s) (ROk v (state m K below [])).
Proof.
  intros (c & H) L E RM. exists c. intros n Hn. rewrite script_enter. specialize (H n Hn). unfold runs in H. cbn [Z.of_nat] in H.
  unfold rbind at 1. unfold execute. unfold rbind at 1. rewrite H. unfold state. rewrite !ptr_ws.
  assert (B : negb (Nat.eqb (List.length b + List.length [v]) (S (List.length cells + @List.length value []))) = false).
  { cbn [List.length]. rewrite negb_false_iff. apply Nat.eqb_eq. lia. }
  rewrite B, andb_false_r. rewrite pop_ws by (unfold VmSpec.fits; cbn [List.length]; lia).
  assert (S1 : b = below ++ skipn (List.length below) b).
  { rewrite <- (firstn_skipn (List.length below) b) at 1. f_equal. apply nth_ext. intros i.
    destruct (Nat.lt_ge_cases i (List.length below)) as [Hi|Hi].
    - rewrite nth_firstn by exact Hi. rewrite E by exact Hi. unfold cells. rewrite nth_error_app1 by exact Hi. reflexivity.
    - rewrite (proj2 (nth_error_None below i)) by lia. apply nth_error_None. rewrite firstn_length. lia. }
  assert (S2 : List.length (skipn (List.length below) b) = slots) by (rewrite skipn_length, L, cells_length; lia).
  rewrite S1. unfold fr. rewrite <- S2. unfold rbind at 1. rewrite release_ws by (rewrite ?S2; rewrite cells_length in RM; lia). reflexivity.
Qed.
Lemma script_fails e s' : leads w bc fr None 0 (with_stack cells [] s) (Failed e s') -> from (fun n => runtime_run w n bc s) (RErr e s').
Proof.
  intros (c & H). exists c. intros n Hn. rewrite script_enter. specialize (H n Hn). unfold runs in H. cbn [Z.of_nat] in H.
  unfold rbind at 1. unfold execute. unfold rbind at 1. rewrite H. reflexivity.
Qed.
Lemma script_crashes : leads w bc fr None 0 (with_stack cells [] s) Crashed -> from (fun n => runtime_run w n bc s) RPanic.
Proof.
  intros (c & H). exists c. intros n Hn. rewrite script_enter. specialize (H n Hn). unfold runs in H. cbn [Z.of_nat] in H.
  unfold rbind at 1. unfold execute. unfold rbind at 1. rewrite H. reflexivity.
Qed.

Definition links_of : links := Links (h_closures (vm_heap s)) (h_upvalues (vm_heap s)) [].
End Run.

(** The beginning of a run, with any cells and operands on the stack. *)
Lemma start_state s cells temps : vm_open s = [] -> with_stack cells temps s = state (MeaningSpec.start s) (links_of s) cells temps.
Proof. intros O. unfold state, MeaningSpec.start, links_of, overlay. cbn [m_vm]. destruct s as [st [x1 x2 x3 x4 x5 x6 x7] op gl mo an mc ki lo]. cbn in *. rewrite O. reflexivity. Qed.

Lemma start_here lit bc (below cells temps : list value) s room : List.length cells = bc_slot_count bc ->
  List.length below + List.length cells + List.length temps + room <= max_stack_size -> bc_upvalue_count bc = 0 ->
  here lit (script_ctx bc (List.length temps)) (Scene [] None room false) (Frame (List.length below) (List.length below + bc_slot_count bc)) None []
    (map (fun _ => None) (h_upvalues (vm_heap s))) (fun _ => None) (below ++ cells) (MeaningSpec.start s) (links_of s) temps.
Proof.
  intros LC RM UC. split; cbn [s_env s_fn s_room s_chain script_ctx g_fn g_null g_depth g_loop fr_end]; auto.
  - split; cbn [script_ctx g_vars g_bc fr_start fr_end List.length]; [|intros i _; reflexivity|apply le_n|lia].
    exists [], []. split; [reflexivity|]. split; [exact Logic.I|]. split; cbn [script_ctx g_outer g_ups upv]; auto.
    + intros i u H. destruct i; discriminate H.
    + intros i x [].
  - assert (NN : forall u l, names (map (fun _ => None) (h_upvalues (vm_heap s))) u l -> False).
    { intros u l H. unfold names in H. rewrite nth_error_map in H. destruct (nth_error _ u); discriminate H. }
    split; cbn [MeaningSpec.start m_cells m_closures m_fns links_of k_upvalues k_closures k_open]; try discriminate; try solve [rewrite ?map_length; auto]; try solve [intros; exfalso; eauto].
    + constructor.
    + intros a c H. rewrite nth_error_map in H. destruct (nth_error _ a); discriminate H.
  - rewrite app_length. lia.
  - rewrite app_length. lia.
Qed.

Lemma overlay_store m K b t : same_store (m_vm m) (state m K b t).
Proof. destruct m as [[st [x1 x2 x3 x4 x5 x6 x7] op gl mo an mc ki lo] ? ? ?]. split; reflexivity. Qed.
Lemma overlay_store_ st K s : same_store s (set_stack st (overlay K s)).
Proof. destruct s as [st0 [x1 x2 x3 x4 x5 x6 x7] op gl mo an mc ki lo]. split; reflexivity. Qed.

Theorem script_meaning w pg root bc below s fuel room :
  MeaningSpec.linked w pg root bc -> MeaningSpec.natives_blind w ->
  ready below s -> List.length below + bc_slot_count bc + room <= max_stack_size ->
  agrees below (fun n => runtime_run w n bc s) (meaning w pg fuel room root s).
Proof.
  intros LK HN R RM. pose proof (linked_library _ _ _ _ LK) as LIB. destruct LK as [HC HS HL HF _]. destruct (compile_numbers _ _ _ _ HC) as (UC & _).
  pose proof (tame_linked _ _ HL HF) as TM.
  pose proof (script_code _ _ _ 0 HC HS TM) as CD.
  assert (HN' : ReachP.natives_blind w) by (intros c m args K h; apply HN).
  destruct (interpreter_sim w pg fuel HN' LIB) as ((SE & SE2) & _).
  unfold meaning. destruct (Nat.lt_ge_cases room enough) as [LT|GE]; [rewrite SE2 by exact LT; exact Logic.I|].
  assert (F : List.length below + bc_slot_count bc < max_stack_size) by (unfold enough in GE; lia).
  pose proof (start_here (pg_lit pg) bc below (repeat VNull (bc_slot_count bc)) [] s room (repeat_length _ _) ltac:(rewrite repeat_length; cbn [List.length]; lia) UC) as H0.
  specialize (SE _ _ _ _ _ _ _ _ _ _ _ 0 root 0 _ H0 GE CD).
  set (a := i_eval _ _ _ _ _) in *. clearbody a.
  cbn [script_ctx g_bc] in SE. rewrite <- (start_state _ _ _ (proj2 R)) in SE.
  assert (END : forall v m' K' b', leads w bc (Frame (List.length below) (List.length below + bc_slot_count bc)) None 0 (with_stack (below ++ repeat VNull (bc_slot_count bc)) [] s)
      (At (List.length (bc_data bc)) (state m' K' b' [v])) ->
     leads w bc (Frame (List.length below) (List.length below + bc_slot_count bc)) None 0 (with_stack (below ++ repeat VNull (bc_slot_count bc)) [] s) (Done (state m' K' b' [v]))).
  { intros v m' K' b' L. eapply leads_trans; [exact L|]. apply lead_end. apply fetch_end. lia. }
  assert (DONE : forall v m rho' V' b' K',
     leads w bc (Frame (List.length below) (List.length below + bc_slot_count bc)) None 0 (with_stack (below ++ repeat VNull (bc_slot_count bc)) [] s) (Done (state m K' b' [v])) ->
     ScopeSimP.good (pg_lit pg) (List.length below) (map (fun _ => None) (h_upvalues (vm_heap s))) (fun _ => None) (below ++ repeat VNull (bc_slot_count bc)) rho' V' b' m K' ->
     (forall i, V' i = None) ->
     exists s', from (fun n => runtime_run w n bc s) (ROk v s') /\ same_store (m_vm m) s' /\ ready below s').
  { intros v m rho' V' b' K' L [G1 G2 (G3 & G4)] EV. exists (state m K' below []). split; [|split].
    - eapply script_ends; [exact R|exact F|exact L|exact G3| |rewrite cells_length; unfold enough in GE; lia].
      intros i Hi. apply G4; [exact Hi|reflexivity].
    - apply overlay_store.
    - split; [reflexivity|]. unfold state. cbn [with_stack set_stack overlay vm_open]. destruct (k_open K') as [|u r] eqn:EO; [reflexivity|].
      exfalso. destruct (i_open _ _ _ _ _ _ G1 u) as (l & i & X1 & X2); [rewrite EO; now left|].
      destruct (i_slot _ _ _ _ _ _ G1 u l i X1 X2) as (_ & X3). rewrite EV in X3. discriminate X3. }
  destruct a as [v m|m|m|v m|m|e m| |]; cbn [agrees]; cbn [post rest script_ctx g_bc g_loop g_null] in SE; auto.
  - destruct SE as (rho' & b' & K' & L & GD). apply END in L. exact (DONE v m rho' _ b' K' L GD (fun _ => eq_refl)).
  - destruct SE as (rho' & b' & K' & L & GD). refine (DONE v m rho' _ b' K' L GD (fun i => _)). unfold cut. destruct (_ <? _); reflexivity.
  - destruct SE as (st & K & L). exists (set_stack st (overlay K (m_vm m))). split; [|apply overlay_store_].
    eapply script_fails; [exact R|exact F|exact L].
  - eapply script_crashes; [exact R|exact F|exact SE].
Qed.

(** The code of an expression pushes one value, whatever is on the stack. *)
Theorem expression_pushes w pg root bc below cells temps s fuel room v mem :
  MeaningSpec.linked w pg root bc -> MeaningSpec.natives_blind w ->
  vm_open s = [] -> List.length cells = bc_slot_count bc -> List.length below + List.length cells + List.length temps + room <= max_stack_size ->
  meaning w pg fuel room root s = AVal v mem ->
  exists cells' s', List.length cells' = List.length cells /\
    from (fun n => r_loop (machine w n) bc (Frame (List.length below) (List.length below + List.length cells)) None 0%Z (with_stack (below ++ cells) temps s)) (ROk tt s') /\
    vm_stack s' = stack_with (below ++ cells') (v :: temps) /\ same_store (m_vm mem) s'.
Proof.
  intros LK HN OP LC RM HM. pose proof (linked_library _ _ _ _ LK) as LIB. destruct LK as [HC HS HL HF _]. destruct (compile_numbers _ _ _ _ HC) as (UC & _).
  pose proof (tame_linked _ _ HL HF) as TM.
  pose proof (script_code _ _ _ (List.length temps) HC HS TM) as CD.
  assert (HN' : ReachP.natives_blind w) by (intros c m args K h; apply HN).
  destruct (interpreter_sim w pg fuel HN' LIB) as ((SE & SE2) & _).
  unfold meaning in HM. destruct (Nat.lt_ge_cases room enough) as [LT|GE]; [rewrite SE2 in HM by exact LT; discriminate HM|].
  pose proof (start_here (pg_lit pg) bc below cells temps s room LC RM UC) as H0.
  specialize (SE _ _ _ _ _ _ _ _ _ _ _ 0 root 0 _ H0 GE CD). rewrite HM in SE. cbn [post script_ctx g_bc] in SE.
  rewrite <- (start_state _ _ _ OP) in SE.
  destruct SE as (rho' & b' & K' & L & [G1 G2 (G3 & G4)]).
  assert (S1 : b' = below ++ skipn (List.length below) b').
  { rewrite <- (firstn_skipn (List.length below) b') at 1. f_equal. apply nth_ext. intros i.
    destruct (Nat.lt_ge_cases i (List.length below)) as [Hi|Hi].
    - rewrite nth_firstn by exact Hi. rewrite G4 by (auto; exact Hi). rewrite nth_error_app1 by exact Hi. reflexivity.
    - rewrite (proj2 (nth_error_None below i)) by lia. apply nth_error_None. rewrite firstn_length. lia. }
  exists (skipn (List.length below) b'), (state mem K' b' (v :: temps)). split; [|split; [|split]].
  - rewrite skipn_length, G3, app_length. lia.
  - assert (L2 := leads_trans _ _ _ _ _ _ _ _ _ L (lead_end _ _ _ _ _ _ (fetch_end _ _ _ _ (Z.le_refl _)))).
    destruct L2 as (c & L2). exists c. intros n Hn. specialize (L2 n Hn). unfold runs in L2. cbn [Z.of_nat] in L2. rewrite LC. exact L2.
  - rewrite <- S1. reflexivity.
  - apply overlay_store.
Qed.

(** A script by itself. *)
Theorem linked_alone w root bc : compile KScript root = Ok bc -> supported script_place root = true -> all_limited bc = true -> MeaningSpec.linked w (alone w bc) root bc.
Proof.
  intros HC HS HL. destruct (compile_numbers _ _ _ _ HC) as (_ & UQ). split; auto.
  - intros f Hf. cbn [alone pg_lit]. apply table_ok; [exact UQ|]. rewrite functions_eq in Hf. now apply within_functions.
  - intros seen name. cbn [alone pg_library]. destruct (w_load w seen name); auto.
Qed.
