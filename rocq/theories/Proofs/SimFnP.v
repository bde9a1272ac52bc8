(** Simulation of function bodies and calls. *)
From Verif.Model Require Import Assembler.
From Verif.Spec Require Import SupportSpec.
From Verif.Proofs Require Import StackP VmPrimP CallP ReachP CodeP MemP StepP ScopeSimP CallSimP NativeSimP SimP SimBlockP.
#[local] Open Scope string_scope.
#[local] Open Scope list_scope.
#[local] Open Scope nat_scope.

(** A body that panics. *)
Lemma call_crash w n below temps callee args f ups slot0 s :
  calls_code (vm_heap s) callee f ups slot0 ->
  room_for_call f (below ++ rev temps) (List.length args) ->
  r_loop (machine w n) (fn_code f) (call_frame f (List.length (below ++ rev temps)) (List.length args)) ups 0%Z
    (with_stack ((below ++ rev temps) ++ call_cells f slot0 args) [] s) = RPanic ->
  r_call (machine w (S n)) (List.length args) (with_stack below (rev args ++ callee :: temps) s) = RPanic.
Proof.
  intros HC R E. cbn [machine r_call]. rewrite (call_fn_enter _ _ _ _ _ _ _ _ _ _ HC R).
  unfold rbind at 1. unfold execute at 1. unfold rbind at 1. rewrite E. reflexivity.
Qed.

(** The end of a call, as an answer; [l]: the variable that holds the receiver. *)
Definition returned (E : env) (ro : role) (l : nat) (a : answer) : answer :=
  match a with
  | AVal v m =>
      match ro with
      | Returning ret => check E ret v m (fun m' => AVal v m')
      | Constructing => match nth_error (m_cells m) l with Some (Some self) => AVal self m | _ => AUnknown end
      end
  | AReturn v m => AVal v m
  | AFail e m => AFail e m
  | ACrash => ACrash
  | _ => AUnknown
  end.
Lemma returned_check E ro l E1 ty v m next : returned E ro l (check E1 ty v m next) = check E1 ty v m (fun m' => returned E ro l (next m')).
Proof.
  unfold check. destruct ty as [ty|]; [|reflexivity]. unfold load.
  destruct (assoc_get (ta_name ty) E1) as [l1|]; [destruct (nth_error (m_cells m) l1) as [[c|]|]; try reflexivity|
    destruct (assoc_get (ta_name ty) (vm_globals (m_vm m))) as [c|]; try reflexivity];
    cbn [vbind]; unfold with_vm; destruct (assert_is _ _ _ _); reflexivity.
Qed.
Lemma returned_args E ro l next : forall ps args S m,
  returned E ro l (bind_args ps args S m next) = bind_args ps args S m (fun S1 m1 => returned E ro l (next S1 m1)).
Proof.
  induction ps as [|p ps IH]; intros args S m; [reflexivity|]. cbn [bind_args alloc]. rewrite returned_check.
  unfold check. destruct (fa_type p) as [ty|]; [|apply IH]. unfold vbind, with_vm. destruct (load _ _ _); try reflexivity.
  destruct (assert_is _ _ _ _); try reflexivity. apply IH.
Qed.

Lemma firstn_nth {A} : forall k (l : list A) i, i < k -> nth_error (firstn k l) i = nth_error l i.
Proof.
  induction k as [|k IH]; intros l i Q; [lia|]. destruct l as [|y l]; [now destruct i|]. destruct i; [reflexivity|]. cbn. apply IH. lia.
Qed.

Section Fn.
Variable w : world.
Variable lit : nat -> fn_bytecode.
Notation Inv := (Inv lit).
Notation code := (code lit).
Variable I : interp.
Hypothesis SE : sim_eval w lit I.
Hypothesis IMP : sim_import w lit I.

Section Run.
Variables (room n : nat) (src : source) (E : env) (slot0 callee : value) (args : list value).
Variables (rho : names_of) (V : view) (b : list value) (m : memory) (K : links) (t : list value).
Variables (ups : option (list nat)) (outer : list level) (uds : list upvalue_desc).
Let f := lit n.
Let need := 1 + List.length args + spare_slots f (List.length args).
Let base := List.length (b ++ rev t).
Let fr := call_frame f base (List.length args).
Let B := (b ++ rev t) ++ call_cells f slot0 args.
Let G := fn_ctx lit n (src_role src) outer uds.
Let S := Scene E (Some (src_role src)) (room - need) false.
Let R := cresult w lit rho V b m K t callee args.
Let l0 := List.length (m_cells m).
Let P a := R (returned E (src_role src) l0 a).
Hypothesis HI : Inv rho V b m K.
Hypothesis HR : List.length b + List.length t + room <= max_stack_size.
Hypothesis HN : need + enough <= room.
Hypothesis HC : calls_code (vm_heap (overlay K (m_vm m))) callee f ups slot0.
Hypothesis HU : captured rho E outer uds (upv ups).

Lemma base_len : base = List.length b + List.length t.
Proof. unfold base. now rewrite app_length, rev_length. Qed.
Lemma cells_need : List.length (call_cells f slot0 args) = need.
Proof. unfold call_cells, need. cbn [List.length]. rewrite app_length, repeat_length. lia. Qed.
Lemma B_len : List.length B = base + need.
Proof. unfold B. rewrite app_length, cells_need. reflexivity. Qed.
Lemma view_none i : List.length b <= i -> V i = None.
Proof. intros L. destruct (V i) as [[l fl]|] eqn:EV; [|reflexivity]. destruct (i_bound _ _ _ _ _ _ HI _ _ _ EV). lia. Qed.
Lemma B_low i : i < List.length b -> nth_error B i = nth_error b i.
Proof. intros L. unfold B. rewrite <- app_assoc, nth_error_app1 by assumption. reflexivity. Qed.
Lemma room_call : room_for_call f (b ++ rev t) (List.length args).
Proof. unfold room_for_call. fold base need. pose proof base_len. unfold enough in *. fold need. change (1 + List.length args + spare_slots f (List.length args)) with need. lia. Qed.

Lemma run_here : has_room G -> here lit G S fr ups [] rho V B m K [].
Proof.
  intros HG. pose proof base_len. pose proof B_len. unfold has_room in HG. cbn in HG. split; cbn [G fn_ctx S s_fn s_env s_chain s_room g_fn g_null g_depth g_loop List.length]; auto.
  - split; cbn [fn_ctx g_vars g_outer g_ups g_bc List.length G].
    + exists [], E. split; [reflexivity|]. split; [exact Logic.I|exact HU].
    + cbn [fr call_frame fr_start]. intros i L. apply view_none. lia.
    + cbn [fr call_frame fr_start fr_end]. unfold spare_slots. fold f. destruct (Nat.ltb_spec (List.length args) (bc_slot_count (fn_code f))); lia.
    + lia.
  - eapply Inv_stack; [exact HI|]. intros i Vi. apply B_low. destruct (V i) as [[l fl]|] eqn:EV; [|congruence]. now destruct (i_bound _ _ _ _ _ _ HI _ _ _ EV).
  - unfold enough in *. lia.
  - cbn [fr call_frame fr_end]. change (1 + List.length args + spare_slots f (List.length args)) with need. lia.
Qed.

Notation s0 := (state m K B []).
Notation leads := (leads w (fn_code f) fr ups).
Lemma done_sim rho' V' b' m' K' v : leads 0 s0 (Done (state m' K' b' [v])) -> good lit base rho V B rho' V' b' m' K' -> (forall i, V' i = V i) ->
  R (AVal v m').
Proof.
  intros (c & L) [A1 A2 (A3 & A4)] EV. pose proof base_len as LB. pose proof B_len as LB2.
  set (c1 := firstn base b'). set (c2 := skipn base b'). set (b1 := firstn (List.length b) b').
  assert (E1 : c1 = b1 ++ rev t).
  { unfold c1. rewrite LB. rewrite <- (firstn_skipn (List.length b) b') at 1. rewrite firstn_app, firstn_length, firstn_firstn.
    rewrite A3. replace (min (List.length b + List.length t) (List.length b)) with (List.length b) by lia. fold b1. f_equal.
    replace (List.length b + List.length t - min (List.length b) (List.length B)) with (List.length t) by lia.
    apply (nth_ext _ _ VNull VNull); [rewrite firstn_length, skipn_length, rev_length; lia|]. intros i Li. rewrite firstn_length in Li.
    assert (X : nth_error b' (List.length b + i) = nth_error B (List.length b + i)).
    { apply A4; [lia|]. apply view_none. lia. }
    assert (Y : nth_error (firstn (List.length t) (skipn (List.length b) b')) i = nth_error (rev t) i).
    { rewrite <- (firstn_skipn (List.length b) b') in X. rewrite nth_error_app2 in X by (rewrite firstn_length; lia).
      rewrite firstn_length in X. replace (List.length b + i - min (List.length b) (List.length b')) with i in X by lia.
      unfold B in X. rewrite <- app_assoc in X. rewrite nth_error_app2 in X by lia. replace (List.length b + i - List.length b) with i in X by lia.
      rewrite nth_error_app1 in X by (rewrite rev_length; lia). rewrite <- X.
      apply firstn_nth. lia. }
    destruct (nth_error (rev t) i) as [y|] eqn:Ey; [|apply nth_error_None in Ey; rewrite rev_length in Ey; lia].
    rewrite (nth_error_nth _ _ VNull Ey). apply nth_error_nth. exact Y. }
  assert (L1 : List.length b1 = List.length b) by (unfold b1; rewrite firstn_length; lia).
  assert (N1 : forall i, i < List.length b -> nth_error b1 i = nth_error b' i).
  { intros i Li. rewrite <- (firstn_skipn (List.length b) b'). fold b1. rewrite nth_error_app1 by lia. reflexivity. }
  exists rho', b1, K'. split.
  - exists (Datatypes.S c). intros k Lk. destruct k as [|k]; [lia|].
    replace (state m' K' b1 (v :: t)) with (with_stack c1 [v] (overlay K' (m_vm m'))).
    + unfold state. eapply (call_returns w k b t callee args f ups slot0 _ c1 c2 v (overlay K' (m_vm m'))); [exact HC|exact room_call| | |].
      * unfold c1, c2. rewrite firstn_skipn. apply (L k). lia.
      * unfold c1. rewrite firstn_length. fold base. lia.
      * unfold c2. rewrite skipn_length, cells_need. lia.
    + rewrite E1. unfold state. rewrite ws_shift. reflexivity.
  - split; [|exact A2|].
    + eapply Inv_stack; [eapply Inv_view; [exact A1|intros; symmetry; apply EV]|]. intros i Vi. apply N1.
      destruct (V i) as [[l fl]|] eqn:EVi; [|congruence]. now destruct (i_bound _ _ _ _ _ _ HI _ _ _ EVi).
    + split; [exact L1|]. intros i Li Vi. rewrite N1 by assumption. rewrite A4 by (auto; lia). apply B_low. exact Li.
Qed.
Lemma fail_sim e m' : fails w (fn_code f) fr ups 0 s0 e (m_vm m') -> R (AFail e m').
Proof.
  intros (st & K' & c & L). exists st, K'. exists (Datatypes.S c). intros k Lk. destruct k as [|k]; [lia|].
  unfold state. eapply call_fails; [exact HC|exact room_call|]. apply L. lia.
Qed.
Lemma crash_sim : leads 0 s0 Crashed -> R ACrash.
Proof.
  intros (c & L). exists (Datatypes.S c). intros k Lk. destruct k as [|k]; [lia|].
  unfold state. eapply call_crash; [exact HC|exact room_call|]. apply L. lia.
Qed.
Lemma body_sound : sound w R (g_bc G) fr ups 0 s0.
Proof. split; [intros; now apply fail_sim|apply crash_sim|exact Logic.I]. Qed.

Lemma cut_start i : cut (fr_start fr) V i = V i.
Proof.
  cbn [fr call_frame fr_start]. unfold cut. destruct (Nat.ltb_spec i base); [reflexivity|]. symmetry. apply view_none. pose proof base_len. lia.
Qed.
Lemma body_closed : closed w lit P G fr ups [] rho V B 0 s0 [].
Proof.
  intros a Ha H. unfold P. destruct a as [v m'|m'|m'|v m'|m'|e m'| |]; try contradiction; cbn [returned]; try exact Logic.I.
  - cbn [rest] in H. destruct H as (rho' & b' & K' & L & GD). eapply done_sim; [exact L|exact GD|apply cut_start].
  - now apply fail_sim.
  - now apply crash_sim.
Qed.

Lemma cells_arg slot : slot < bc_slot_count (fn_code f) -> nth_error B (base + Datatypes.S slot) = Some (match nth_error args slot with Some v => v | None => VNull end).
Proof.
  intros L. unfold B. rewrite nth_error_app2 by (unfold base; lia). fold base. replace (base + Datatypes.S slot - base) with (Datatypes.S slot) by lia.
  rewrite call_cells_slots; [reflexivity|]. pose proof (call_cells_enough f slot0 args). lia.
Qed.
Lemma skip_hd j : hd VNull (skipn j args) = match nth_error args j with Some v => v | None => VNull end.
Proof. clear. revert j. induction args as [|a l IH]; intros [|j]; cbn; auto. Qed.
Lemma skip_tl j : tl (skipn j args) = skipn (Datatypes.S j) args.
Proof. clear. revert j. induction args as [|a l IH]; intros [|j]; cbn; auto. apply IH. Qed.

Hypothesis HG : has_room G.
Lemma ROOMS : enough <= s_room S.
Proof. cbn [S s_room]. lia. Qed.

(** With the receiver declared. *)
Variable fl : bool.
Let m1 := set_cells (m_cells m ++ [Some slot0]) m.
Let G1 := extend [(src_self src, fl)] G.
Let S1 := declare (src_self src) l0 S.
Let V1 := put (fr_start fr + 0) l0 fl V.
Lemma slot0_at : nth_error B (base + 0) = Some slot0.
Proof. unfold B. rewrite nth_error_app2 by (fold base; lia). fold base. replace (base + 0 - base) with 0 by lia. reflexivity. Qed.
Lemma first_blk : blk w lit fr ups rho V B 0 m K [] G S G1 S1 V1 0 [] rho B m1 K.
Proof.
  apply (blk_declare w lit fr ups rho V B 0 m K [] [] G S [] (run_here HG) ROOMS G S V 0 [] rho B m K (src_self src) fl (Some slot0)); [|exact HG|exact slot0_at].
  eapply blk_start; [exact (run_here HG)|reflexivity|exact body_closed].
Qed.
Lemma self_here : here lit G1 S1 fr ups [] rho V1 B m1 K [].
Proof.
  pose proof (run_here HG) as [A1 A2 A3 A4 A5 A6 A7 A8]. split; auto.
  - apply (bk_scope _ _ _ _ _ _ _ _ _ _ _ _ _ _ _ _ _ _ _ _ _ _ first_blk).
  - eapply blk_inv; exact first_blk.
Qed.
Lemma V1_low i : i < fr_start fr -> V1 i = V i.
Proof. intros L. apply put_other. lia. Qed.
Lemma self_closed : closed w lit P G1 fr ups [] rho V1 B 0 s0 [].
Proof.
  intros a Ha H. apply body_closed; [exact Ha|]. destruct a as [v m'|m'|m'|v m'|m'|e m'| |]; auto.
  cbn [rest] in *. destruct H as (rho' & b' & K' & L & [A1 A2 A3]). exists rho', b', K'. split; [exact L|]. split; auto.
  - eapply Inv_view; [exact A1|]. intros i. unfold cut. destruct (Nat.ltb_spec i (fr_start fr)); [|reflexivity]. symmetry. now apply V1_low.
  - eapply keep_view; [exact A3|]. intros i Li. symmetry. now apply V1_low.
Qed.
Notation blk := (blk w lit fr ups rho V1 B 0 m1 K [] G1 S1).
Lemma self_blk : blk G1 S1 V1 0 [] rho B m1 K.
Proof. eapply blk_start; [exact self_here|reflexivity|exact self_closed]. Qed.

Lemma params_sim : forall ps j G2 S2 V2 p q m2 G3 next, blk G2 S2 V2 p [] rho B m2 K -> params_code G2 ps p q G3 ->
  List.length (g_vars G2) = Datatypes.S j ->
  (forall S3 V3 m3, blk G3 S3 V3 q [] rho B m3 K -> P (next S3 m3)) -> P (bind_args ps (skipn j args) S2 m2 next).
Proof.
  induction ps as [|a ps IH]; intros j G2 S2 V2 p q m2 G3 next BK C LV N; cbn [params_code bind_args] in *.
  - destruct C as (-> & ->). eapply N; exact BK.
  - destruct C as (fa & p1 & HR1 & CK & C). cbn [alloc]. rewrite skip_hd, skip_tl.
    set (v := match nth_error args j with Some v => v | None => VNull end).
    assert (EB : g_bc G2 = fn_code f) by (destruct (bk_vars _ _ _ _ _ _ _ _ _ _ _ _ _ _ _ _ _ _ _ _ _ _ BK) as (vs & ->); reflexivity).
    assert (EV : nth_error B (fr_start fr + List.length (g_vars G2)) = Some v).
    { rewrite LV. apply cells_arg. unfold has_room in HR1. rewrite EB, LV in HR1. lia. }
    pose proof (blk_declare w lit fr ups rho V1 B 0 m1 K [] [] G1 S1 [] self_here ROOMS _ _ _ _ _ _ _ _ _ (fa_name a) fa (Some v) BK HR1 EV) as B1.
    eapply (check_sim w lit) with (G := extend [(fa_name a, fa)] G2) (t := []) (K := K) (b := B) (p := p);
      [apply (bk_scope _ _ _ _ _ _ _ _ _ _ _ _ _ _ _ _ _ _ _ _ _ _ B1)|eapply blk_inv; exact B1|apply (run_here HG)|exact CK| |exact HR1|exact EV| |].
    + pose proof B_len. pose proof base_len. unfold fits, enough in *. cbn [List.length]. lia.
    + eapply (blk_sound w lit fr ups rho V1 B 0 m1 K [] [] G1 S1 [] P self_closed); exact B1.
    + intros m' L SM. eapply IH; [eapply blk_step; [exact B1|exact L|exact SM]|exact C|cbn [extend g_vars app List.length]; lia|exact N].
Qed.

(** The end of the body. *)
Lemma ending vs v p2 p3 p4 S4 V4 rho' b' m' K' :
  blk (extend vs G) S4 V4 p2 [v] rho' b' m' K' ->
  match src_role src with
  | Returning _ => closes (g_bc G) (flagged 0 vs) p2 p3 /\ rets G p3 p4
  | Constructing => exists vs' p5 p6, vs = vs' ++ [(src_self src, false)] /\
      closes (g_bc G) (flagged 1 vs') p2 p3 /\
      at_ (g_bc G) p3 (INone OpPop) p5 /\ at_ (g_bc G) p5 (IByte OpLoadLocal 0) p6 /\ at_ (g_bc G) p6 (INone OpReturn) p4
  end -> P (AVal v m').
Proof.
  intros B3 CE. assert (H0 := self_here). pose proof B_len as LB2. pose proof base_len as LB. pose proof cells_need as LC. unfold P. cbn [returned].
  assert (LB' : List.length b' = List.length B) by (eapply blk_len; exact B3).
  assert (FE : fr_end fr <= List.length b') by (eapply blk_frame; [exact H0|exact B3]).
  assert (LOW : forall i, i < fr_start fr -> V4 i = V i).
  { intros i Li. rewrite (bk_view _ _ _ _ _ _ _ _ _ _ _ _ _ _ _ _ _ _ _ _ _ _ B3) by lia. now apply V1_low. }
  assert (V4V : forall i, cut (fr_start fr) V4 i = V i).
  { intros i. rewrite <- cut_start. unfold cut. destruct (Nat.ltb_spec i (fr_start fr)); [|reflexivity]. now apply LOW. }
  assert (REL : forall p t' rho2 V2 b2 m2 K2, reached w lit fr ups rho V1 B 0 (state m1 K B []) (g_bc G1) p t' rho2 V2 b2 m2 K2 ->
    reached w lit fr ups rho V B 0 s0 (g_bc G) p t' rho2 V2 b2 m2 K2).
  { intros p t' rho2 V2 b2 m2 K2 (L & [A1 A2 A3]). split; [exact L|]. split; auto. eapply keep_view; [exact A3|]. intros i Li. symmetry. now apply V1_low. }
  destruct (src_role src) as [ret|] eqn:ER in CE |- *.
  - destruct CE as (CC & CR).
    destruct (closes_sim w lit fr ups G vs rho' V4 (s_env S4) b' m' K' [v] p2 p3
       (bk_scope _ _ _ _ _ _ _ _ _ _ _ _ _ _ _ _ _ _ _ _ _ _ B3) (blk_inv _ _ _ _ _ _ _ _ _ _ _ _ _ _ _ _ _ _ _ _ _ _ B3) CC FE) as (b2 & K2 & L & HI2 & KP).
    { unfold fits, enough in *. cbn [List.length]. lia. }
    cbn [G fn_ctx g_vars List.length] in KP, HI2. rewrite Nat.add_0_r in KP, HI2.
    assert (RE : reached w lit fr ups rho V B 0 s0 (g_bc G) p3 [v] rho' V b2 m' K2).
    { eapply reach_view with (V := cut (fr_start fr) V4); [|intros; symmetry; apply V4V].
      eapply reach_good; [apply REL; apply (bk_reach _ _ _ _ _ _ _ _ _ _ _ _ _ _ _ _ _ _ _ _ _ _ B3)|exact L| |exact LOW].
      split; [exact HI2|apply ext_refl|exact KP]. }
    assert (LB3 : List.length b2 = List.length B) by (eapply reached_len; exact RE).
    apply (rets_sim w lit fr ups R G rho' V E b2 m' K2 v (Returning ret) p3 p4 (fun m4 => AVal v m4));
      [eapply scope_ext; [eapply reached_ext; exact RE|apply (h_scope _ _ _ _ _ _ _ _ _ _ _ _ (run_here HG))]|eapply reached_inv; exact RE|rewrite LB3; apply (run_here HG)|cbn [G fn_ctx g_fn]; now rewrite ER|exact CR| | |].
    { unfold fits, enough in *. cbn [List.length]. lia. }
    { eapply sound_from; [eapply reached_leads; exact RE|exact body_sound]. }
    intros m5 L5 SM. eapply done_sim with (K' := K2) (b' := b2) (rho' := rho') (V' := V); [eapply leads_trans; [eapply reached_leads; exact RE|exact L5]| |auto].
    destruct (reached_good _ _ _ _ _ _ _ _ _ _ _ _ _ _ _ _ _ RE) as [A1 A2 A3]. split; [eapply same_inv; eauto|exact A2|exact A3].
  - destruct CE as (vs' & p5 & p6 & EV & CC & A1 & A2 & A3).
    assert (Efl : fl = false).
    { destruct (bk_vars _ _ _ _ _ _ _ _ _ _ _ _ _ _ _ _ _ _ _ _ _ _ B3) as (vs2 & EG). apply (f_equal g_vars) in EG.
      cbn [extend g_vars G1 G fn_ctx app] in EG. rewrite app_nil_r, EV in EG. apply app_inj_tail in EG as [_ EG]. congruence. }
    destruct (nth_error (m_cells m') l0) as [[self|]|] eqn:EC; try exact Logic.I.
    assert (SC : scope_ok (extend vs' G1) fr ups rho' V4 (s_env S4)).
    { replace (extend vs' G1) with (extend vs G); [apply (bk_scope _ _ _ _ _ _ _ _ _ _ _ _ _ _ _ _ _ _ _ _ _ _ B3)|].
      unfold G1. rewrite EV, Efl. unfold extend. cbn [g_vars g_bc g_outer g_ups g_fn g_loop g_null g_depth]. rewrite <- app_assoc. reflexivity. }
    destruct (closes_sim w lit fr ups G1 vs' rho' V4 (s_env S4) b' m' K' [v] p2 p3 SC
       (blk_inv _ _ _ _ _ _ _ _ _ _ _ _ _ _ _ _ _ _ _ _ _ _ B3) CC FE) as (b2 & K2 & L & HI2 & KP).
    { unfold fits, enough in *. cbn [List.length]. lia. }
    cbn [G1 extend G fn_ctx g_vars List.length app] in KP, HI2.
    assert (EV0 : V4 (fr_start fr + 0) = Some (l0, fl)).
    { rewrite (bk_view _ _ _ _ _ _ _ _ _ _ _ _ _ _ _ _ _ _ _ _ _ _ B3); [apply put_same|]. cbn [G1 extend G fn_ctx g_vars List.length app]. lia. }
    assert (LB3 : List.length b2 = List.length b') by (destruct KP as [KP _]; exact KP).
    assert (ES : nth_error b2 (fr_start fr + 0) = Some self).
    { eapply (i_val _ _ _ _ _ _ HI2 _ l0 fl); [|exact EC]. unfold cut. destruct (Nat.ltb_spec (fr_start fr + 0) (fr_start fr + 1)); [exact EV0|lia]. }
    assert (F : fits b2 [] 1) by (unfold fits, enough in *; cbn [List.length]; lia).
    assert (SL : fr_start fr + 0 < fr_end fr).
    { pose proof (sc_slots _ _ _ _ _ _ (h_scope _ _ _ _ _ _ _ _ _ _ _ _ (run_here HG))) as SS. unfold has_room in HG. cbn [G fn_ctx g_vars g_bc List.length] in *. lia. }
    eapply done_sim with (K' := K2) (b' := b2) (rho' := rho') (V' := cut (fr_start fr) V4); [| |exact V4V].
    + eapply leads_trans; [apply (reached_leads _ _ _ _ _ _ _ _ _ _ _ _ _ _ _ _ _ (REL _ _ _ _ _ _ _ (bk_reach _ _ _ _ _ _ _ _ _ _ _ _ _ _ _ _ _ _ _ _ _ _ B3)))|].
      eapply leads_trans; [exact L|]. eapply leads_trans; [eapply lead_pop; [exact A1|exact F]|].
      eapply leads_trans; [eapply lead_load_local; [exact A2|exact SL|rewrite LB3; exact FE|exact ES|exact F]|]. eapply lead_return; exact A3.
    + destruct (reached_good _ _ _ _ _ _ _ _ _ _ _ _ _ _ _ _ _ (REL _ _ _ _ _ _ _ (bk_reach _ _ _ _ _ _ _ _ _ _ _ _ _ _ _ _ _ _ _ _ _ _ B3))) as [X1 X2 X3].
      split; [|exact X2|].
      * eapply Inv_forget; [exact HI2|]. intros i. unfold cut. destruct (Nat.ltb_spec i (fr_start fr)), (Nat.ltb_spec i (fr_start fr + 1)); try lia; auto.
        right. split; [reflexivity|]. intros l fl' Q. replace i with (fr_start fr + 0) in Q by lia. congruence.
      * eapply keep_trans; [exact X3|]. eapply keep_view; [eapply keep_le; [exact KP|cbn [fr call_frame fr_start]; lia]|]. intros i Li. symmetry. now apply LOW.
Qed.

Lemma body_sim G2 G3 vs p1 p2 p3 p4 :
  params_code G1 (src_args src) 0 p1 G2 -> hoists G2 (hoisted (fst (body_parts (src_body src))) (snd (body_parts (src_body src)))) G3 ->
  items_code code (snd (body_parts (src_body src))) G3 (src_first src) (fst (body_parts (src_body src))) p1 p2 (extend vs G) ->
  match src_role src with
  | Returning _ => closes (g_bc G) (flagged 0 vs) p2 p3 /\ rets G p3 p4
  | Constructing => exists vs' p5 p6, vs = vs' ++ [(src_self src, false)] /\
      closes (g_bc G) (flagged 1 vs') p2 p3 /\
      at_ (g_bc G) p3 (INone OpPop) p5 /\ at_ (g_bc G) p5 (IByte OpLoadLocal 0) p6 /\ at_ (g_bc G) p6 (INone OpReturn) p4
  end -> R (run_fn lit I room n src E slot0 args m).
Proof.
  intros CP CH CI CE. unfold run_fn. fold f need. destruct (Nat.ltb_spec room (need + enough)); [lia|]. cbn [alloc]. fold l0 m1.
  destruct (body_parts (src_body src)) as [es tl]. cbn [fst snd] in *.
  assert (X : forall args S1 m1, bind_args (src_args src) args S1 m1 (fun S2 m2 => match block lit I S2 (src_first src) es tl m2 with
      | AVal v m3 => match src_role src with
          | Returning ret => check E ret v m3 (fun m4 => AVal v m4)
          | Constructing => match nth_error (m_cells m3) l0 with Some (Some self) => AVal self m3 | _ => AUnknown end
          end
      | AReturn v m3 => AVal v m3 | AFail e m3 => AFail e m3 | ACrash => ACrash | _ => AUnknown end)
      = returned E (src_role src) l0 (bind_args (src_args src) args S1 m1 (fun S2 m2 => block lit I S2 (src_first src) es tl m2)))
    by (intros; rewrite returned_args; reflexivity).
  rewrite X. change (P (bind_args (src_args src) (skipn 0 args) S1 m1 (fun S2 m2 => block lit I S2 (src_first src) es tl m2))).
  eapply (params_sim _ 0); [exact self_blk|exact CP|reflexivity|]. intros S2 V2 m2 B1. cbv beta.
  destruct (hoist_sim w lit fr ups rho V1 B 0 m1 K [] [] G1 S1 [] self_here ROOMS _ _ _ _ _ _ _ _ _ _ _ CH B1) as (V3 & B2).
  unfold block. destruct (hoist (hoisted es tl) S2 m2) as [S3 m3]. cbn [fst snd] in B2.
  eapply (items_sim w lit I fr ups rho V1 B 0 m1 K [] [] G1 S1 [] P self_here eq_refl self_closed ROOMS SE IMP tl es); [exact B2|exact CI|].
  intros S4 V4 v rho' b' m' K' B3. eapply ending; [exact B3|exact CE].
Qed.
End Run.

Lemma run_fn_sim room n src E slot0 callee args rho V b m K t ups outer uds :
  Inv rho V b m K -> List.length b + List.length t + room <= max_stack_size ->
  calls_code (vm_heap (overlay K (m_vm m))) callee (lit n) ups slot0 -> captured rho E outer uds (upv ups) ->
  fn_is lit n src outer uds ->
  cresult w lit rho V b m K t callee args (run_fn lit I room n src E slot0 args m).
Proof.
  intros HI HR HC HU F.
  destruct (Nat.lt_ge_cases room (1 + List.length args + spare_slots (lit n) (List.length args) + enough)) as [L|L].
  - unfold run_fn. destruct (Nat.ltb_spec room (1 + List.length args + spare_slots (lit n) (List.length args) + enough)); [exact Logic.I|lia].
  - unfold fn_is in F. destruct (body_parts (src_body src)) as [es tl] eqn:EB.
    destruct F as (fl & G1 & G2 & vs & p1 & p2 & p3 & p4 & F1 & F2 & CP & CH & CI & CE).
    eapply (body_sim room n src E slot0 callee args rho V b m K t ups outer uds HI HR L HC HU F2 fl G1 G2 vs p1 p2 p3 p4); rewrite ?EB; auto.
Qed.

(** Recognised functions are equal. *)
Lemma float_eqb_eq a b : float_eqb a b = true -> a = b.
Proof.
  destruct a as [x|x| |x m e], b as [y|y| |y n f]; cbn; try discriminate; auto; intros H.
  - apply Bool.eqb_prop in H. now subst.
  - apply Bool.eqb_prop in H. now subst.
  - apply andb_prop in H as [H H3]. apply andb_prop in H as [H1 H2]. apply Bool.eqb_prop in H1. apply Pos.eqb_eq in H2. apply Z.eqb_eq in H3. now subst.
Qed.
Fixpoint fn_eqb_eq (f g : fn_bytecode) {struct f} : fn_eqb f g = true -> f = g.
Proof.
  destruct f as [i a [d s u cs]], g as [j a' [d' s' u' cs']]. cbn [fn_eqb]. intros H.
  apply andb_prop in H as [H H6]. apply andb_prop in H as [H H5]. apply andb_prop in H as [H H4]. apply andb_prop in H as [H H3]. apply andb_prop in H as [H1 H2].
  apply Nat.eqb_eq in H1, H3, H4. apply String.eqb_eq in H2. destruct (list_eq_dec Nat.eq_dec d d') as [->|]; [|discriminate]. subst.
  assert (cs = cs') as ->; [|reflexivity]. clear H5. revert cs' H6. induction cs as [|c cs IH]; intros [|c' cs'] H6; try discriminate; [reflexivity|].
  apply andb_prop in H6 as [H H6]. f_equal; [|apply IH; exact H6].
  destruct c, c'; try discriminate; f_equal.
  - now apply Z.eqb_eq.
  - now apply float_eqb_eq.
  - now apply String.eqb_eq.
  - now apply String.eqb_eq.
  - now apply fn_eqb_eq.
Qed.

Hypothesis W : natives_blind w.
Hypothesis SC : sim_call w lit I.
Lemma call_fn_sim room callee args m rho V b K t :
  Inv rho V b m K -> List.length b + List.length t + room <= max_stack_size -> 1 + List.length args <= room ->
  cresult w lit rho V b m K t callee args (call w lit fn_eqb I room callee args m).
Proof.
  intros HI HR HL. unfold call. destruct (Nat.ltb_spec room (1 + List.length args)); [lia|].
  assert (SCRIPT : forall f slot0, (callee = VFnScript f /\ slot0 = callee \/ callee = VFnBound slot0 (VFnScript f)) ->
    cresult w lit rho V b m K t callee args match find (fun p => Nat.eqb (fst p) (fn_id f)) (m_fns m) with
      | Some (n, src) => if fn_eqb f (lit n) then run_fn lit I room n src [] slot0 args m else AUnknown
      | None => AUnknown
      end).
  { intros f slot0 HC. destruct (find _ _) as [[n src]|] eqn:EF; [|exact Logic.I]. destruct (fn_eqb f (lit n)) eqn:EQ; [|exact Logic.I].
    apply find_some in EF as [EF _]. apply fn_eqb_eq in EQ. subst f. destruct (i_fns _ _ _ _ _ _ HI _ _ EF) as (outer & F).
    eapply (run_fn_sim _ _ _ _ _ _ _ _ _ _ _ _ _ None outer []); eauto.
    - destruct HC as [(-> & ->)| ->]; [apply CallsPlain|apply CallsBound]; apply RunsScript.
    - split; cbn [upv]; auto.
      + intros [|i] u Hu; discriminate.
      + intros i x Hr. destruct outer as [|[vs us] outer]; cbn in Hr; [contradiction|]. destruct i; contradiction. }
  assert (CLOS : forall a slot0, (callee = VFnClosure a /\ slot0 = callee \/ callee = VFnBound slot0 (VFnClosure a)) ->
    cresult w lit rho V b m K t callee args match nth_error (m_closures m) a with
      | Some (Some c) => run_fn lit I room (cl_number c) (cl_source c) (cl_env c) slot0 args m
      | _ => AUnknown
      end).
  { intros a slot0 HC. destruct (nth_error (m_closures m) a) as [[c|]|] eqn:EC; try exact Logic.I.
    destruct (i_closures _ _ _ _ _ _ HI _ _ EC) as (U & outer & uds & E1 & F & CP).
    eapply (run_fn_sim _ _ _ _ _ _ _ _ _ _ _ _ _ (Some U) outer uds); eauto.
    destruct HC as [(-> & ->)| ->]; [apply CallsPlain|apply CallsBound]; apply RunsClosure; exact E1. }
  assert (NF : (match (match callee with VFnBound _ f => f | f => f end) with VFnScript _ | VFnClosure _ | VFnNative _ | VClass _ => False | _ => True end) ->
     cresult w lit rho V b m K t callee args (AFail TYPE_ASSERTION_FUNCTION_FAILURE m)) by (intros; now apply not_function_sim).
  destruct callee as [| | | | |f|a|n|receiver callee| | | | |c]; try (apply NF; exact Logic.I).
  - apply SCRIPT; auto.
  - apply CLOS; auto.
  - eapply (call_native_sim w lit W I SC _ _ _ _ _ _ room n None); eauto.
  - destruct callee as [| | | | |f|a|n|receiver2 callee| | | | |c]; try (apply NF; exact Logic.I).
    + apply SCRIPT; auto.
    + apply CLOS; auto.
    + eapply (call_native_sim w lit W I SC _ _ _ _ _ _ room n (Some receiver)); eauto.
    + eapply construct_sim; eauto.
  - eapply construct_sim; eauto.
Qed.
End Fn.
