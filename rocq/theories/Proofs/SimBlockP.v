(** Simulation of blocks: declarations, statements, leaving the scope. *)
From Verif.Spec Require Import SupportSpec.
From Verif.Proofs Require Import StackP VmPrimP CallP ReachP CodeP MemP StepP ScopeSimP CallSimP SimP.
#[local] Open Scope string_scope.
#[local] Open Scope list_scope.
#[local] Open Scope nat_scope.

Section Block.
Variable w : world.
Variable lit : nat -> fn_bytecode.
Notation Inv := (Inv lit).
Notation code := (code lit).
Variable I : interp.
Variables (fr : frame) (ups : option (list nat)).
Variables (rho0 : names_of) (V0 : view) (b0 : list value) (p0 : nat) (m0 : memory) (K0 : links) (t0 ts : list value).
Variables (G : ctx) (S : scene) (lt : list value) (P : answer -> Prop).
Notation s0 := (state m0 K0 b0 ts).
Notation bc := (g_bc G).
Notation reached := (reached w lit fr ups rho0 V0 b0 p0 s0 bc).
Hypothesis H0 : here lit G S fr ups lt rho0 V0 b0 m0 K0 t0.
Hypothesis N0 : g_null G = None.
Hypothesis HP : closed w lit P G fr ups lt rho0 V0 b0 p0 s0 t0.
Hypothesis ROOM : enough <= s_room S.
Hypothesis SE : sim_eval w lit I.
Hypothesis IMP : sim_import w lit I.

Record blk (G1 : ctx) (S1 : scene) (V1 : view) (p : nat) (t : list value) (rho : names_of) (b : list value) (m : memory) (K : links) : Prop := {
  bk_reach : reached p t rho V1 b m K;
  bk_scope : scope_ok G1 fr ups rho V1 (s_env S1);
  bk_vars : exists vs, G1 = extend vs G;
  bk_view : forall i, i < fr_start fr + List.length (g_vars G) -> V1 i = V0 i;
  bk_fn : s_fn S1 = s_fn S;
  bk_room : s_room S1 = s_room S;
  bk_chain : s_chain S1 = false }.

Lemma blk_len G1 S1 V1 p t rho b m K : blk G1 S1 V1 p t rho b m K -> List.length b = List.length b0.
Proof. intros B. eapply reached_len, bk_reach; eauto. Qed.
Lemma blk_bc G1 S1 V1 p t rho b m K : blk G1 S1 V1 p t rho b m K -> g_bc G1 = bc.
Proof. intros B. destruct (bk_vars _ _ _ _ _ _ _ _ _ B) as (vs & ->). reflexivity. Qed.
Lemma blk_sound G1 S1 V1 p t rho b m K : blk G1 S1 V1 p t rho b m K -> sound w P (g_bc G1) fr ups p (state m K b t).
Proof. intros B. rewrite (blk_bc _ _ _ _ _ _ _ _ _ B). eapply P_sound; eauto. apply B. Qed.
Lemma blk_frame G1 S1 V1 p t rho b m K : blk G1 S1 V1 p t rho b m K -> fr_end fr <= List.length b.
Proof. intros B. rewrite (blk_len _ _ _ _ _ _ _ _ _ B). apply H0. Qed.
Lemma blk_inv G1 S1 V1 p t rho b m K : blk G1 S1 V1 p t rho b m K -> Inv rho V1 b m K.
Proof. intros B. eapply reached_inv, bk_reach; eauto. Qed.
Ltac ft := match goal with |- ?g => tryif has_evar g then fail else idtac end;
  repeat match goal with B : blk _ _ _ _ _ _ ?b _ _ |- _ => lazymatch goal with
    | H : List.length b = List.length b0 |- _ => fail
    | _ => pose proof (blk_len _ _ _ _ _ _ _ _ _ B) end end;
  pose proof (h_room _ _ _ _ _ _ _ _ _ _ _ _ H0); unfold fits, enough in *; cbn [List.length app] in *;
  rewrite ?app_length, ?rev_length, ?set_nth_len in *; cbn [List.length] in *; lia.

Lemma blk_step G1 S1 V1 p t rho b m K p' t' m' : blk G1 S1 V1 p t rho b m K ->
  leads w (g_bc G1) fr ups p (state m K b t) (At p' (state m' K b t')) -> same m m' -> blk G1 S1 V1 p' t' rho b m' K.
Proof.
  intros B L SM. pose proof (blk_bc _ _ _ _ _ _ _ _ _ B) as EB. rewrite EB in L. destruct B as [R A2 A3 A4 A5 A6 A7]. split; auto. eapply reach_step; eauto.
Qed.
Lemma blk_step_ G1 S1 V1 p t rho b m K p' t' : blk G1 S1 V1 p t rho b m K ->
  leads w (g_bc G1) fr ups p (state m K b t) (At p' (state m K b t')) -> blk G1 S1 V1 p' t' rho b m K.
Proof. intros B L. eapply blk_step; eauto. apply same_refl. Qed.

Lemma blk_vm {A} (f : run A) G1 S1 V1 p t q rho b m K fin next : blk G1 S1 V1 p t rho b m K ->
  stores w (g_bc G1) fr ups (f (m_vm m)) p (state m K b t) q (fun a s => state (set_vm s m) K b (fin a)) ->
  (forall a m', blk G1 S1 V1 q (fin a) rho b m' K -> P (next a m')) -> P (with_vm f m next).
Proof.
  intros R ST N. eapply with_vm_sim; [exact ST|eapply blk_sound; exact R|]. intros a s' L. apply N.
  eapply blk_step; eauto. apply set_same.
Qed.

Lemma blk_vm_same {A} (f : run A) G1 S1 V1 p t q rho b m K fin next : blk G1 S1 V1 p t rho b m K ->
  stores w (g_bc G1) fr ups (f (m_vm m)) p (state m K b t) q (fun a s => state (set_vm s m) K b (fin a)) ->
  (forall a m', blk G1 S1 V1 q (fin a) rho b m' K -> same m m' -> P (next a m')) -> P (with_vm f m next).
Proof.
  intros R ST N. eapply with_vm_sim; [exact ST|eapply blk_sound; exact R|]. intros a s' L. apply N.
  - eapply blk_step; eauto. apply set_same.
  - apply set_same.
Qed.

Lemma blk_flat G1 S1 V1 p t rho b m K : blk G1 S1 V1 p t rho b m K -> g_deep 0 G1 = G1 /\ deep 0 S1 = S1.
Proof.
  intros B. destruct (bk_vars _ _ _ _ _ _ _ _ _ B) as (vs & ->). split.
  - unfold g_deep. destruct G. cbn in *. rewrite N0. unfold extend. cbn. f_equal. lia.
  - pose proof (bk_chain _ _ _ _ _ _ _ _ _ B) as C. destruct S1. cbn in C. rewrite C. unfold deep. cbn. f_equal. lia.
Qed.
(** An expression, with the values [te] of this statement on the stack. *)
Lemma blk_eval_at te G1 S1 V1 p q rho b m K k e next : blk G1 S1 V1 p (te ++ t0) rho b m K -> List.length te + enough <= s_room S ->
  code (g_deep (List.length te) G1) k e p q ->
  (forall v m' rho' b' K', blk G1 S1 V1 q (v :: te ++ t0) rho' b' m' K' -> P (next v m')) ->
  P (vbind (i_eval I (deep (List.length te) S1) k e m) next).
Proof.
  intros B RM C N. destruct (bk_vars _ _ _ _ _ _ _ _ _ B) as (vs & EG).
  eapply (eval_gen w lit I fr ups rho0 V0 b0 p0 s0 bc P G lt t0 eq_refl HP SE (g_deep (List.length te) G1) (deep (List.length te) S1)); [apply B| | | | |apply B|left; reflexivity|exact C|].
  - intros _. destruct H0 as [A1 A2 A3 A4 A5 A6 A7 A8]. split.
    + eapply scope_ctx; [apply B| | | |]; reflexivity.
    + eapply blk_inv; eauto.
    + cbn [deep s_fn]. rewrite (bk_fn _ _ _ _ _ _ _ _ _ B), A3, EG. reflexivity.
    + reflexivity.
    + rewrite EG, app_length. cbn. lia.
    + rewrite EG. cbn [g_deep g_loop extend g_vars]. destruct (g_loop G) as [l|]; auto. rewrite app_length.
      destruct A6 as ((ex & E) & A6 & A6'). split; [exists (te ++ ex); rewrite E; apply app_assoc|]. split; [exact A6|]. lia.
    + cbn [deep s_room]. rewrite (bk_room _ _ _ _ _ _ _ _ _ B), (blk_len _ _ _ _ _ _ _ _ _ B), app_length. lia.
    + rewrite (blk_len _ _ _ _ _ _ _ _ _ B). exact A8.
  - rewrite EG. reflexivity.
  - rewrite EG. reflexivity.
  - eapply use_loop; eauto.
  - intros _ v m2 rho2 b2 K2 R2 X. apply (N v m2 rho2 b2 K2). destruct B as [R A2 A3 A4 A5 A6 A7]. split; auto. eapply scope_ext; eauto.
Qed.
Lemma blk_eval G1 S1 V1 p q rho b m K k e next : blk G1 S1 V1 p t0 rho b m K -> code (g_in G1) k e p q ->
  (forall v m' rho' b' K', blk G1 S1 V1 q (v :: t0) rho' b' m' K' -> P (next v m')) -> P (vbind (i_eval I S1 k e m) next).
Proof.
  intros B C N. destruct (blk_flat _ _ _ _ _ _ _ _ _ B) as (_ & E). rewrite <- E. apply (blk_eval_at [] G1 S1 V1 p q rho b m K k e next B ROOM C N).
Qed.

(** A value for a variable that is about to be declared. *)
Lemma blk_poke G1 S1 V1 p q v t rho b m K : blk G1 S1 V1 p (v :: t) rho b m K -> has_room G1 -> fits b t 1 ->
  at_ (g_bc G1) p (IByte OpStoreLocal (List.length (g_vars G1))) q ->
  blk G1 S1 V1 q (v :: t) rho (set_nth b (fr_start fr + List.length (g_vars G1)) v) m K /\
  nth_error (set_nth b (fr_start fr + List.length (g_vars G1)) v) (fr_start fr + List.length (g_vars G1)) = Some v.
Proof.
  intros B HR F A. pose proof (blk_frame _ _ _ _ _ _ _ _ _ B) as FE. pose proof (sc_slots _ _ _ _ _ _ (bk_scope _ _ _ _ _ _ _ _ _ B)) as SS. unfold has_room in HR.
  split; [|apply nth_error_set_nth_eq; lia].
  assert (L : leads w (g_bc G1) fr ups p (state m K b (v :: t)) (At q (state m K (set_nth b (fr_start fr + List.length (g_vars G1)) v) (v :: t))))
    by (apply (lead_write_local w (g_bc G1) fr ups false); auto; lia).
  pose proof (blk_bc _ _ _ _ _ _ _ _ _ B) as EB. pose proof (blk_inv _ _ _ _ _ _ _ _ _ B) as HI. destruct B as [R A2 A3 A4 A5 A6 A7]. split; auto.
  eapply (reach_good w lit) with (V' := V1); [exact R|rewrite <- EB; exact L| |].
  - split; [|apply ext_refl|apply keep_set; intros; lia].
    eapply Inv_stack; [exact HI|]. intros i Vi. apply nth_error_set_nth_neq. intros Q. apply Vi. apply (sc_free _ _ _ _ _ _ A2). lia.
  - intros i Li. apply A4. lia.
Qed.
Lemma blk_declare G1 S1 V1 p t rho b m K x fl y : blk G1 S1 V1 p t rho b m K -> has_room G1 ->
  match y with Some v => nth_error b (fr_start fr + List.length (g_vars G1)) = Some v | None => True end ->
  blk (extend [(x, fl)] G1) (declare x (List.length (m_cells m)) S1) (put (fr_start fr + List.length (g_vars G1)) (List.length (m_cells m)) fl V1)
    p t rho b (set_cells (m_cells m ++ [y]) m) K.
Proof.
  intros B HR Y. pose proof (blk_frame _ _ _ _ _ _ _ _ _ B) as FE. pose proof (blk_inv _ _ _ _ _ _ _ _ _ B) as HI. unfold has_room in HR.
  destruct B as [R [(El & Eo & A & BL & C) SF SS SV] (vs & EG) A4 A5 A6 A7].
  assert (NN : List.length (g_vars G) <= List.length (g_vars G1)) by (rewrite EG; cbn [extend g_vars]; rewrite app_length; lia).
  split; auto.
  - destruct R as (L & [G1' G2 G3]). split; [exact L|]. split; auto. apply Inv_put; auto. destruct y; auto. lia.
  - split; cbn [extend g_vars g_bc g_outer g_ups declare s_env app List.length].
    + exists ((x, List.length (m_cells m)) :: El), Eo. rewrite A. split; [reflexivity|]. split; [|exact C]. cbn [locals]. split; [reflexivity|]. split; [apply put_same|].
      eapply locals_ext; [|exact BL]. intros i Hi. apply put_other. lia.
    + intros i Hi. rewrite put_other by lia. apply SF. lia.
    + exact SS.
    + lia.
  - exists ((x, fl) :: vs). rewrite EG. reflexivity.
  - intros i Hi. rewrite put_other by lia. auto.
Qed.

Lemma hoist_sim : forall names G1 G2 S1 V1 p t rho b m K, hoists G1 names G2 -> blk G1 S1 V1 p t rho b m K ->
  exists V2, blk G2 (fst (hoist names S1 m)) V2 p t rho b (snd (hoist names S1 m)) K.
Proof.
  induction names as [|x names IH]; intros G1 G2 S1 V1 p t rho b m K H B; cbn [hoists hoist] in *.
  - subst G2. exists V1. exact B.
  - destruct H as (fl & HR & H). cbn [alloc]. eapply IH; [exact H|]. apply (blk_declare _ _ _ _ _ _ _ _ _ x fl None B HR). exact Logic.I.
Qed.

Lemma extend_app vs vs' G1 : extend vs (extend vs' G1) = extend (vs ++ vs') G1.
Proof. clear. unfold extend. cbn. now rewrite app_assoc. Qed.
Lemma destructure_sim te v : List.length te + enough <= s_room S ->
  forall names G1 G2 S1 V1 p q rho b m K next, destructures (g_deep (List.length te) G1) names p q G2 -> blk G1 S1 V1 p (v :: te ++ t0) rho b m K ->
  (forall vs S2 V2 rho' b' m' K', G2 = extend vs (g_deep (List.length te) G1) -> blk (extend vs G1) S2 V2 q (v :: te ++ t0) rho' b' m' K' ->
     P (next (deep (List.length te) S2) m')) ->
  P (destructure names v (deep (List.length te) S1) m next).
Proof.
  intros RM. induction names as [|x names IH]; intros G1 G2 S1 V1 p q rho b m K next H B N; cbn [destructures destructure] in *.
  - destruct H as (-> & ->). apply (N [] S1 V1 rho b m K); [destruct G1; reflexivity|]. replace (extend [] G1) with G1 by (destruct G1; reflexivity). exact B.
  - destruct H as (fl & p1 & p2 & p3 & p4 & HR & A1 & A2 & A3 & A4 & H).
    assert (B1 : blk G1 S1 V1 p1 (v :: v :: te ++ t0) rho b m K) by (eapply blk_step_; [exact B|eapply (lead_dup w _ _ _ 0 v); [exact A1|reflexivity|ft]]).
    eapply blk_vm; [exact B1|apply lead_load_field; [exact A2|ft]|]. cbv beta. intros y m2 B2.
    assert (F2 : fits b (v :: te ++ t0) 1) by ft. destruct (blk_poke _ _ _ _ _ _ _ _ _ _ _ B2 HR F2 A3) as (B3 & E3).
    eapply blk_step_ in B3; [|eapply lead_pop; [exact A4|unfold fits in *; rewrite set_nth_len; exact F2]].
    cbn [alloc]. pose proof (blk_declare _ _ _ _ _ _ _ _ _ x fl (Some y) B3 HR E3) as B4.
    apply (IH (extend [(x, fl)] G1) G2 _ _ p4 q _ _ _ K next H B4).
    intros vs S2 V2 rho' b' m' K' EG B5. apply (N (vs ++ [(x, fl)]) S2 V2 rho' b' m' K').
    + rewrite EG. unfold extend, g_deep. cbn. now rewrite <- app_assoc.
    + rewrite <- extend_app. exact B5.
Qed.

Lemma blk_fn_at t G1 S1 V1 p q rho b m K n src fn next : blk G1 S1 V1 p t rho b m K -> literal lit G1 n fn p q -> fits b t 1 ->
  (forall cups, fn cups -> fn_is lit n src (level_of G1 :: g_outer G1) cups) ->
  (forall v m' rho' K', blk G1 S1 V1 q (v :: t) rho' b m' K' -> m_cells m' = m_cells m -> P (next v m')) -> P (vbind (make_fn lit n src (s_env S1) m) next).
Proof.
  intros B C F HF N. eapply (make_fn_sim w lit) with (G := G1) (t := t); [apply B|eapply blk_inv; eauto|exact C|exact HF|exact F|].
  intros v m' rho' K' L HI X EM. apply (N v m' rho' K'); [|exact EM]. pose proof (blk_bc _ _ _ _ _ _ _ _ _ B) as EB. destruct B as [R A2 A3 A4 A5 A6 A7]. split; auto.
  - eapply reach_good; [exact R|rewrite <- EB; exact L| |]; [split; auto; apply keep_refl|]. intros i Li. apply A4. lia.
  - eapply scope_ext; eauto.
Qed.

Lemma blk_fn_value G1 S1 V1 p q rho b m K n src fn next : blk G1 S1 V1 p t0 rho b m K -> literal lit (g_in G1) n fn p q ->
  (forall cups, fn cups -> fn_is lit n src (level_of G1 :: g_outer G1) cups) ->
  (forall v m' rho' K', blk G1 S1 V1 q (v :: t0) rho' b m' K' -> P (next v m')) -> P (vbind (make_fn lit n src (s_env S1) m) next).
Proof. intros B C HF N. eapply (blk_fn_at t0); [exact B|exact C|ft|exact HF|]. intros. eapply N; eauto. Qed.
(** Giving a value to a variable of this function. *)
Lemma blk_store G1 S1 V1 p q f t rho b m K x j fl next : blk G1 S1 V1 p (f :: t) rho b m K -> fits b t 1 ->
  lookup x (g_vars G1) = Some (j, fl) -> at_ (g_bc G1) p (IByte OpStoreLocal j) q ->
  (forall l m' b', V1 (fr_start fr + j) = Some (l, fl) -> nth_error (m_cells m') l = Some (Some f) -> j < bc_slot_count (g_bc G1) ->
     blk G1 S1 V1 q (f :: t) rho b' m' K -> P (next VUnit m')) -> P (vbind (store (s_env S1) x f m) next).
Proof.
  intros B1 F E1 A N. destruct (bk_scope _ _ _ _ _ _ _ _ _ B1) as [(El & Eo & EE & HL & HC) SF SS SV].
  pose proof (locals_lookup _ _ _ _ x HL) as HX. rewrite E1 in HX. destruct HX as (l & X1 & X2 & X3).
  unfold store. replace (assoc_get x (s_env S1)) with (Some l) by (rewrite EE; clear -X1; induction El as [|[y z] El IH]; cbn in *; [discriminate|]; destruct (String.eqb x y); auto).
  cbn [vbind]. pose proof (blk_frame _ _ _ _ _ _ _ _ _ B1) as FE. pose proof (blk_inv _ _ _ _ _ _ _ _ _ B1) as HI.
  assert (L : leads w (g_bc G1) fr ups p (state m K b (f :: t)) (At q (state m K (set_nth b (fr_start fr + j) f) (f :: t))))
    by (apply (lead_write_local w (g_bc G1) fr ups false); auto; lia).
  apply (N l (write l f m) (set_nth b (fr_start fr + j) f)); [exact X2| |lia|].
  { destruct (i_bound _ _ _ _ _ _ HI _ _ _ X2) as (_ & LC). unfold write. cbn [set_cells m_cells]. now apply nth_error_set_nth_eq. }
  pose proof (blk_bc _ _ _ _ _ _ _ _ _ B1) as EB. destruct B1 as [R A2 A3 A4 A5 A6 A7]. split; auto.
  eapply (reach_good w lit) with (V' := V1) (m' := write l f m); [exact R|rewrite <- EB; exact L| |].
  - split; [|apply ext_refl|apply keep_set; intros; lia]. eapply Inv_write; eauto.
  - intros i Li. apply A4. lia.
Qed.

Lemma declaration_sim te G1 S1 V1 p q rho b m K k e G2 next : blk G1 S1 V1 p (te ++ t0) rho b m K -> List.length te + enough <= s_room S ->
  decl_code code (g_deep (List.length te) G1) k e p q G2 ->
  (forall vs S2 V2 v rho' b' m' K', G2 = extend vs (g_deep (List.length te) G1) -> blk (extend vs G1) S2 V2 q (v :: te ++ t0) rho' b' m' K' ->
     P (next (deep (List.length te) S2) v m')) ->
  P (declaration lit I (deep (List.length te) S1) k e m next).
Proof.
  intros B RM C N.
  assert (E0 : g_in (g_deep (List.length te) G1) = g_deep (List.length te) G1) by (unfold g_in; rewrite g_deep_deep, Nat.add_0_r; reflexivity).
  assert (N' : forall V2 v rho' b' m' K', G2 = g_deep (List.length te) G1 -> blk G1 S1 V2 q (v :: te ++ t0) rho' b' m' K' -> P (next (deep (List.length te) S1) v m')).
  { intros V2 v rho' b' m' K' EG B'. apply (N [] S1 V2 v rho' b' m' K'); [rewrite EG; destruct G1; reflexivity|]. replace (extend [] G1) with G1 by (destruct G1; reflexivity). exact B'. }
  assert (D : code (g_in (g_deep (List.length te) G1)) k e p q /\ G2 = g_deep (List.length te) G1 ->
     P (vbind (i_eval I (deep (List.length te) S1) k e m) (fun v m1 => next (deep (List.length te) S1) v m1))).
  { rewrite E0. intros (C1 & EG). eapply blk_eval_at; eauto. }
  destruct e; try (exact (D C)); clear D; cbn [decl_code declaration] in *; rewrite E0 in C.
  - destruct kind as [x|names].
    + destruct C as (fl & p1 & p2 & HR & C1 & A & CK & EG). eapply blk_eval_at; [exact B|exact RM|exact C1|]. intros v m1 rho1 b1 K1 B1.
      assert (F1 : fits b1 (te ++ t0) 1) by ft. destruct (blk_poke _ _ _ _ _ _ _ _ _ _ _ B1 HR F1 A) as (B2 & E2). cbn [alloc].
      pose proof (blk_declare _ _ _ _ _ _ _ _ _ x fl (Some v) B2 HR E2) as B3.
      eapply (check_sim w lit) with (G := extend [(x, fl)] G1) (t := v :: te ++ t0);
        [apply (bk_scope _ _ _ _ _ _ _ _ _ B3)|eapply blk_inv; exact B3|eapply blk_frame; exact B3|exact CK|ft|exact HR|exact E2|eapply blk_sound; exact B3|].
      intros m' L SAME. eapply (N [(x, fl)] (declare x (List.length (m_cells m1)) S1)); [exact EG|]. eapply blk_step; [exact B3|exact L|exact SAME].
    + destruct C as (p1 & C1 & C2). eapply blk_eval_at; [exact B|exact RM|exact C1|]. intros v m1 rho1 b1 K1 B1. eapply destructure_sim; [exact RM|exact C2|exact B1|]. intros. eapply N; eauto.
  - destruct C as (p1 & j & fl & C1 & E1 & A & EG). cbn [CodeP.code] in C1. change (s_env (deep (List.length te) S1)) with (s_env S1). eapply (blk_fn_at (te ++ t0)); [exact B|exact C1|ft| |].
    { intros cups HF. unfold fn_is. cbn [src_body src_args src_role src_self src_first]. destruct e; exact HF. }
    intros f m1 rho1 K1 B1 _. eapply blk_store; [exact B1|ft|exact E1|exact A|]. intros l m' b' _ _ _ B2. eapply N'; [exact EG|exact B2].
  - destruct C as (p1 & p2 & C1 & A1 & A2 & EG). cbn [CodeP.code] in C1. change (s_env (deep (List.length te) S1)) with (s_env S1). eapply (blk_fn_at (te ++ t0)); [exact B|exact C1|ft| |].
    { intros cups HF. unfold fn_is. cbn [src_body src_args src_role src_self src_first]. destruct e; exact HF. }
    intros f m1 rho1 K1 B1 _. assert (F : fits b (te ++ t0) 1) by ft.
    pose proof (lead_store_global w (g_bc G1) fr ups (operator_name (overloaded op)) f p1 p2 m1 K1 b (te ++ t0) A1 F) as L.
    destruct (assoc_get (operator_name (overloaded op)) (vm_globals (m_vm m1))) as [g|].
    + apply (so_fail _ _ _ _ _ _ _ (blk_sound _ _ _ _ _ _ _ _ _ B1)). exact L.
    + assert (B2 := blk_step _ _ _ _ _ _ _ _ _ _ _ _ B1 L (set_same _ _)).
      eapply N'; [exact EG|]. eapply blk_step_; [exact B2|eapply lead_push; [exact A2|reflexivity|exact F]].
Qed.

Lemma item_sim G1 S1 V1 p q rho b m K k e G2 next : blk G1 S1 V1 p t0 rho b m K -> item_code code G1 k e p q G2 ->
  (forall S2 V2 v rho' b' m' K', blk G2 S2 V2 q (v :: t0) rho' b' m' K' -> P (next S2 v m')) -> P (item lit I S1 k e m next).
Proof.
  intros B C N. destruct (blk_flat _ _ _ _ _ _ _ _ _ B) as (EG1 & ES1).
  assert (N' : forall vs S2 V2 v rho' b' m' K', G2 = extend vs (g_deep 0 G1) -> blk (extend vs G1) S2 V2 q (v :: [] ++ t0) rho' b' m' K' -> P (next (deep 0 S2) v m')).
  { intros vs S2 V2 v rho' b' m' K' EG B'. rewrite EG1 in EG. rewrite <- EG in B'. destruct (blk_flat _ _ _ _ _ _ _ _ _ B') as (_ & ->). eapply N; exact B'. }
  assert (D : decl_code code G1 k e p q G2 -> P (declaration lit I S1 k e m next)).
  { rewrite <- ES1, <- EG1 at 1. intros C'. apply (declaration_sim [] G1 S1 V1 p q rho b m K k e G2 next B ROOM C' N'). }
  destruct e; try (exact (D C)); clear D; cbn [item_code item] in *.
  - destruct C as (p1 & p2 & G3 & A & CD & CX).
    rewrite (bk_room _ _ _ _ _ _ _ _ _ B).
    eapply (import_sim w lit (g_bc G1) fr ups P I rho V1 b m K t0); [exact IMP|eapply blk_inv; exact B| |unfold enough in ROOM; lia|exact A|eapply blk_sound; exact B|].
    { rewrite (blk_len _ _ _ _ _ _ _ _ _ B). apply H0. }
    intros v m1 rho1 b1 K1 L GD.
    assert (B1 : blk G1 S1 V1 p1 (v :: t0) rho1 b1 m1 K1).
    { pose proof (blk_bc _ _ _ _ _ _ _ _ _ B) as EB. pose proof (blk_frame _ _ _ _ _ _ _ _ _ B) as FE. destruct B as [R A2 A3 A4 A5 A6 A7].
      pose proof (sc_slots _ _ _ _ _ _ A2) as SS.
      split; auto; [|eapply scope_ext; [apply GD|exact A2]].
      eapply reach_good; [exact R|rewrite <- EB; exact L|eapply good_le; [exact GD|lia]|]. intros i Li. apply A4. lia. }
    rewrite <- EG1 in CD. rewrite <- ES1.
    eapply (destructure_sim []); [exact ROOM|exact CD|exact B1|]. intros vs S2 V2 rho2 b2 m2 K2 EG B2. cbn [app List.length] in *. rewrite EG1 in EG. subst G3.
    destruct (blk_flat _ _ _ _ _ _ _ _ _ B2) as (_ & ->).
    destruct module_import as [y|].
    + destruct CX as (fl & HR & A2 & ->). assert (F2 : fits b2 t0 1) by ft.
      destruct (blk_poke _ _ _ _ _ _ _ _ _ _ _ B2 HR F2 A2) as (B3 & E3). cbn [alloc]. eapply N.
      apply (blk_declare _ _ _ _ _ _ _ _ _ y fl (Some v) B3 HR E3).
    + destruct CX as (<- & ->). eapply N. exact B2.
  - destruct C as (name & j & fl & vs & p1 & p2 & EX & EL & A1 & C1 & A2 & EG). rewrite EX. rewrite (bk_room _ _ _ _ _ _ _ _ _ B).
    destruct (Nat.ltb_spec (s_room S) (enough + 1)) as [LR|LR]; [eapply P_unknown; eauto|].
    eapply load_sim with (t := t0) (G := G1) (x := "#export"); [apply (bk_scope _ _ _ _ _ _ _ _ _ B)|eapply blk_inv; exact B|eapply blk_frame; exact B| |ft|eapply blk_sound; exact B|].
    { unfold loads. rewrite EL. exact A1. }
    intros x L. assert (B1 := blk_step_ _ _ _ _ _ _ _ _ _ _ _ B L).
    eapply (declaration_sim [x]); [exact B1|cbn; lia|exact C1|]. intros vs' S2 V2 v rho2 b2 m2 K2 EG' B2. cbn [app List.length] in *.
    assert (vs' = vs) as -> by (apply (f_equal g_vars) in EG'; cbn in EG'; eapply app_inv_tail; symmetry; exact EG').
    eapply blk_vm; [exact B2|apply (lead_write_field w (g_bc (extend vs G1)) fr ups false); [exact A2|ft]|]. cbv beta iota. intros a m3 B3.
    replace (Scene (s_env (deep 1 S2)) (s_fn S1) (s_room S) (s_chain S1)) with S2.
    + subst G2. eapply N. exact B3.
    + destruct B2 as [_ _ _ _ X1 X2 X3]. destruct B as [_ _ _ _ Y1 Y2 Y3]. destruct S2 as [a1 a2 a3 a4]. cbn in *. congruence.
Qed.

Lemma items_sim t : forall es G1 S1 V1 p q rho b m K k G2, blk G1 S1 V1 p t0 rho b m K -> items_code code t G1 k es p q G2 ->
  (forall S2 V2 v rho' b' m' K', blk G2 S2 V2 q (v :: t0) rho' b' m' K' -> P (AVal v m')) -> P (items lit I S1 k es t m).
Proof.
  induction es as [|e es IH]; intros G1 S1 V1 p q rho b m K k G2 B C N; cbn [items_code items] in *.
  - destruct t as [e|].
    + eapply item_sim; [exact B|exact C|]. intros. eapply N; eauto.
    + destruct C as (A & ->). eapply N. eapply blk_step_; [exact B|eapply lead_push; [exact A|reflexivity|ft]].
  - destruct C as (G3 & p1 & p2 & C1 & A & C2). eapply item_sim; [exact B|exact C1|]. intros S2 V2 v rho' b' m' K' B1.
    eapply IH; [|exact C2|exact N]. eapply blk_step_; [exact B1|]. eapply lead_pop; [|ft].
    rewrite (blk_bc _ _ _ _ _ _ _ _ _ B1), <- (blk_bc _ _ _ _ _ _ _ _ _ B). exact A.
Qed.

Lemma blk_start : blk G S V0 p0 ts rho0 b0 m0 K0.
Proof.
  split; auto; [eapply start; eauto|apply H0|exists []; destruct G; reflexivity|].
  pose proof (h_chain _ _ _ _ _ _ _ _ _ _ _ _ H0) as HC. now rewrite N0 in HC.
Qed.

Lemma block_sim looping k es t p q rho b m K : reached p t0 rho V0 b m K -> block_code code looping G k es t p q ->
  (forall v rho' b' m' K', reached q ((if looping then [] else [v]) ++ t0) rho' V0 b' m' K' -> P (AVal v m')) ->
  P (block lit I S k es t m).
Proof.
  intros R (vs & G1 & p1 & p2 & HH & CI & CP & CC) N.
  assert (B0 : blk G S V0 p t0 rho b m K).
  { destruct blk_start as [A1 A2 A3 A4 A5 A6 A7]. split; auto. eapply scope_ext; [eapply reached_ext; eauto|exact A2]. }
  destruct (hoist_sim _ _ _ _ _ _ _ _ _ _ _ HH B0) as (V1 & B1).
  unfold block. destruct (hoist (hoisted es t) S m) as [S1 m1]. cbn [fst snd] in B1.
  eapply items_sim; [exact B1|exact CI|]. intros S2 V2 v rho' b' m' K' B2.
  assert (B3 : blk (extend vs G) S2 V2 p2 ((if looping then [] else [v]) ++ t0) rho' b' m' K').
  { destruct looping.
    - eapply blk_step_; [exact B2|]. eapply lead_pop; [exact CP|ft].
    - subst p2. exact B2. }
  destruct (closes_sim w lit fr ups G vs rho' V2 (s_env S2) b' m' K' ((if looping then [] else [v]) ++ t0) p2 q
     (bk_scope _ _ _ _ _ _ _ _ _ B3) (blk_inv _ _ _ _ _ _ _ _ _ B3) CC (blk_frame _ _ _ _ _ _ _ _ _ B3)) as (b2 & K2 & L & HI & KP).
  { destruct looping; ft. }
  apply (N v rho' b2 m' K2). eapply reach_view; [eapply reach_good; [apply (bk_reach _ _ _ _ _ _ _ _ _ B3)|exact L| |]|].
  - split; [exact HI|apply ext_refl|eapply keep_le; [exact KP|lia]].
  - intros i Li. apply (bk_view _ _ _ _ _ _ _ _ _ B3). lia.
  - intros i. unfold cut. destruct (Nat.ltb_spec i (fr_start fr + List.length (g_vars G))) as [Li|Li].
    + symmetry. apply (bk_view _ _ _ _ _ _ _ _ _ B3). exact Li.
    + apply (sc_free _ _ _ _ _ _ (h_scope _ _ _ _ _ _ _ _ _ _ _ _ H0)). exact Li.
Qed.

(** Classes. *)
Lemma same_cells m m' : same m m' -> m_cells m' = m_cells m.
Proof. intros (s & ->). reflexivity. Qed.
Lemma blk_load_slot G1 S1 V1 p q t rho b m K j l fl v : blk G1 S1 V1 p t rho b m K -> fits b t 1 ->
  V1 (fr_start fr + j) = Some (l, fl) -> nth_error (m_cells m) l = Some (Some v) -> j < bc_slot_count (g_bc G1) ->
  at_ (g_bc G1) p (IByte OpLoadLocal j) q -> blk G1 S1 V1 q (v :: t) rho b m K.
Proof.
  intros B F EV EC Lj A. eapply blk_step_; [exact B|]. pose proof (blk_frame _ _ _ _ _ _ _ _ _ B) as FE.
  pose proof (sc_slots _ _ _ _ _ _ (bk_scope _ _ _ _ _ _ _ _ _ B)) as SS.
  eapply lead_load_local; [exact A|lia|exact FE| |exact F]. eapply i_val; [eapply blk_inv; exact B|exact EV|exact EC].
Qed.
Lemma fn_of_is n self args ro k body outer cups : fn_of lit code n self args ro k body outer cups -> fn_is lit n (Source self args ro body k) outer cups.
Proof. unfold fn_of, fn_is. cbn [src_body src_args src_role src_self src_first]. destruct body; auto. Qed.
Lemma members_sim G1 S1 V1 j l fl c : V1 (fr_start fr + j) = Some (l, fl) -> j < bc_slot_count (g_bc G1) ->
  forall es k p q rho b m K, blk G1 S1 V1 p (c :: t0) rho b m K -> nth_error (m_cells m) l = Some (Some c) -> members_code lit code G1 k j es p q ->
  (forall rho' b' m' K', blk G1 S1 V1 q (c :: t0) rho' b' m' K' -> P (AVal c m')) ->
  P (members lit (s_env S1) k c es m).
Proof.
  intros EV Lj. induction es as [|e es IH]; intros k p q rho b m K B EC C N; cbn [members_code members] in *.
  - subst q. eapply N; eauto.
  - destruct C as (p1 & C & CR).
    assert (METHOD : forall key n rest ro body p2 p3,
      literal lit G1 n (fn_of lit code n "self" rest ro k body (level_of G1 :: g_outer G1)) p p2 ->
      at_const (g_bc G1) OpStoreMethod (CSymbol key) p2 p3 -> at_ (g_bc G1) p3 (IByte OpLoadLocal j) p1 ->
      P (vbind (make_fn lit n (Source "self" rest ro body k) (s_env S1) m) (fun f m1 =>
         with_vm (set_method key c f) m1 (fun _ m2 => members lit (s_env S1) (k + fns e) c es m2)))).
    { intros key n rest ro body p2 p3 C1 A1 A2. eapply (blk_fn_at (c :: t0)); [exact B|exact C1|ft|intros cups; apply fn_of_is|].
      intros f m1 rho1 K1 B1 E1. assert (F : fits b t0 2) by ft.
      pose proof (lead_store_method w (g_bc G1) fr ups key c f p2 p3 m1 K1 b t0 A1 F) as L.
      eapply (blk_vm_same (set_method key c f) _ _ _ _ _ p3 _ _ _ _ (fun _ => t0)); [exact B1|exact L|]. cbv beta. intros a m2 B2 SM.
      apply same_cells in SM. assert (EC2 : nth_error (m_cells m2) l = Some (Some c)) by (rewrite SM, E1; exact EC).
      eapply IH; [|exact EC2|exact CR|exact N]. eapply blk_load_slot; [exact B2|ft|exact EV|exact EC2|exact Lj|exact A2]. }
    destruct e; try contradiction; cbn [member_code member] in *.
    + destruct (receiver args) as [rest|]; cbn [src_body].
      * destruct C as (p2 & p3 & C1 & A1 & A2). eapply METHOD; eauto.
      * clear METHOD. destruct C as (p2 & p3 & p4 & C1 & A1 & A2 & A3). eapply (blk_fn_at (c :: t0)); [exact B|exact C1|ft|intros cups; apply fn_of_is|].
        intros f m1 rho1 K1 B1 E1. eapply blk_vm_same; [exact B1|apply (lead_write_field w (g_bc G1) fr ups false); [exact A1|ft]|]. cbv beta iota. intros a m2 B2 SM.
        eapply blk_step_ in B2; [|eapply lead_pop; [exact A2|ft]].
        apply same_cells in SM. assert (EC2 : nth_error (m_cells m2) l = Some (Some c)) by (rewrite SM, E1; exact EC).
        eapply IH; [|exact EC2|exact CR|exact N]. eapply blk_load_slot; [exact B2|ft|exact EV|exact EC2|exact Lj|exact A3].
    + destruct (receiver args) as [rest|]; [|contradiction]. cbn [src_body]. destruct C as (p2 & p3 & C1 & A1 & A2). eapply METHOD; eauto.
Qed.
Lemma class_sim k name es base p q rho b m K : reached p t0 rho V0 b m K -> class_code lit code G k name es base p q ->
  (forall v rho' b' m' K', reached q (v :: t0) rho' V0 b' m' K' -> P (AVal v m')) ->
  P (class_decl lit I S k name es base m).
Proof.
  intros R (fl & j & fj & p1 & p2 & p3 & p4 & p5 & HR & CB & A1 & A2 & EL & A3 & CM & CC) N.
  assert (B0 : blk G S V0 p t0 rho b m K).
  { destruct blk_start as [X1 X2 X3 X4 X5 X6 X7]. split; auto. eapply scope_ext; [eapply reached_ext; eauto|exact X2]. }
  assert (NEXT : forall bv m1 rho1 b1 K1, blk G S V0 p1 (bv :: t0) rho1 b1 m1 K1 ->
    P (let (l, m2) := alloc (Some bv) m1 in
       let E := s_env (declare "super" l S) in
       with_vm (inherit name bv) m2 (fun c m3 =>
       vbind (store E name (VClass c) m3) (fun _ m4 =>
       members lit E (k + match base with Some b => fns b | None => 0 end) (VClass c) es m4)))).
  { intros bv m1 rho1 b1 K1 B1. assert (F1 : fits b1 t0 1) by ft. destruct (blk_poke _ _ _ _ _ _ _ _ _ _ _ B1 HR F1 A1) as (B2 & E2). cbn [alloc].
    pose proof (blk_declare _ _ _ _ _ _ _ _ _ "super" fl (Some bv) B2 HR E2) as B3. cbv zeta.
    eapply blk_vm; [exact B3|apply lead_inherit; [exact A2|ft]|]. cbv beta. intros c m3 B4.
    eapply blk_store; [exact B4|ft|exact EL|exact A3|]. intros l m4 b4 EV EC Lj B5.
    eapply members_sim; [exact EV|exact Lj|exact B5|exact EC|exact CM|]. intros rho' b' m' K' B6.
    destruct (closes_sim w lit fr ups G [("super", fl)] rho' _ (s_env (declare "super" (List.length (m_cells m1)) S)) b' m' K' (VClass c :: t0) p5 q
       (bk_scope _ _ _ _ _ _ _ _ _ B6) (blk_inv _ _ _ _ _ _ _ _ _ B6) CC (blk_frame _ _ _ _ _ _ _ _ _ B6)) as (b2 & K2 & L & HI & KP); [ft|].
    apply (N (VClass c) rho' b2 m' K2). eapply reach_view; [eapply reach_good; [apply (bk_reach _ _ _ _ _ _ _ _ _ B6)|exact L| |]|].
    - split; [exact HI|apply ext_refl|eapply keep_le; [exact KP|lia]].
    - intros i Li. apply (bk_view _ _ _ _ _ _ _ _ _ B6). lia.
    - intros i. unfold cut. destruct (Nat.ltb_spec i (fr_start fr + List.length (g_vars G))) as [Li|Li].
      + symmetry. apply (bk_view _ _ _ _ _ _ _ _ _ B6). exact Li.
      + apply (sc_free _ _ _ _ _ _ (h_scope _ _ _ _ _ _ _ _ _ _ _ _ H0)). exact Li. }
  unfold class_decl. destruct base as [be|].
  - eapply blk_eval; [exact B0|exact CB|]. intros. eapply NEXT; eauto.
  - eapply load_sim with (t := t0); [apply (bk_scope _ _ _ _ _ _ _ _ _ B0)|eapply blk_inv; exact B0|eapply blk_frame; exact B0|exact CB|ft|eapply blk_sound; exact B0|].
    intros v L. eapply NEXT. eapply blk_step_; [exact B0|exact L].
Qed.
End Block.
