(** The compiler leaves the code of loops. *)
From Verif.Model Require Import Compiler Assembler.
From Verif.Spec Require Import Encoding SupportSpec.
From Verif.Proofs Require Import ExprInd ReachP CodeP CodecP AssemblerP PoolP WellFormedP WellFormedPrimP CaptureP StackP EmitP VisitMonoP FitsP JumpsP ScopesP DeclsP FnCodeP BodyCodeP VisitCodeP.
#[local] Open Scope string_scope.
#[local] Open Scope list_scope.
#[local] Open Scope nat_scope.

Section Loops.
Variable lit : nat -> fn_bytecode.
Local Notation ED := (ED lit).
Local Notation EE := (EE lit).
Local Notation code := (code lit).
Local Notation code_at := (code_at lit).

Lemma ED_le {A} P D C n (m : M A) R : ED P D C n m R -> ED P D C n m (fun G k a p q => p <= q /\ R G k a p q).
Proof. intros H s a s' W PL E. destruct (H s a s' W PL E) as (M & X). split; [exact M|]. intros G S F. split; [exact (moves_pos _ _ _ _ _ M)|exact (X G S F)]. Qed.
Lemma g_in_loop l G : g_in (with_loop l (g_in G)) = with_loop l (g_in G).
Proof. unfold g_in, g_deep, with_loop. cbn. rewrite !Nat.add_0_r. reflexivity. Qed.

Lemma moving_T {A} L D C n (m : M A) : (forall b N, incl L N -> T b D C N n m (fun _ => True)) -> moving D C n m.
Proof. intros H s a s' W E. exact (proj1 (T_moves L D C n m (fun _ => True) s a s' H W E)). Qed.

(** The block of a loop and the jump back. *)
Definition loop_block (es : list expr) (t : option expr) (a : nat) : M unit := visit_block visit true es t ;;; jump_back a.
Lemma T_loop_block b C N es t P a : (forall e, In e (statements es t) -> supported P e = true) -> incl (captures (EBlock es t)) C -> incl (names (EBlock es t)) N -> T b [] C N (fns (EBlock es t)) (loop_block es t a) (fun _ => True).
Proof.
  intros HS IC IN. unfold loop_block. eapply T_num; [eapply T_and; [eapply T_block with (P := P)|intros _ _; apply T_jump_back]|cbn [fns]; lia].
  - intros x Hx. split; [apply visit_mono|apply HS; exact Hx].
  - rewrite statements_captures. exact IC.
  - rewrite statements_names. exact IN.
Qed.
Lemma EE_loop_block Q es t a : (forall e, In e (statements es t) -> code_at e) -> (forall e, In e (statements es t) -> supported (stmt_of Q) e = true) ->
  EE Q (captures (EBlock es t)) (fns (EBlock es t)) (loop_block es t a)
    (fun G k _ p q => exists p1, p <= p1 /\ (kept Q (EBlock es t) (g_vars G) (g_loop G) -> block_code code true (g_in G) k es t p p1) /\ (a <= p1 -> jumps (g_bc G) OpJump p1 q a)).
Proof.
  intros HC HS. unfold loop_block. eapply ED_post; [eapply ED_num; [|eapply EE_bind; [apply ED_le; apply (EE_block_code lit (kept (stmt_of Q)) Q _ es t true)|intros ?; apply EE_jump_back]]; [lia|..]|].
  - apply (moving_T (names (EBlock es t))). intros b N I. eapply T_num; [eapply T_block with (P := stmt_of Q)|reflexivity].
    + intros x Hx. split; [apply visit_mono|apply HS; exact Hx].
    + rewrite statements_captures. apply incl_refl.
    + rewrite statements_names. exact I.
  - intros e He. destruct (HC e He) as (_ & X). unfold stmt_code. eapply ED_incl; [apply statement_captures; exact He|]. exact (X (stmt_of Q) (HS e He) eq_refl eq_refl).
  - cbn beta. intros G k u p q (_ & p1 & (L & X) & Y). exists p1. split; [exact L|]. split; [|exact Y]. intros HK. apply X. intros vs V1 V2. apply kept_block; auto.
Qed.

(** What a loop's parts may leave behind. *)
Lemma kept_loop P es e e' vs lo Q : In e' es -> Q = loop_of true (loop_kept es) P -> (forall l, lo = Some l -> lp_vars l = List.length vs) ->
  (returns e' = true -> returns e = true) -> incl (captures e') (captures e) -> forall lo0, kept P e vs lo0 -> kept Q e' vs lo.
Proof.
  intros HI -> HL HR HC lo0 (K1 & _). split; cbn [loop_of pl_exact pl_exit pl_kept andb].
  - intros A B. destruct (K1 A (HR B)) as (X & Y). split; [exact X|]. apply incl_appr. eapply incl_tran; eauto.
  - intros _ B. split.
    + intros l El. rewrite (HL l El), Nat.sub_diag. constructor.
    + apply incl_appl. unfold loop_kept. rewrite (in_flags breaks e' es HI B). apply in_captures. exact HI.
Qed.

Definition while_from (c : expr) (es : list expr) (t : option expr) (a : nat) : M unit :=
  m_push_scope KLoop (Some a) ;;; visit c ;;; j <- jump OpJumpIfFalse ;; loop_block es t a ;;; sc <- m_pop_scope ;; ret tt ;;; patch j ;;; each patch (sc_exits sc) ;;; emit OpPushUnit.
Lemma while_sim Q c es t s r : supported Q c = true -> pl_stmt Q = false -> (forall e, In e (statements es t) -> supported (stmt_of Q) e = true) -> wf s ->
  visit_while visit c (EBlock es t) s = Ok r -> (a <- here ;; while_from c es t a) s = Ok r.
Proof.
  intros Sc ST HS W E. destruct r as [u s']. unfold visit_while in E. apply bind_ok in E. destruct E as (a & s0 & E0 & E). unfold bind at 1. rewrite E0. unfold while_from.
  assert (W0 : wf s0) by (exact (proj1 (T_here 0 [] (kind_names (kind s)) s a s0 W (Nat.le_0_l _) (incl_refl _) E0))).
  apply bind_ok in E. destruct E as (u1 & s1 & E1 & E). unfold bind at 1. rewrite E1. apply push_scope_ok in E1. assert (W1 : wf s1) by (subst s1; apply pushed_wf; exact W0).
  apply bind_ok in E. destruct E as (u2 & s2 & E2 & E). unfold bind at 1. rewrite E2. pose proof (mv_wf _ _ _ _ _ (moving_visit Q c Sc ST _ _ _ W1 E2)) as W2.
  apply bind_ok in E. destruct E as (j & s3 & E3 & E). unfold bind at 1. rewrite E3. destruct (jump_ok _ _ _ _ W2 E3) as (_ & _ & W3 & _).
  apply bind_ok in E. destruct E as (u4 & s4 & E4 & E). apply bind_ok in E. destruct E as (u5 & s5 & E5 & E).
  assert (E45 : loop_block es t a s3 = Ok (u5, s5)) by (unfold loop_block, bind; rewrite E4; exact E5). unfold bind at 1. rewrite E45.
  assert (W5 : wf s5). { eapply (mv_wf [] (captures (EBlock es t)) (fns (EBlock es t)) s3 s5). eapply (moving_T (names (EBlock es t))); [|exact W3|exact E45]. intros b N I. apply (T_loop_block b _ N es t (stmt_of Q) a); auto using incl_refl. }
  apply bind_ok in E. destruct E as (u6 & s6 & E6 & E). destruct (patch_popped _ _ _ _ W5 E6) as (E6' & HD). assert (W6 : wf s6) by (exact (proj1 (T_patch 0 [] (kind_names (kind s5)) j (Nat.le_0_l _) s5 u6 s6 W5 (Nat.le_0_l _) (incl_refl _) E6))).
  unfold bind at 1 in E. rewrite (pop_ok_iff s6 W6) in E. unfold bind at 1. rewrite (pop_ok_iff s5 W5). unfold bind at 1, ret at 1. unfold bind at 1. rewrite E6'. rewrite <- HD. exact E.
Qed.

Lemma at_while c es t : (forall e, esize e < esize (EWhile c (EBlock es t)) -> code_at e) -> code_at (EWhile c (EBlock es t)).
Proof.
  intros IH. apply stmt_of_expr; [exact Logic.I|]. intros P S ST. cbn [supported] in S. ands. set (Q := loop_of true (loop_kept [c; EBlock es t]) P) in *.
  assert (HS : forall e, In e (statements es t) -> supported (stmt_of Q) e = true) by (intros e He; eapply supported_statements; [|exact He]; rewrite S0, S1; reflexivity).
  assert (IC : code_at c) by (apply IH; rewrite size_EWhile; lia). assert (IB : forall e, In e (statements es t) -> code_at e) by (intros e He; apply IH; apply statements_size in He; rewrite size_EWhile; lia).
  cbn [visit]. set (C := captures (EWhile c (EBlock es t))). eapply (ED_sim lit P [] _ _ (a <- here ;; while_from c es t a)); [intros s r W E; exact (while_sim Q c es t s r S eq_refl HS W E)|].
  assert (X : forall a, EE P C (fns c + fns (EBlock es t)) (while_from c es t a) (fun G k _ p q => (forall t, Some a = Some t -> t <= p) -> exists vs (a' : unit) sc p1 p2 p3 p4, p <= p2 /\ p2 <= p3 /\ map fst vs = [] /\ (forall x, In (x, true) vs -> In x C) /\ closing (sc_vars sc) = flagged (List.length (g_vars G)) vs /\
    let G' := with_loop (Some (Loop (List.length (g_vars G)) p4 (Some a) (g_depth G))) (extend vs (g_deep 0 G)) in
    (kept Q c (g_vars G') (g_loop G') -> code G' k c p p1) /\ jumps (g_bc G) OpJumpIfFalse p1 p2 p4 /\
    (exists p5, p2 <= p5 /\ (kept Q (EBlock es t) (g_vars G') (g_loop G') -> block_code code true (g_in G') (k + fns c) es t p2 p5) /\ (a <= p5 -> jumps (g_bc G') OpJump p5 p3 a)) /\ (tt = tt /\ p3 = p4) /\ at_ (g_bc G) p4 (INone OpPushUnit) q)).
  { intros a. unfold while_from. eapply (EE_loop_from lit P Q [] C (fns c) (fns (EBlock es t)) (Some a) 0 OpJumpIfFalse (visit c) (fun _ => loop_block es t a) (fun _ => ret tt) (emit OpPushUnit)
      (fun G k _ p q => kept Q c (g_vars G) (g_loop G) -> code G k c p q)
      (fun _ G k _ p q => exists p1, p <= p1 /\ (kept Q (EBlock es t) (g_vars G) (g_loop G) -> block_code code true (g_in G) k es t p p1) /\ (a <= p1 -> jumps (g_bc G) OpJump p1 q a))
      (fun _ _ _ a p q => a = tt /\ p = q) (fun G _ _ p q => at_ (g_bc G) p (INone OpPushUnit) q) (fun G p4 => Some (Loop (List.length (g_vars G)) p4 (Some a) (g_depth G)))).
    - reflexivity.
    - intros G t0 l [= <-]. cbn. auto.
    - reflexivity.
    - auto.
    - cbn. auto.
    - intros G t0 _. eexists. split; [reflexivity|]. cbn. lia.
    - apply (moving_T (names (EWhile c (EBlock es t)))). intros b N I. eapply T_num.
      + apply T_push. eapply TP_and; [eapply (T_sub Q c C S eq_refl); [apply incl_appl; apply incl_refl|eapply incl_tran; [|exact I]; apply incl_appl; apply incl_refl]|intros _ _]. eapply TP_and; [apply T_jump|intros j Hj]. cbn beta in Hj.
        eapply TP_and; [eapply (T_loop_block _ C N es t (stmt_of Q) a HS); [apply incl_appr; apply incl_refl|eapply incl_tran; [|exact I]; apply incl_appr; apply incl_refl]|intros _ _].
        eapply TP_pop. intros sc F. eapply T_and with (Q := fun _ => True); [apply T_ret; exact Logic.I|intros _ _]. eapply T_and; [apply T_patch; lia|intros _ _]. eapply T_and; [apply patches_spec; auto|intros _ _; apply T_emit].
      + lia.
    - apply (ED_incl lit Q [] (captures c) C); [apply incl_appl; apply incl_refl|]. destruct IC as (IC & _). exact (IC Q S eq_refl).
    - intros _. apply (ED_incl lit Q [] (captures (EBlock es t)) C); [apply incl_appr; apply incl_refl|]. apply EE_loop_block; assumption.
    - intros sc. apply ED_ret.
    - apply EE_emit. reflexivity. }
  eapply ED_post; [eapply ED_num; [|eapply EE_bind; [apply EE_here|intros a; exact (X a)]]; [cbn [fns]; lia]|].
  cbn beta. intros G k u p q (a & p0 & (-> & <-) & Y) HK. rewrite Nat.add_0_r in Y. destruct Y as (vs & _ & sc & p1 & p2 & p3 & p4 & L1 & L2 & V & _ & _ & H1 & H2 & (p5 & L3 & H3 & H4) & (_ & ->) & H5); [intros t0 [= <-]; lia|].
  destruct vs; [|discriminate V]. clear V. cbn [code]. exists p1, p2, p5, p4. cbn zeta. 
  change (extend [] (g_deep 0 G)) with (g_in G) in *. rewrite g_in_loop in H3. split; [apply H1|]. 
  - eapply (kept_loop P [c; EBlock es t] (EWhile c (EBlock es t)) c); [left; reflexivity|reflexivity|intros l [= <-]; reflexivity|flag|inc1|exact HK].
  - split; [exact H2|]. split; [apply H3|].
    + eapply (kept_loop P [c; EBlock es t] (EWhile c (EBlock es t)) (EBlock es t)); [right; left; reflexivity|reflexivity|intros l [= <-]; reflexivity|intros R; change (returns c || returns (EBlock es t) = true); rewrite R; apply orb_true_r|inc1|exact HK].
    + split; [apply H4; lia|exact H5].
Qed.

Lemma at_loop es t : (forall e, esize e < esize (ELoop (EBlock es t)) -> code_at e) -> code_at (ELoop (EBlock es t)).
Proof.
  intros IH. apply stmt_of_expr; [exact Logic.I|]. intros P S ST. cbn [supported] in S. ands. set (Q := loop_of true (loop_kept [EBlock es t]) P) in *.
  assert (HS : forall e, In e (statements es t) -> supported (stmt_of Q) e = true) by (intros e He; eapply supported_statements; [|exact He]; rewrite S0, S; reflexivity).
  assert (IB : forall e, In e (statements es t) -> code_at e) by (intros e He; apply IH; apply statements_size in He; rewrite size_ELoop; lia).
  cbn [visit]. unfold visit_loop. eapply ED_ext with (m := a <- here ;; (m_push_scope KLoop (Some a) ;;; loop_block es t a ;;; sc <- m_pop_scope ;; each patch (sc_exits sc) ;;; emit OpPushUnit)); [unfold loop_block; reassoc|].
  set (C := captures (EBlock es t)).
  assert (X : forall a, EE P C (fns (EBlock es t)) (m_push_scope KLoop (Some a) ;;; loop_block es t a ;;; sc <- m_pop_scope ;; each patch (sc_exits sc) ;;; emit OpPushUnit)
    (fun G k _ p q => (forall t, Some a = Some t -> t <= p) -> exists p4, (let G' := with_loop (Some (Loop (List.length (g_vars G)) p4 (Some a) (g_depth G))) (g_in G) in
      exists p5, p <= p5 /\ (kept Q (EBlock es t) (g_vars G') (g_loop G') -> block_code code true (g_in G') k es t p p5) /\ (a <= p5 -> jumps (g_bc G') OpJump p5 p4 a)) /\ at_ (g_bc G) p4 (INone OpPushUnit) q)).
  { intros a. eapply (EE_forever lit P Q C (fns (EBlock es t)) (Some a) (loop_block es t a) (emit OpPushUnit)
      (fun G k _ p q => exists p1, p <= p1 /\ (kept Q (EBlock es t) (g_vars G) (g_loop G) -> block_code code true (g_in G) k es t p p1) /\ (a <= p1 -> jumps (g_bc G) OpJump p1 q a))
      (fun G _ _ p q => at_ (g_bc G) p (INone OpPushUnit) q) (fun G p4 => Some (Loop (List.length (g_vars G)) p4 (Some a) (g_depth G)))).
    - intros G t0 l [= <-]. cbn. auto.
    - reflexivity.
    - auto.
    - cbn. auto.
    - intros G t0 _. eexists. split; reflexivity.
    - apply (moving_T (names (EBlock es t))). intros b N I. eapply T_num.
      + apply T_push. eapply TP_and; [eapply (T_loop_block _ C N es t (stmt_of Q) a HS); [apply incl_refl|exact I]|intros _ _]. eapply TP_pop. intros sc F. eapply T_and; [apply patches_spec; auto|intros _ _; apply T_emit].
      + lia.
    - apply EE_loop_block; assumption.
    - apply EE_emit. reflexivity. }
  eapply ED_post; [eapply ED_num; [|eapply EE_bind; [apply EE_here|intros a; exact (X a)]]; [cbn [fns]; lia]|].
  cbn beta. intros G k u p q (a & p0 & (-> & <-) & Y) HK. rewrite Nat.add_0_r in Y. destruct Y as (p4 & (p5 & L & H1 & H2) & H3); [intros t0 [= <-]; lia|].
  cbn [code]. exists p5, p4. cbn zeta. rewrite g_in_loop in H1. split; [apply H1|split; [apply H2; lia|exact H3]].
  eapply (kept_loop P [EBlock es t] (ELoop (EBlock es t)) (EBlock es t)); [left; reflexivity|reflexivity|intros l [= <-]; reflexivity|auto|apply incl_refl|exact HK].
Qed.

(** ** Range loops *)
Definition range_from (i : bool) (x : string) (body : expr) (a : nat) : M unit :=
  m_push_scope KLoop None ;;;
  slot <- (slot <- m_add_local x (state_initialized false) ;; emit_u8 OpStoreLocal (u8_of slot) ;;; emit_u8 OpDup 1 ;;; emit (if i then OpLessThanOrEqual else OpLessThan) ;;; ret slot) ;;
  j <- jump OpJumpIfFalse ;;
  (visit body ;;; emit OpPop ;;; emit_u8 OpLoadLocal (u8_of slot) ;;; emit OpPushI1 ;;; emit OpAdd) ;;;
  sc <- m_pop_scope ;;
  (close_vars (sc_vars sc) ;;; jump_back a) ;;;
  patch j ;;; each patch (sc_exits sc) ;;; (emit OpPop ;;; emit OpPushUnit).
Lemma range_is i x first last body s : visit_range_loop visit i x first last body s = (visit last ;;; visit first ;;; a <- here ;; range_from i x body a) s.
Proof. unfold visit_range_loop, range_from. revert s. reassoc. Qed.
Lemma added_small x slot G : added x slot G -> u8_of slot = slot.
Proof. intros (_ & _ & _ & H). apply u8_small. exact H. Qed.

Lemma EE_range P i x body a : let Q := loop_of false (loop_kept [body]) P in
  code_at body -> supported Q body = true ->
  EE P (captures body) (fns body) (range_from i x body a) (fun G k _ p q => a <= p -> exists fl p3 p4 p5 p6 p7 p8 p9 p10 p11 p12 p13 p14,
    let slot := List.length (g_vars G) in
    let G' := with_loop (Some (Loop slot p13 None (Datatypes.S (g_depth G)))) (extend [(x, fl)] (g_deep 1 G)) in
    (fl = true -> In x (captures body)) /\ has_room G /\
    at_ (g_bc G) p (IByte OpStoreLocal slot) p3 /\ at_ (g_bc G) p3 (IByte OpDup 1) p4 /\ at_ (g_bc G) p4 (INone (if i then OpLessThanOrEqual else OpLessThan)) p5 /\
    jumps (g_bc G) OpJumpIfFalse p5 p6 p13 /\ (kept Q body (g_vars G') (g_loop G') -> code G' k body p6 p7) /\
    at_ (g_bc G) p7 (INone OpPop) p8 /\ at_ (g_bc G) p8 (IByte OpLoadLocal slot) p9 /\ at_ (g_bc G) p9 (INone OpPushI1) p10 /\ at_ (g_bc G) p10 (INone OpAdd) p11 /\
    closes (g_bc G) (if fl then [slot] else []) p11 p12 /\ jumps (g_bc G) OpJump p12 p13 a /\ at_ (g_bc G) p13 (INone OpPop) p14 /\ at_ (g_bc G) p14 (INone OpPushUnit) q).
Proof.
  intros Q HB SB. unfold range_from.
  set (m1 := slot <- m_add_local x (state_initialized false) ;; emit_u8 OpStoreLocal (u8_of slot) ;;; emit_u8 OpDup 1 ;;; emit (if i then OpLessThanOrEqual else OpLessThan) ;;; ret slot).
  set (m2 := fun slot => visit body ;;; emit OpPop ;;; emit_u8 OpLoadLocal (u8_of slot) ;;; emit OpPushI1 ;;; emit OpAdd).
  set (m3 := fun sc => close_vars (sc_vars sc) ;;; jump_back a). set (m4 := emit OpPop ;;; emit OpPushUnit).
  pose (R1 := fun (G : ctx) (_ : nat) (slot p q : nat) => added x slot G /\ exists p1 p2, at_ (g_bc G) p (IByte OpStoreLocal slot) p1 /\ at_ (g_bc G) p1 (IByte OpDup 1) p2 /\ at_ (g_bc G) p2 (INone (if i then OpLessThanOrEqual else OpLessThan)) q).
  pose (R2 := fun (slot : nat) (G : ctx) (k : nat) (_ : unit) (p q : nat) => exists p1 p2 p3 p4, (kept Q body (g_vars G) (g_loop G) -> code G k body p p1) /\ at_ (g_bc G) p1 (INone OpPop) p2 /\
    at_ (g_bc G) p2 (IByte OpLoadLocal (u8_of slot)) p3 /\ at_ (g_bc G) p3 (INone OpPushI1) p4 /\ at_ (g_bc G) p4 (INone OpAdd) q).
  pose (R3 := fun (sc : scope) (G : ctx) (_ : nat) (_ : unit) (p q : nat) => exists p1, p <= p1 /\ closes (g_bc G) (closing (sc_vars sc)) p p1 /\ (a <= p1 -> jumps (g_bc G) OpJump p1 q a)).
  pose (R4 := fun (G : ctx) (_ : nat) (_ : unit) (p q : nat) => exists p1, at_ (g_bc G) p (INone OpPop) p1 /\ at_ (g_bc G) p1 (INone OpPushUnit) q).
  assert (X1 : ED Q [x] (captures body) 0 m1 R1).
  { unfold m1. eapply (ED_seq lit [x] [] 0 0) with (R2 := fun slot G _ b p q => b = slot /\ exists p1 p2, at_ (g_bc G) p (IByte OpStoreLocal (u8_of slot)) p1 /\ at_ (g_bc G) p1 (IByte OpDup 1) p2 /\ at_ (g_bc G) p2 (INone (if i then OpLessThanOrEqual else OpLessThan)) q); [apply ED_add_local| |reflexivity|reflexivity|].
    - intros slot. eapply ED_post; [eapply ED_num; [|do 2 (eapply EE_bind; [prm0|intros ?]); eapply EE_bind; [apply EE_emit; destruct i; reflexivity|intros ?; apply ED_ret]]; reflexivity|]. cbn beta. intros G k b p q (_ & p1 & H1 & _ & p2 & H2 & _ & p3 & H3 & -> & <-). eauto 10.
    - cbn beta. intros G k b p q slot p1 (<- & H1) (-> & p2 & p3 & H2 & H3 & H4). cbn [List.length] in *. rewrite drop_0 in *. unfold R1. split; [exact H1|]. rewrite (added_small _ _ _ H1) in H2. eauto. }
  assert (X2 : forall slot, EE Q (captures body) (fns body) (m2 slot) (R2 slot)).
  { intros slot. unfold m2. eapply ED_post; [eapply ED_num; [|eapply EE_bind; [exact (proj1 HB Q SB eq_refl)|intros ?]; do 3 (eapply EE_bind; [prm0|intros ?]); prm0]; lia|]. cbn beta. intros G k b p q (_ & p1 & H1 & _ & p2 & H2 & _ & p3 & H3 & _ & p4 & H4 & H5). exists p1, p2, p3, p4. auto. }
  assert (X3 : forall sc, EE P (captures body) 0 (m3 sc) (R3 sc)).
  { intros sc. unfold m3. eapply ED_post; [apply (EE_bind lit P _ 0 0); [apply ED_le; apply EE_close_vars|intros ?; apply EE_jump_back]|]. cbn beta. intros G k b p q (_ & p1 & (L & H1) & H2). exists p1. auto. }
  assert (X4 : EE P (captures body) 0 m4 R4).
  { unfold m4. eapply ED_post; [apply (EE_bind lit P _ 0 0); [prm0|intros ?; prm0]|]. cbn beta. intros G k b p q (_ & p1 & H1 & H2). exists p1. auto. }
  eapply ED_post; [apply (EE_loop_from lit P Q [x] (captures body) 0 (fns body) None 1 OpJumpIfFalse m1 m2 m3 m4 R1 R2 R3 R4 (fun G p4 => Some (Loop (List.length (g_vars G)) p4 None (Datatypes.S (g_depth G)))))|].
  - reflexivity.
  - intros G t l [= <-]. cbn. auto.
  - reflexivity.
  - auto.
  - cbn. discriminate.
  - intros G t _. eexists. split; [reflexivity|]. cbn. lia.
  - apply (moving_T (names body)). intros b N I. eapply T_num.
    + apply T_push. eapply TP_and with (n1 := 0) (D2 := [x]) (Q := fun _ => True); [unfold m1|intros slot _].
      * eapply T_num; [change [x] with ([] ++ [x]); eapply T_bind; [apply T_add_local|intros slot _; do 3 (eapply T_and; [prim|intros _ _]); apply T_ret; exact Logic.I]|reflexivity].
      * eapply TP_and; [apply T_jump|intros j Hj]. cbn beta in Hj. unfold m2. eapply TP_and with (n1 := fns body) (D2 := []) (Q := fun _ => True).
        { eapply T_num; [eapply T_and; [apply (T_sub Q body _ SB eq_refl (incl_refl _)); exact I|intros _ _; do 3 (eapply T_and; [prim|intros _ _]); prim]|lia]. }
        intros _ _. eapply TP_pop. intros sc F. unfold m3, m4. eapply T_and with (Q := fun _ => True); [eapply T_num; [eapply T_and; [prim|intros _ _; prim]|reflexivity]|intros _ _]. eapply T_and; [apply T_patch; lia|intros _ _]. eapply T_and; [apply patches_spec; auto|intros _ _]. eapply T_and; [prim|intros _ _; prim].
    + lia.
  - exact X1.
  - exact X2.
  - exact X3.
  - exact X4.
  - cbn beta. intros G k u p q Y L0. destruct Y as (vs & slot & sc & p5 & p6 & p11 & p13 & L1 & L2 & V & VC & VS & H1 & H2 & H3 & H4 & H5); [discriminate|]. destruct vs as [|[y fl] [|? ?]]; try discriminate V. injection V as ->.
    cbn zeta in *. destruct H1 as (HA & p3 & p4 & H1 & H1' & H1''). destruct H3 as (p7 & p8 & p9 & p10 & H3 & H6 & H7 & H8 & H9). destruct H4 as (p12 & L3 & H4 & H10). destruct H5 as (p14 & H5 & H11).
    assert (ES : slot = List.length (g_vars G)) by (destruct HA as (_ & X & _); rewrite X; reflexivity). assert (RM : has_room G) by (destruct HA as (_ & _ & X & _); exact X).
    rewrite (added_small _ _ _ HA), ES in H7. rewrite ES in H1. clear HA. rewrite VS in H4. cbn [flagged app List.length] in H4. rewrite Nat.add_0_r in H4.
    exists fl, p3, p4, p5, p6, p7, p8, p9, p10, p11, p12, p13, p14. cbn zeta. rewrite Nat.add_0_r in *. split; [intros ->; apply VC; left; reflexivity|]. split; [exact RM|].
    split; [exact H1|]. split; [exact H1'|]. split; [exact H1''|]. split; [exact H2|]. split; [exact H3|]. split; [exact H6|]. split; [exact H7|]. split; [exact H8|]. split; [exact H9|]. split; [exact H4|]. split; [apply H10; lia|]. split; [exact H5|exact H11].
Qed.

Lemma kept_range P x fl body vs n : (fl = true -> In x (captures body)) -> fresh_names [x] (pl_kept (loop_of false (loop_kept [body]) P)) = true -> forall l, lp_vars l = n -> n = List.length vs ->
  kept (loop_of false (loop_kept [body]) P) body ((x, fl) :: vs) (Some l).
Proof.
  intros HF HN l L1 L2. split; cbn [loop_of pl_exact pl_exit]; [discriminate|]. intros _ B. assert (I : incl (captures body) (pl_kept (loop_of false (loop_kept [body]) P))).
  { cbn [loop_of pl_kept]. apply incl_appl. unfold loop_kept. cbn [existsb flat_map]. rewrite B. cbn. rewrite app_nil_r. apply incl_refl. }
  split; [|exact I]. intros l0 [= <-]. rewrite L1, L2. cbn [List.length]. replace (Datatypes.S (List.length vs) - List.length vs) with 1 by lia. cbn [firstn]. constructor; [|constructor]. cbn [snd]. destruct fl; [|reflexivity]. exfalso.
  eapply (fresh_in [x] _ x HN); [left; reflexivity|]. apply I. apply HF. reflexivity.
Qed.
Lemma at_range x op first last body : op = BRangeInclusive \/ op = BRangeExclusive -> (forall e, esize e < esize (EFor x (EBinary op first last) body) -> code_at e) -> code_at (EFor x (EBinary op first last) body).
Proof.
  intros HO IH. apply stmt_of_expr; [exact Logic.I|]. intros P S ST. assert (S' : supported (first_of P) last && supported (later_of P) first && supported (loop_of false (loop_kept [body]) P) body && fresh_names [x] (pl_kept (loop_of false (loop_kept [body]) P)) = true) by (destruct HO as [-> | ->]; exact S).
  clear S. ands. pose (i := match op with BRangeInclusive => true | _ => false end). cbn [visit]. apply ED_ext with (m := visit last ;;; visit first ;;; a <- here ;; range_from i x body a).
  { intros s. rewrite <- range_is. unfold i, visit_for. destruct HO as [-> | ->]; reflexivity. }
  assert (IB : code_at body) by (apply IH; rewrite size_EFor; lia). assert (I1 : code_at first) by (apply IH; rewrite size_EFor, size_EBinary; lia). assert (I2 : code_at last) by (apply IH; rewrite size_EFor, size_EBinary; lia).
  eapply ED_post; [eapply ED_num; [|eapply EE_bind; [apply (EE_first lit P _ last I2); [eassumption|inc1]|intros ?]; eapply EE_bind; [apply (EE_later lit P _ first I1); [eassumption|inc1]|intros ?]; eapply EE_bind; [apply EE_here|intros pa]; eapply ED_incl; [|apply (EE_range P i x body pa IB); assumption]; inc1]|].
  - cbn [fns]. clear. lia.
  - cbn beta. intros G k u p q (_ & p1 & H1 & _ & p2 & H2 & a & p2' & (-> & <-) & H3) HK. rewrite Nat.add_0_r in H3. destruct (H3 (Nat.le_refl _)) as (fl & p3 & p4 & p5 & p6 & p7 & p8 & p9 & p10 & p11 & p12 & p13 & p14 & VC & RM & Y1 & Y2 & Y3 & Y4 & Y5 & Y6 & Y7 & Y8 & Y9 & Y10 & Y11 & Y12 & Y13).
    assert (K1 : kept (first_of P) last (g_vars G) (g_loop G)). { eapply kept_sub; [| | | | | |exact HK]; [auto|auto|reflexivity|..]; [intros R; cbn [returns]; rewrite R, ?orb_true_r; reflexivity|intros R; cbn [breaks]; rewrite R, ?orb_true_r; reflexivity|inc1]. }
    unfold i in Y3. destruct HO as [-> | ->]; cbn [code]; exists fl, p1, p2, p3, p4, p5, p6, p7, p8, p9, p10, p11, p12, p13, p14; cbn zeta.
    + split; [exact RM|]. split; [exact (H1 K1)|]. split; [apply H2|]. split; [exact Y1|]. split; [exact Y2|]. split; [exact Y3|]. split; [exact Y4|]. split; [apply Y5; apply (kept_range _ _ _ _ _ (List.length (g_vars G))); auto|]. auto 12.
    + split; [exact RM|]. split; [exact (H1 K1)|]. split; [apply H2|]. split; [exact Y1|]. split; [exact Y2|]. split; [exact Y3|]. split; [exact Y4|]. split; [apply Y5; apply (kept_range _ _ _ _ _ (List.length (g_vars G))); auto|]. auto 12.
Qed.

(** ** Iterator loops *)
Definition iter_from (x : string) (body : expr) (a : nat) : M unit :=
  m_push_scope KLoop None ;;;
  slot <- (slot <- m_add_local x (state_initialized false) ;; emit_u8 OpDup 0 ;;; emit_u8 OpCall 0 ;;; emit_u8 OpDup 0 ;;; emit_c OpLoadField (CSymbol DONE) ;;; ret slot) ;;
  j <- jump OpJumpIfTrue ;;
  (emit_lftl VALUE (u8_of slot) ;;; emit OpPop ;;; visit body) ;;;
  sc <- m_pop_scope ;;
  (emit OpPop ;;; close_vars (sc_vars sc) ;;; jump_back a) ;;;
  patch j ;;; each patch (sc_exits sc) ;;; (emit OpPop ;;; emit OpPop ;;; emit OpPushUnit).
Lemma iter_is x e1 body s : visit_iterator_loop visit x e1 body s = (visit e1 ;;; emit_c OpLoadField (CSymbol ITER) ;;; emit_u8 OpCall 0 ;;; emit_c OpLoadField (CSymbol NEXT) ;;; a <- here ;; iter_from x body a) s.
Proof. unfold visit_iterator_loop, iter_from. revert s. reassoc. Qed.
Lemma EE_iter P x body a : code_at body -> supported (iter_of P) body = true ->
  EE P (captures body) (fns body) (iter_from x body a) (fun G k _ p q => a <= p -> exists fl p5 p6 p7 p8 p9 p10 p11 p12 p13 p14 p15 p16 p17,
    let slot := List.length (g_vars G) in
    let G' := with_loop None (extend [(x, fl)] (g_deep 1 G)) in
    has_room G /\
    at_ (g_bc G) p (IByte OpDup 0) p5 /\ at_ (g_bc G) p5 (IByte OpCall 0) p6 /\ at_ (g_bc G) p6 (IByte OpDup 0) p7 /\
    at_const (g_bc G) OpLoadField (CSymbol "is_done") p7 p8 /\ jumps (g_bc G) OpJumpIfTrue p8 p9 p15 /\
    (exists i, at_ (g_bc G) p9 (ITwo OpLoadFieldToLocal i slot) p10 /\ nth_error (bc_constants (g_bc G)) i = Some (CSymbol "value")) /\
    at_ (g_bc G) p10 (INone OpPop) p11 /\ code G' k body p11 p12 /\ at_ (g_bc G) p12 (INone OpPop) p13 /\
    closes (g_bc G) (if fl then [slot] else []) p13 p14 /\ jumps (g_bc G) OpJump p14 p15 a /\
    at_ (g_bc G) p15 (INone OpPop) p16 /\ at_ (g_bc G) p16 (INone OpPop) p17 /\ at_ (g_bc G) p17 (INone OpPushUnit) q).
Proof.
  intros HB SB. unfold iter_from. set (Q := iter_of P) in *.
  set (m1 := slot <- m_add_local x (state_initialized false) ;; emit_u8 OpDup 0 ;;; emit_u8 OpCall 0 ;;; emit_u8 OpDup 0 ;;; emit_c OpLoadField (CSymbol DONE) ;;; ret slot).
  set (m2 := fun slot => emit_lftl VALUE (u8_of slot) ;;; emit OpPop ;;; visit body).
  set (m3 := fun sc => emit OpPop ;;; close_vars (sc_vars sc) ;;; jump_back a). set (m4 := emit OpPop ;;; emit OpPop ;;; emit OpPushUnit).
  pose (R1 := fun (G : ctx) (_ : nat) (slot p q : nat) => added x slot G /\ exists p1 p2 p3, at_ (g_bc G) p (IByte OpDup 0) p1 /\ at_ (g_bc G) p1 (IByte OpCall 0) p2 /\ at_ (g_bc G) p2 (IByte OpDup 0) p3 /\ at_const (g_bc G) OpLoadField (CSymbol "is_done") p3 q).
  pose (R2 := fun (slot : nat) (G : ctx) (k : nat) (_ : unit) (p q : nat) => exists p1 p2, (exists i, at_ (g_bc G) p (ITwo OpLoadFieldToLocal i (u8_of slot)) p1 /\ nth_error (bc_constants (g_bc G)) i = Some (CSymbol "value")) /\ at_ (g_bc G) p1 (INone OpPop) p2 /\ code G k body p2 q).
  pose (R3 := fun (sc : scope) (G : ctx) (_ : nat) (_ : unit) (p q : nat) => exists p0 p1, p <= p1 /\ at_ (g_bc G) p (INone OpPop) p0 /\ closes (g_bc G) (closing (sc_vars sc)) p0 p1 /\ (a <= p1 -> jumps (g_bc G) OpJump p1 q a)).
  pose (R4 := fun (G : ctx) (_ : nat) (_ : unit) (p q : nat) => exists p1 p2, at_ (g_bc G) p (INone OpPop) p1 /\ at_ (g_bc G) p1 (INone OpPop) p2 /\ at_ (g_bc G) p2 (INone OpPushUnit) q).
  assert (X1 : ED Q [x] (captures body) 0 m1 R1).
  { unfold m1. eapply (ED_seq lit [x] [] 0 0) with (R2 := fun slot G _ b p q => b = slot /\ exists p1 p2 p3, at_ (g_bc G) p (IByte OpDup 0) p1 /\ at_ (g_bc G) p1 (IByte OpCall 0) p2 /\ at_ (g_bc G) p2 (IByte OpDup 0) p3 /\ at_const (g_bc G) OpLoadField (CSymbol "is_done") p3 q); [apply ED_add_local| |reflexivity|reflexivity|].
    - intros slot. eapply ED_post; [eapply ED_num; [|do 4 (eapply EE_bind; [prm0|intros ?]); apply ED_ret]; reflexivity|]. cbn beta. intros G k b p q (_ & p1 & H1 & _ & p2 & H2 & _ & p3 & H3 & _ & p4 & H4 & -> & <-). eauto 10.
    - cbn beta. intros G k b p q slot p1 (<- & H1) (-> & p2 & p3 & p4 & H2 & H3 & H4 & H5). cbn [List.length] in *. rewrite drop_0 in *. unfold R1. split; [exact H1|]. eauto 10. }
  assert (X2 : forall slot, EE Q (captures body) (fns body) (m2 slot) (R2 slot)).
  { intros slot. unfold m2. eapply ED_post; [eapply ED_num; [|eapply EE_bind; [apply EE_lftl|intros ?]; eapply EE_bind; [prm0|intros ?]; exact (proj1 HB Q SB eq_refl)]; lia|]. cbn beta. intros G k b p q (_ & p1 & H1 & _ & p2 & H2 & H3). rewrite ?Nat.add_0_r in H3. exists p1, p2. split; [exact H1|]. split; [exact H2|]. apply H3. apply kept_none; reflexivity. }
  assert (X3 : forall sc, EE P (captures body) 0 (m3 sc) (R3 sc)).
  { intros sc. unfold m3. eapply ED_post; [apply (EE_bind lit P _ 0 0); [apply ED_le; prm0|intros ?; apply (EE_bind lit P _ 0 0); [apply ED_le; apply EE_close_vars|intros ?; apply EE_jump_back]]|]. cbn beta. intros G k b p q (_ & p0 & (L0 & H0) & _ & p1 & (L & H1) & H2). exists p0, p1. split; [lia|]. auto. }
  assert (X4 : EE P (captures body) 0 m4 R4).
  { unfold m4. eapply ED_post; [apply (EE_bind lit P _ 0 0); [prm0|intros ?; apply (EE_bind lit P _ 0 0); [prm0|intros ?; prm0]]|]. cbn beta. intros G k b p q (_ & p1 & H1 & _ & p2 & H2 & H3). exists p1, p2. auto. }
  eapply ED_post; [apply (EE_loop_from lit P Q [x] (captures body) 0 (fns body) None 1 OpJumpIfTrue m1 m2 m3 m4 R1 R2 R3 R4 (fun G p4 => None))|].
  - reflexivity.
  - discriminate.
  - reflexivity.
  - auto.
  - cbn. discriminate.
  - cbn. discriminate.
  - apply (moving_T (names body)). intros b N I. eapply T_num.
    + apply T_push. eapply TP_and with (n1 := 0) (D2 := [x]) (Q := fun _ => True); [unfold m1|intros slot _].
      * eapply T_num; [change [x] with ([] ++ [x]); eapply T_bind; [apply T_add_local|intros slot _; do 4 (eapply T_and; [prim|intros _ _]); apply T_ret; exact Logic.I]|reflexivity].
      * eapply TP_and; [apply T_jump|intros j Hj]. cbn beta in Hj. unfold m2. eapply TP_and with (n1 := fns body) (D2 := []) (Q := fun _ => True).
        { eapply T_num; [do 2 (eapply T_and; [prim|intros _ _]); apply (T_sub Q body _ SB eq_refl (incl_refl _)); exact I|lia]. }
        intros _ _. eapply TP_pop. intros sc F. unfold m3, m4. eapply T_and with (Q := fun _ => True); [eapply T_num; [eapply T_and; [prim|intros _ _; eapply T_and; [prim|intros _ _; prim]]|reflexivity]|intros _ _]. eapply T_and; [apply T_patch; lia|intros _ _]. eapply T_and; [apply patches_spec; auto|intros _ _]. do 2 (eapply T_and; [prim|intros _ _]). prim.
    + lia.
  - exact X1.
  - exact X2.
  - exact X3.
  - exact X4.
  - cbn beta. intros G k u p q Y L0. destruct Y as (vs & slot & sc & p8 & p9 & p12 & p15 & L1 & L2 & V & VC & VS & H1 & H2 & H3 & H4 & H5); [discriminate|]. destruct vs as [|[y fl] [|? ?]]; try discriminate V. injection V as ->.
    cbn zeta in *. destruct H1 as (HA & p5 & p6 & p7 & H1 & H1' & H1a & H1b). destruct H3 as (p10 & p11 & H3 & H6 & H7). destruct H4 as (p13 & p14 & L3 & H8 & H9 & H10). destruct H5 as (p16 & p17 & H5 & H11 & H12).
    assert (ES : slot = List.length (g_vars G)) by (destruct HA as (_ & X & _); rewrite X; reflexivity). assert (RM : has_room G) by (destruct HA as (_ & _ & X & _); exact X).
    rewrite (added_small _ _ _ HA), ES in H3. clear HA. rewrite VS in H9. cbn [flagged app List.length] in H9. rewrite Nat.add_0_r in H9.
    exists fl, p5, p6, p7, p8, p9, p10, p11, p12, p13, p14, p15, p16, p17. cbn zeta. rewrite Nat.add_0_r in *. split; [exact RM|].
    split; [exact H1|]. split; [exact H1'|]. split; [assumption|]. split; [assumption|]. split; [exact H2|]. split; [exact H3|]. split; [exact H6|]. split; [exact H7|]. split; [exact H8|]. split; [exact H9|]. split; [apply H10; lia|]. auto.
Qed.

Lemma at_iter x e1 body : match e1 with EBinary (BRangeInclusive | BRangeExclusive) _ _ => False | _ => True end -> (forall e, esize e < esize (EFor x e1 body) -> code_at e) -> code_at (EFor x e1 body).
Proof.
  intros HN IH. apply stmt_of_expr; [exact Logic.I|]. intros P S ST.
  assert (S' : supported (first_of P) e1 && supported (iter_of P) body && fresh_names [x] (pl_kept P) = true).
  { destruct e1; try exact S. destruct op; try exact S; contradiction. }
  assert (V : visit (EFor x e1 body) = visit_iterator_loop visit x e1 body).
  { cbn [visit]. unfold visit_for. destruct e1; try reflexivity. destruct op; try reflexivity; contradiction. }
  clear S. ands. rewrite V. clear V. apply ED_ext with (m := visit e1 ;;; emit_c OpLoadField (CSymbol ITER) ;;; emit_u8 OpCall 0 ;;; emit_c OpLoadField (CSymbol NEXT) ;;; a <- here ;; iter_from x body a); [intros s; symmetry; apply iter_is|].
  assert (IB : code_at body) by (apply IH; rewrite size_EFor; lia). assert (I1 : code_at e1) by (apply IH; rewrite size_EFor; lia).
  eapply ED_post; [eapply ED_num; [|eapply EE_bind; [apply (EE_first lit P _ e1 I1); [eassumption|inc1]|intros ?]; do 3 (eapply EE_bind; [prm0|intros ?]); eapply EE_bind; [apply EE_here|intros pa]; eapply ED_incl; [|apply (EE_iter P x body pa IB); assumption]; inc1]|].
  - cbn [fns]. clear. lia.
  - cbn beta. intros G k u p q (_ & p1 & H1 & _ & p2 & H2 & _ & p3 & H3 & _ & p4 & H4 & a & p4' & (-> & <-) & H5) HK. rewrite ?Nat.add_0_r in H5.
    destruct (H5 (Nat.le_refl _)) as (fl & p5 & p6 & p7 & p8 & p9 & p10 & p11 & p12 & p13 & p14 & p15 & p16 & p17 & RM & Y1 & Y2 & Y3 & Y4 & Y5 & Y6 & Y7 & Y8 & Y9 & Y10 & Y11 & Y12 & Y13 & Y14).
    assert (K1 : kept (first_of P) e1 (g_vars G) (g_loop G)). { eapply kept_sub; [| | | | | |exact HK]; [auto|auto|reflexivity|..]; [intros R; cbn [returns]; rewrite R, ?orb_true_r; reflexivity|intros R; cbn [breaks]; rewrite R, ?orb_true_r; reflexivity|inc1]. }
    specialize (H1 K1). clear K1 HK.
    assert (Z : exists fl p1 p2 p3 p4 p5 p6 p7 p8 p9 p10 p11 p12 p13 p14 p15 p16 p17,
      let slot := List.length (g_vars G) in
      let G' := with_loop None (extend [(x, fl)] (g_deep 1 G)) in
      has_room G /\
      code (g_in G) k e1 p p1 /\ at_const (g_bc G) OpLoadField (CSymbol "iter") p1 p2 /\ at_ (g_bc G) p2 (IByte OpCall 0) p3 /\
      at_const (g_bc G) OpLoadField (CSymbol "next") p3 p4 /\
      at_ (g_bc G) p4 (IByte OpDup 0) p5 /\ at_ (g_bc G) p5 (IByte OpCall 0) p6 /\ at_ (g_bc G) p6 (IByte OpDup 0) p7 /\
      at_const (g_bc G) OpLoadField (CSymbol "is_done") p7 p8 /\ jumps (g_bc G) OpJumpIfTrue p8 p9 p15 /\
      (exists i, at_ (g_bc G) p9 (ITwo OpLoadFieldToLocal i slot) p10 /\ nth_error (bc_constants (g_bc G)) i = Some (CSymbol "value")) /\
      at_ (g_bc G) p10 (INone OpPop) p11 /\ code G' (k + fns e1) body p11 p12 /\ at_ (g_bc G) p12 (INone OpPop) p13 /\
      closes (g_bc G) (if fl then [slot] else []) p13 p14 /\ jumps (g_bc G) OpJump p14 p15 p4 /\
      at_ (g_bc G) p15 (INone OpPop) p16 /\ at_ (g_bc G) p16 (INone OpPop) p17 /\ at_ (g_bc G) p17 (INone OpPushUnit) q).
    { exists fl, p1, p2, p3, p4, p5, p6, p7, p8, p9, p10, p11, p12, p13, p14, p15, p16, p17. cbn zeta. split; [exact RM|]. split; [exact H1|]. split; [exact H2|]. split; [exact H3|]. split; [exact H4|].
      split; [exact Y1|]. split; [exact Y2|]. split; [exact Y3|]. split; [exact Y4|]. split; [exact Y5|]. split; [exact Y6|]. split; [exact Y7|]. split; [exact Y8|]. split; [exact Y9|]. split; [exact Y10|]. split; [exact Y11|]. auto. }
    clear - Z HN. destruct e1; try exact Z. destruct op; try exact Z; contradiction.
Qed.
Lemma at_for x e1 body : (forall e, esize e < esize (EFor x e1 body) -> code_at e) -> code_at (EFor x e1 body).
Proof.
  intros IH. destruct e1; try (apply at_iter; [exact Logic.I|exact IH]). destruct op; try (apply at_iter; [exact Logic.I|exact IH]); apply at_range; auto.
Qed.
End Loops.
