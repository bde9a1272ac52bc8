(** What patched jumps, chains, blocks and loops leave in the finished bytecode. *)
From Verif.Model Require Import Compiler.
From Verif.Spec Require Import Encoding SupportSpec.
From Verif.Proofs Require Import ExprInd ReachP CodeP CodecP AssemblerP PoolP WellFormedP WellFormedPrimP CaptureP StackP EmitP VisitMonoP FitsP.
#[local] Open Scope string_scope.
#[local] Open Scope list_scope.
#[local] Open Scope nat_scope.

(** ** Progress without the names *)
Definition le (D C : list string) (s s' : cstate) : Prop := exists N, mono D C N s s'.
Lemma le_refl C s : le [] C s s. Proof. exists []. apply mono_refl. Qed.
Lemma le_trans D1 D2 C s1 s2 s3 : le D1 C s1 s2 -> le D2 C s2 s3 -> le (D2 ++ D1) C s1 s3.
Proof.
  intros (N1 & A) (N2 & B). exists (N1 ++ N2). eapply mono_trans; eapply mono_incl; try eassumption; auto using incl_refl, incl_appl, incl_appr.
Qed.
Lemma le_trans0 D C s1 s2 s3 : le [] C s1 s2 -> le D C s2 s3 -> le D C s1 s3.
Proof. intros A B. pose proof (le_trans _ _ _ _ _ _ A B) as X. rewrite app_nil_r in X. exact X. Qed.
Lemma le_pos D C s s' : le D C s s' -> pos s <= pos s'.
Proof. intros (N & M). exact (m_pos _ _ _ _ _ M). Qed.
Lemma moves_le D C n s s' : moves D C n s s' -> le D C s s'.
Proof. intros [_ M _ _]. exact M. Qed.
Lemma moves_keeps D C n s s' p q : moves D C n s s' -> q <= pos s -> keeps p q s s'.
Proof. intros [_ _ B _] L. eapply below_keeps; eauto. Qed.
Lemma keeps_sub p q p' q' s s' : p <= p' -> q' <= q -> keeps p q s s' -> keeps p' q' s s'.
Proof. intros A B K i Hi. apply K. lia. Qed.
Lemma static_base lit c G b b' s : b <= b' -> static lit c G b s -> static lit c G b' s.
Proof. intros L. apply static_ctx; auto. Qed.
Lemma fits_base lit c G b b' s : b <= b' -> fits lit c G b s -> fits lit c G b' s.
Proof. intros L. apply fits_ctx; auto. Qed.
(** A fit further on, seen from an earlier state. *)
Lemma fits_le lit c D C G b b1 s s' : wf s -> wf s' -> le D C s s' -> keeps b1 (pos s) s s' -> b <= b1 -> fits lit c G b s' -> fits lit c (drop (List.length D) G) b1 s.
Proof. intros W W' (N & M). apply fits_at with (C := C) (N := N); auto. Qed.
Lemma fits_le0 lit c C G b b1 s s' : wf s -> wf s' -> le [] C s s' -> keeps b1 (pos s) s s' -> b <= b1 -> fits lit c G b s' -> fits lit c G b1 s.
Proof. intros W W' L K B F. rewrite <- (drop_0 G). change 0 with (List.length (@nil string)). eapply fits_le; eauto. Qed.
Lemma static_le lit c D C G b b1 s s' : wf s -> wf s' -> le D C s s' -> b <= b1 -> static lit c G b s' -> static lit c (drop (List.length D) G) b1 s.
Proof. intros W W' (N & M). apply static_at with (C := C) (N := N); auto. Qed.
Lemma static_le0 lit c C G b b1 s s' : wf s -> wf s' -> le [] C s s' -> b <= b1 -> static lit c G b s' -> static lit c G b1 s.
Proof. intros W W' L B F. rewrite <- (drop_0 G). change 0 with (List.length (@nil string)). eapply static_le; eauto. Qed.
Lemma pend_le D C s s' i : le D C s s' -> i < pos s -> pend s' i -> pend s i.
Proof. intros (N & M). eapply pend_back; eauto. Qed.

(** ** Patching *)
Record patched (j : nat) (C : list string) (s s' : cstate) : Prop := {
  pt_wf : wf s'; pt_le : le [] C s s'; pt_pos : pos s' = pos s; pt_next : cs_next_id s' = cs_next_id s; pt_room : j + 2 <= pos s;
  pt_same : forall i, i <> j -> i <> S j -> nth_error (data s') i = nth_error (data s) i;
  pt_set : (Z.of_nat (pos s) <= 32767)%Z -> offset_at (data s') j (pos s) }.
Lemma patch_step C j s u s' : wf s -> patch j s = Ok (u, s') -> patched j C s s'.
Proof.
  intros W E. destruct (T_patch 0 C (kind_names (kind s)) j (Nat.le_0_l _) s u s' W (Nat.le_0_l _) (incl_refl _) E) as (W' & M & _ & N & _).
  apply on_asm_with in E. destruct E as (asm & E & ->). apply omap_ok in E. destruct E as (a1 & E & [= _ <-]). apply patch_ok in E. destruct E as (L & hi & lo & HB & ->).
  assert (ED : data (with_asm (MkAsm (asm_consts (cx_asm (top s))) (set_nth (set_nth (asm_data (cx_asm (top s))) j hi) (S j) lo)) s) = set_nth (set_nth (data s) j hi) (S j) lo) by reflexivity.
  assert (LD : j + 2 <= List.length (data s)) by exact L. split; auto.
  - eexists. exact M.
  - unfold pos. rewrite ED, !set_nth_len. reflexivity.
  - intros i H1 H2. rewrite ED, !nth_set_nth_other by auto. reflexivity.
  - intros Z. rewrite i16_of_small in HB by (unfold pos, data in *; lia).
    assert (B : be16 (Z.of_nat (pos s - j - 2)) = [hi; lo]) by (rewrite be16_i16_bytes; exact HB). rewrite ED. unfold offset_at. rewrite B. change (nth_error [hi; lo] 0) with (Some hi). change (nth_error [hi; lo] 1) with (Some lo). split.
    + rewrite nth_set_nth_other by lia. apply nth_error_set_nth_eq. lia.
    + apply nth_error_set_nth_eq. rewrite set_nth_len. lia.
Qed.
Record patched_all (L : list nat) (C : list string) (s s' : cstate) : Prop := {
  pa_wf : wf s'; pa_le : le [] C s s'; pa_pos : pos s' = pos s; pa_next : cs_next_id s' = cs_next_id s; pa_room : forall j, In j L -> j + 2 <= pos s;
  pa_same : forall i, (forall j, In j L -> i <> j /\ i <> S j) -> nth_error (data s') i = nth_error (data s) i;
  pa_set : (Z.of_nat (pos s) <= 32767)%Z -> forall j, In j L -> offset_at (data s') j (pos s) }.
Lemma patches_step C L : forall s u s', wf s -> apart L -> each patch L s = Ok (u, s') -> patched_all L C s s'.
Proof.
  induction L as [|j L IH]; intros s u s' W A E; cbn [each] in E.
  - injection E as _ <-. split; auto; [apply le_refl|intros j []|intros _ j []].
  - apply bind_ok in E. destruct E as (u1 & s1 & E1 & E2). pose proof (patch_step C _ _ _ _ W E1) as P1.
    assert (AL : apart L) by (intros x y Hx Hy; apply A; right; auto).
    pose proof (IH _ _ _ (pt_wf _ _ _ _ P1) AL E2) as P2. pose proof (pt_pos _ _ _ _ P1) as PP. split.
    + exact (pa_wf _ _ _ _ P2).
    + eapply le_trans0; [exact (pt_le _ _ _ _ P1)|exact (pa_le _ _ _ _ P2)].
    + rewrite (pa_pos _ _ _ _ P2). exact PP.
    + rewrite (pa_next _ _ _ _ P2). exact (pt_next _ _ _ _ P1).
    + intros x [<-|Hx]; [exact (pt_room _ _ _ _ P1)|]. pose proof (pa_room _ _ _ _ P2 x Hx). lia.
    + intros i Hi. rewrite (pa_same _ _ _ _ P2) by (intros x Hx; apply Hi; right; auto). destruct (Hi j (or_introl eq_refl)). apply (pt_same _ _ _ _ P1); auto.
    + intros Z x Hx. destruct (in_dec Nat.eq_dec x L) as [HL|HL].
      * pose proof (pa_set _ _ _ _ P2 ltac:(rewrite PP; exact Z) x HL) as X. rewrite PP in X. exact X.
      * destruct Hx as [<-|Hx]; [|contradiction]. destruct (pt_set _ _ _ _ P1 Z) as (X1 & X2).
        assert (K : forall i, i = j \/ i = S j -> nth_error (data s') i = nth_error (data s1) i).
        { intros i Hi. apply (pa_same _ _ _ _ P2). intros y Hy. destruct (A j y (or_introl eq_refl) (or_intror Hy)) as [->|H]; [contradiction|]. destruct Hi; lia. }
        split; rewrite K by auto; auto.
Qed.
Lemma tame_len lit c G b s : static lit c G b s -> (Z.of_nat (List.length (bc_data (g_bc G))) <= 32767)%Z /\ (Z.of_nat (pos s) <= 32767)%Z.
Proof. intros F. pose proof (f_tame _ _ _ _ _ F) as TM. inversion TM as [bc L1 L2 L3 L4 EQ]. pose proof (f_len _ _ _ _ _ F). split; lia. Qed.

Section Units.
Variable lit : nat -> fn_bytecode.
Local Notation fits := (fits lit).
Local Notation static := (static lit).
Local Notation ED := (ED lit).
Local Notation EE := (EE lit).

(** A jump emitted at [s0] and patched at [s2]. *)
Lemma jump_final c G b o C D1 D2 s0 j s1 s2 s3 s4 : wf s0 -> vm_operands o = OffsetOperand -> jump o s0 = Ok (j, s1) ->
  le D1 C s1 s2 -> keeps (pos s0) (S (pos s0)) s1 s2 -> patched j C s2 s3 -> le D2 C s3 s4 -> keeps (pos s0) (pos s1) s3 s4 ->
  b <= pos s0 -> fits c G b s4 -> jumps (g_bc G) o (pos s0) (pos s1) (pos s3).
Proof.
  intros W HO E L1 K1 PT L2 K2 B F. destruct (jump_ok _ _ _ _ W E) as (-> & P1 & W1 & ES1). destruct (tame_len _ _ _ _ _ F) as (T1 & T2).
  pose proof (le_pos _ _ _ _ L1) as Q1. pose proof (le_pos _ _ _ _ L2) as Q2. pose proof (pt_pos _ _ _ _ PT) as QP. pose proof (f_len _ _ _ _ _ F) as FL.
  assert (NP : forall i, pos s0 <= i < pos s1 -> ~ pend s4 i).
  { intros i Hi X. apply (pend_le _ _ _ _ _ L2) in X; [|lia]. apply (pend_le _ _ _ _ _ (pt_le _ _ _ _ PT)) in X; [|lia]. apply (pend_le _ _ _ _ _ L1) in X; [|lia].
    assert (pend s0 i) as Y by (rewrite ES1 in X; exact X). apply (fun y => pend_low lit s0 i W y) in Y. lia. }
  assert (BY : forall i, pos s0 <= i < pos s1 -> nth_error (bc_data (g_bc G)) i = nth_error (data s3) i).
  { intros i Hi. rewrite <- (f_bytes _ _ _ _ _ F) by (try lia; auto). apply K2. exact Hi. }
  rewrite P1. apply goes_jumps; auto.
  - rewrite BY by lia. rewrite (pt_same _ _ _ _ PT) by lia. rewrite K1 by lia. rewrite ES1. unfold data at 1, top. cbn [cs_stack hd set_asm cx_asm asm_data].
    rewrite nth_error_app2 by (unfold pos; lia). replace (pos s0 - List.length (data s0)) with 0 by (unfold pos; lia). reflexivity.
  - split; [lia|]. split; [lia|]. destruct (pt_set _ _ _ _ PT ltac:(lia)) as (X1 & X2). rewrite <- QP in X1, X2. split; rewrite BY by lia; assumption.
Qed.
Lemma jump_moves C o s j s1 : wf s -> jump o s = Ok (j, s1) -> moves [] C 0 s s1.
Proof.
  intros W E. pose proof (T_moves [] [] C 0 (jump o) (fun _ => True) s j s1) as X. destruct X as (X & _); auto. intros b N _. eapply T_post; [apply T_jump|auto].
Qed.
(** [jump o] over [m], then more. *)
Lemma ED_jump_over {A} P D2 C n1 n2 n o (m : M unit) (f : M A) R1 R2 (R : ctx -> nat -> A -> nat -> nat -> Prop) : vm_operands o = OffsetOperand ->
  EE P C n1 m R1 -> ED P D2 C n2 f R2 -> n1 + n2 = n ->
  (forall G k a p q p1 p2, jumps (g_bc G) o p p1 p2 -> R1 (drop (List.length D2) G) k tt p1 p2 -> R2 G (k + n1) a p2 q -> R G k a p q) ->
  ED P D2 C n (bind (jump o) (fun j => bind m (fun _ => bind (patch j) (fun _ => f)))) R.
Proof.
  intros HO H1 H2 <- H s a s' W PL E. apply bind_ok in E. destruct E as (j & s1 & E1 & E). apply bind_ok in E. destruct E as ([] & s2 & E2 & E). apply bind_ok in E. destruct E as (u & s3 & E3 & E4).
  destruct (jump_ok _ _ _ _ W E1) as (Ej & P1 & W1 & ES1). pose proof (jump_moves C _ _ _ _ W E1) as M1. destruct (mv_mono _ _ _ _ _ M1) as (N1 & O1).
  pose proof (placed_mono _ _ _ _ _ _ O1 PL) as PL1. destruct (H1 _ _ _ W1 PL1 E2) as (M2 & K2). destruct (mv_mono _ _ _ _ _ M2) as (N2 & O2). pose proof (mv_wf _ _ _ _ _ M2) as W2.
  pose proof (patch_step C _ _ _ _ W2 E3) as PT. pose proof (pt_wf _ _ _ _ PT) as W3. destruct (pt_le _ _ _ _ PT) as (N3 & O3).
  pose proof (placed_mono _ _ _ _ _ _ O3 (placed_mono _ _ _ _ _ _ O2 PL1)) as PL3. destruct (H2 _ _ _ W3 PL3 E4) as (M4 & K4).
  pose proof (moves_pos _ _ _ _ _ M2) as Q2. pose proof (pt_pos _ _ _ _ PT) as QP.
  assert (MV : moves D2 C (n1 + n2) s s').
  { split.
    - exact (mv_wf _ _ _ _ _ M4).
    - apply (le_trans0 _ _ _ s1); [eexists; exact O1|]. apply (le_trans0 _ _ _ s2); [eexists; exact O2|]. apply (le_trans0 _ _ _ s3); [exact (pt_le _ _ _ _ PT)|exact (mv_mono _ _ _ _ _ M4)].
    - intros i Hi. rewrite (mv_below _ _ _ _ _ M4) by lia. rewrite (pt_same _ _ _ _ PT) by lia. rewrite (mv_below _ _ _ _ _ M2) by lia. apply (mv_below _ _ _ _ _ M1). lia.
    - rewrite (mv_next _ _ _ _ _ M4), (pt_next _ _ _ _ PT), (mv_next _ _ _ _ _ M2), (mv_next _ _ _ _ _ M1). lia. }
  split; [exact MV|]. intros G S F.
  assert (S1 : stands P (drop (List.length D2) G) s1) by (apply (stands_mono _ 0 _ _ _ _ _ _ O1); rewrite drop_0; exact S).
  assert (S3 : stands P (drop (List.length D2) G) s3).
  { apply (stands_mono _ 0 _ _ _ _ _ _ O3). rewrite drop_0. apply (stands_mono _ 0 _ _ _ _ _ _ O2). rewrite drop_0. exact S1. }
  pose proof (mv_wf _ _ _ _ _ M4) as W4.
  assert (F3 : fits (pl_chain P) (drop (List.length D2) G) (pos s) s3).
  { eapply fits_le; [exact W3|exact W4|exact (mv_mono _ _ _ _ _ M4)| |apply le_n|exact F]. eapply moves_keeps; [exact M4|lia]. }
  assert (EN : cs_next_id s1 = cs_next_id s) by (rewrite (mv_next _ _ _ _ _ M1); lia).
  apply (H G (cs_next_id s) a (pos s) (pos s') (pos s1) (pos s3)).
  - eapply (jump_final _ G (pos s) o C [] D2 s j s1 s2 s3 s'); eauto.
    + exists N2. exact O2.
    + eapply moves_keeps; [exact M2|lia].
    + exact (mv_mono _ _ _ _ _ M4).
    + eapply moves_keeps; [exact M4|lia].
  - rewrite <- EN, QP. apply K2; [cbn [List.length]; rewrite drop_0; exact S1|]. eapply fits_le0; [exact W2|exact W3|exact (pt_le _ _ _ _ PT)| |exact (moves_pos _ _ _ _ _ M1)|exact F3].
    intros i Hi. apply (pt_same _ _ _ _ PT); lia.
  - replace (cs_next_id s + n1) with (cs_next_id s3) by (rewrite (pt_next _ _ _ _ PT), (mv_next _ _ _ _ _ M2), EN; lia). apply K4; [exact S3|].
    eapply fits_base; [|exact F]. pose proof (moves_pos _ _ _ _ _ M1). lia.
Qed.
Lemma placed_le P D C s s' : le D C s s' -> placed P s -> placed P s'.
Proof. intros (N & M). eapply placed_mono; eauto. Qed.
Lemma stands_le P C G s s' : le [] C s s' -> stands P G s -> stands P G s'.
Proof. intros (N & M) H. eapply (stands_mono _ 0); [exact M|]. rewrite drop_0. exact H. Qed.
Lemma bind_ret_tt (m : M unit) s : bind m (fun _ => ret tt) s = m s.
Proof. unfold bind, ret. destruct (m s) as [[[] s1]| | |]; reflexivity. Qed.
Lemma EE_jump_last P C n o (m : M unit) R1 (R : ctx -> nat -> unit -> nat -> nat -> Prop) : vm_operands o = OffsetOperand ->
  EE P C n m R1 -> (forall G k a p q p1, jumps (g_bc G) o p p1 q -> R1 G k tt p1 q -> R G k a p q) ->
  EE P C n (bind (jump o) (fun j => bind m (fun _ => patch j))) R.
Proof.
  intros HO H1 H. eapply ED_ext with (m := bind (jump o) (fun j => bind m (fun _ => bind (patch j) (fun _ => ret tt)))).
  - intros s. unfold bind at 1 4. destruct (jump o s) as [[j s1]| | |]; auto. unfold bind at 1 3. destruct (m s1) as [[u s2]| | |]; auto. apply bind_ret_tt.
  - eapply ED_jump_over with (D2 := []) (n1 := n) (n2 := 0); [exact HO|exact H1|apply ED_ret|lia|]. cbn beta. intros G k a p q p1 p2 J X (_ & <-). cbn [List.length] in X. rewrite drop_0 in X. eapply H; eauto.
Qed.
Lemma keeps_patch p q j C s s' : patched j C s s' -> q <= j \/ j + 2 <= p -> keeps p q s s'.
Proof. intros PT H i Hi. apply (pt_same _ _ _ _ PT); lia. Qed.
Lemma EE_branch P C n1 n2 n o1 o2 (m1 m2 : M unit) R1 R2 (R : ctx -> nat -> unit -> nat -> nat -> Prop) : vm_operands o1 = OffsetOperand -> vm_operands o2 = OffsetOperand ->
  EE P C n1 m1 R1 -> EE P C n2 m2 R2 -> n1 + n2 = n ->
  (forall G k p q p1 p2 p3, jumps (g_bc G) o1 p p1 p3 -> R1 G k tt p1 p2 -> jumps (g_bc G) o2 p2 p3 q -> R2 G (k + n1) tt p3 q -> R G k tt p q) ->
  EE P C n (bind (jump o1) (fun j1 => bind m1 (fun _ => bind (jump o2) (fun j2 => bind (patch j1) (fun _ => bind m2 (fun _ => patch j2)))))) R.
Proof.
  intros HO1 HO2 H1 H2 <- H s [] s' W PL E. apply bind_ok in E. destruct E as (j1 & s1 & E1 & E). apply bind_ok in E. destruct E as ([] & s2 & E2 & E). apply bind_ok in E. destruct E as (j2 & s3 & E3 & E).
  apply bind_ok in E. destruct E as (u & s4 & E4 & E). apply bind_ok in E. destruct E as ([] & s5 & E5 & E6).
  destruct (jump_ok _ _ _ _ W E1) as (J1 & P1 & W1 & ES1). pose proof (jump_moves C _ _ _ _ W E1) as M1.
  destruct (H1 _ _ _ W1 (placed_le _ _ _ _ _ (moves_le _ _ _ _ _ M1) PL) E2) as (M2 & K2). pose proof (mv_wf _ _ _ _ _ M2) as W2.
  destruct (jump_ok _ _ _ _ W2 E3) as (J2 & P3 & W3 & ES3). pose proof (jump_moves C _ _ _ _ W2 E3) as M3.
  pose proof (patch_step C _ _ _ _ W3 E4) as M4. pose proof (pt_wf _ _ _ _ M4) as W4.
  assert (L04 : le [] C s s4) by (eapply le_trans0; [exact (moves_le _ _ _ _ _ M1)|]; eapply le_trans0; [exact (moves_le _ _ _ _ _ M2)|]; eapply le_trans0; [exact (moves_le _ _ _ _ _ M3)|exact (pt_le _ _ _ _ M4)]).
  destruct (H2 _ _ _ W4 (placed_le _ _ _ _ _ L04 PL) E5) as (M5 & K5). pose proof (mv_wf _ _ _ _ _ M5) as W5.
  pose proof (patch_step C _ _ _ _ W5 E6) as M6. pose proof (pt_wf _ _ _ _ M6) as W6.
  pose proof (moves_pos _ _ _ _ _ M2) as Q2. pose proof (pt_pos _ _ _ _ M4) as Q4. pose proof (moves_pos _ _ _ _ _ M5) as Q5. pose proof (pt_pos _ _ _ _ M6) as Q6.
  pose proof (moves_le _ _ _ _ _ M5) as L5.
  assert (N1 : cs_next_id s1 = cs_next_id s) by (rewrite (mv_next _ _ _ _ _ M1); lia).
  assert (N4 : cs_next_id s4 = cs_next_id s + n1) by (rewrite (pt_next _ _ _ _ M4), (mv_next _ _ _ _ _ M3), (mv_next _ _ _ _ _ M2); lia).
  split.
  { split; [exact W6| | |].
    - eapply le_trans0; [exact L04|]. eapply le_trans0; [exact L5|exact (pt_le _ _ _ _ M6)].
    - intros i Hi. rewrite (pt_same _ _ _ _ M6), (mv_below _ _ _ _ _ M5), (pt_same _ _ _ _ M4), (mv_below _ _ _ _ _ M3), (mv_below _ _ _ _ _ M2), (mv_below _ _ _ _ _ M1) by lia. reflexivity.
    - rewrite (pt_next _ _ _ _ M6), (mv_next _ _ _ _ _ M5). lia. }
  intros G S F. cbn [List.length] in S. rewrite drop_0 in S. rewrite Q6.
  assert (F5 : fits (pl_chain P) G (pos s4) s5).
  { eapply fits_le0; [exact W5|exact W6|exact (pt_le _ _ _ _ M6)| |apply le_n|eapply fits_base; [|exact F]; lia]. eapply keeps_patch; [exact M6|lia]. }
  assert (L46 : le [] C s4 s') by (eapply le_trans0; [exact L5|exact (pt_le _ _ _ _ M6)]).
  assert (F2 : fits (pl_chain P) G (pos s1) s2).
  { eapply fits_le0; [exact W2|exact W6| | |apply le_n|eapply fits_base; [|exact F]; lia].
    - eapply le_trans0; [exact (moves_le _ _ _ _ _ M3)|]. eapply le_trans0; [exact (pt_le _ _ _ _ M4)|exact L46].
    - apply (keeps_trans _ _ _ s3); [eapply moves_keeps; [exact M3|lia]|]. apply (keeps_trans _ _ _ s4); [eapply keeps_patch; [exact M4|lia]|]. apply (keeps_trans _ _ _ s5); [eapply moves_keeps; [exact M5|lia]|]. eapply keeps_patch; [exact M6|lia]. }
  apply (H G (cs_next_id s) (pos s) (pos s5) (pos s1) (pos s2) (pos s4)).
  - apply (jump_final (pl_chain P) G (pos s) o1 C [] [] s j1 s1 s3 s4 s'); auto.
    + eapply le_trans0; [exact (moves_le _ _ _ _ _ M2)|exact (moves_le _ _ _ _ _ M3)].
    + apply (keeps_trans _ _ _ s2); [eapply moves_keeps; [exact M2|lia]|eapply moves_keeps; [exact M3|lia]].
    + apply (keeps_trans _ _ _ s5); [eapply moves_keeps; [exact M5|lia]|eapply keeps_patch; [exact M6|lia]].
  - rewrite <- N1. apply K2; [cbn [List.length]; rewrite drop_0; eapply stands_le; [exact (moves_le _ _ _ _ _ M1)|exact S]|exact F2].
  - rewrite Q4, <- Q6. apply (jump_final (pl_chain P) G (pos s) o2 C [] [] s2 j2 s3 s5 s' s'); auto using le_refl, keeps_refl; try lia.
    + eapply le_trans0; [exact (pt_le _ _ _ _ M4)|exact L5].
    + apply (keeps_trans _ _ _ s4); [eapply keeps_patch; [exact M4|lia]|eapply moves_keeps; [exact M5|lia]].
  - rewrite <- N4. apply K5; [cbn [List.length]; rewrite drop_0; eapply stands_le; [exact L04|exact S]|exact F5].
Qed.

(** ** Chains *)
Definition moving {A} (D C : list string) (n : nat) (m : M A) : Prop := forall s a s', wf s -> m s = Ok (a, s') -> moves D C n s s'.
Lemma EE_null_exit P C : pl_chain P = Spine -> EE P C 0 null_exit (fun G _ _ p q => exists t, g_null G = Some t /\ jumps (g_bc G) OpJumpIfFalse p q t).
Proof.
  intros HP s a s' W PL E. unfold placed in PL. rewrite HP in PL. pose proof (null_exit_spec (pos s) C (kind_names (kind s)) s a s' W (le_n _) PL E) as X.
  destruct X as (W' & M & B & N). split; [split; [exact W'|eexists; exact M|exact B|lia]|].
  intros G S F. cbn [List.length] in S. rewrite drop_0 in S. pose proof (st_null _ _ _ S) as SN. rewrite HP in SN. destruct (g_null G) as [t|] eqn:EG; [|congruence]. exists t. split; [reflexivity|].
  destruct (null_exit_ok _ _ _ W E) as (s1 & E1 & ES'). destruct (jump_ok _ _ _ _ W E1) as (_ & P1 & W1 & ES1).
  assert (PS : pos s' = pos s + 3) by (rewrite ES'; exact P1). rewrite PS. destruct (tame_len _ _ _ _ _ F) as (T1 & T2).
  assert (CE : cc_exits (call_of s') = cc_exits (call_of s) ++ [Datatypes.S (pos s)]) by (rewrite ES'; reflexivity).
  apply goes_jumps; [reflexivity|exact T1| |].
  - rewrite <- (f_bytes _ _ _ _ _ F); [|lia|].
    + rewrite ES'. change (nth_error (data s1) (pos s) = Some (opcode_to_byte OpJumpIfFalse)). rewrite ES1. unfold data at 1, top. cbn [cs_stack hd set_asm cx_asm asm_data].
      rewrite nth_error_app2 by (unfold pos; lia). replace (pos s - List.length (data s)) with 0 by (unfold pos; lia). reflexivity.
    + intros (x & [H|H] & K).
      * assert (pend s x) as Y. { exists x. split; [left|auto]. rewrite ES' in H. rewrite (loops_call _ s1 W1) in H. rewrite ES1 in H. exact H. }
        assert (pend s (Datatypes.S x)) as Y2 by (destruct Y as (x0 & Y0 & Y1); exists x; split; [left; rewrite ES' in H; rewrite (loops_call _ s1 W1) in H; rewrite ES1 in H; exact H|auto]).
        apply (pend_low lit _ _ W) in Y. apply (pend_low lit _ _ W) in Y2. destruct K; lia.
      * rewrite CE, in_app_iff in H. destruct H as [H|[<-|[]]]; [pose proof (call_bounds s x W H); destruct K; lia|destruct K; lia].
  - apply (f_null _ _ _ _ _ F t HP EG); [|lia]. rewrite CE, in_app_iff. right. left. reflexivity.
Qed.
Lemma entry_call k s : wf s -> loop_entry (with_call k s) = loop_entry s.
Proof. intros W. unfold loop_entry. rewrite (scopes_eta s W). cbn [with_call with_head with_scopes scopes top cs_stack hd set_scopes cx_scopes ss_scopes find]. unfold is_loop. cbn [set_call sc_kind]. destruct (scope_kind_eqb (sc_kind (head s)) KLoop); reflexivity. Qed.
Lemma vars_call k s : wf s -> all_vars (scopes (with_call k s)) = all_vars (scopes s).
Proof. intros W. rewrite (scopes_eta s W). reflexivity. Qed.
Lemma static_call c c' G G' b k s : wf s -> g_bc G' = g_bc G -> g_vars G' = g_vars G -> g_ups G' = g_ups G -> g_outer G' = g_outer G -> g_fn G' = g_fn G -> g_loop G' = g_loop G ->
  (forall z, c' = Spine -> g_null G' = Some z -> forall x, In x (cc_exits (call_of s)) -> b <= x -> goes (g_bc G) x z) -> static c G b (with_call k s) -> static c' G' b s.
Proof.
  intros W E1 E2 E3 E4 E5 E6 HC [F1 F2 F3 F4 F5 F6 F7 F8 F9 F11 F12]. rewrite (vars_call _ _ W) in F6. split; rewrite ?E1, ?E2, ?E3, ?E4, ?E5; auto.
  rewrite E6. intros l El. rewrite (entry_call _ _ W), (loops_call _ _ W) in F11. apply F11. exact El.
Qed.
Lemma hd_loops s x : In x (hd [] (loops (scopes s))) -> exists e, In e (loops (scopes s)) /\ In x e.
Proof. destruct (loops (scopes s)) as [|e r]; [intros []|]. intros H. exists e. split; [left; auto|exact H]. Qed.
Lemma hd_cross s x y : wf s -> In x (hd [] (loops (scopes s))) -> In y (cc_exits (call_of s)) -> x + 2 <= y \/ y + 2 <= x.
Proof. intros W Hx Hy. destruct (hd_loops _ _ Hx) as (e & He & Xe). exact (call_cross s e W He x y Xe Hy). Qed.
Lemma EE_in_call P C n m R : moving [] C n (in_call m) -> EE (target_of P) C n m R -> EE P C n (in_call m) (fun G k _ p q => R (g_tgt q G) k tt p q).
Proof.
  intros MV H s a s' W PL E. pose proof (MV _ _ _ W E) as MM. split; [exact MM|]. intros G S F. cbn [List.length] in S. rewrite drop_0 in S.
  unfold in_call in E. apply bind_ok in E. destruct E as (u & s1 & E1 & E). apply bind_ok in E. destruct E as ([] & s2 & E2 & E3).
  apply (update_top_ok _ _ _ _ W) in E1. fold (with_call (CallContext (Datatypes.S (cc_depth (call_of s))) (cc_exits (call_of s))) s) in E1.
  assert (W1 : wf s1). { subst s1. apply call_wf; [exact W| |discriminate|apply call_apart; exact W|intros e He; apply call_cross; auto]. intros x. apply call_bounds. exact W. }
  assert (PL1 : placed (target_of P) s1). { subst s1. unfold placed. cbn [target_of pl_chain]. destruct (pl_chain P); cbn [on_spine]; cbn; lia. }
  destruct (H _ _ _ W1 PL1 E2) as (M2 & K2). pose proof (mv_wf _ _ _ _ _ M2) as W2. destruct (mv_mono _ _ _ _ _ M2) as (N2 & O2).
  destruct (m_head _ _ _ _ _ O2) as (_ & (CD & new & CE & CF) & _). change (sc_call (head s2)) with (call_of s2) in CD, CE. rewrite E1 in CD, CE, CF.
  cbn [with_call with_head with_scopes head scopes top cs_stack hd set_scopes cx_scopes ss_scopes set_call sc_call cc_depth cc_exits] in CD, CE. change (sc_call (head s)) with (call_of s) in CD, CE.
  assert (PS : pos s1 = pos s) by (subst s1; reflexivity). assert (NI : cs_next_id s1 = cs_next_id s) by (subst s1; reflexivity).
  assert (S1 : stands (target_of P) (g_tgt (pos s') G) s1).
  { destruct S as [S1 S2 S3 S4 S5]. subst s1. split; auto. cbn [target_of pl_chain]. destruct (pl_chain P); cbn [on_spine g_tgt g_null]; auto; destruct (g_null G); discriminate. }
  unfold exit_call in E3. apply bind_ok in E3. destruct E3 as (sc & s3 & E3 & E4). apply top_scope_ok in E3. destruct E3 as (-> & ->). fold (call_of s2) in E4. rewrite CD in E4. change (sc_call (head s)) with (call_of s) in E4.
  rewrite <- PS, <- NI. destruct (cc_depth (call_of s)) as [|d] eqn:Ed.
  - assert (HP : pl_chain P = Fresh) by (unfold placed in PL; destruct (pl_chain P); auto; rewrite Ed in PL; lia).
    apply bind_ok in E4. destruct E4 as (u3 & s3 & E3 & E4). apply (update_top_ok _ _ _ _ W2) in E3. fold (with_call (CallContext 0 []) s2) in E3.
    rewrite (call_depth s W Ed) in CE. cbn [app] in CE.
    assert (W3 : wf s3) by (subst s3; apply call_wf; [exact W2|intros x []|auto|apply apart_nil|intros; apply cross_nil]).
    pose proof (patches_step C _ _ _ _ W3 (call_apart s2 W2) E4) as PA. pose proof (pa_wf _ _ _ _ PA) as W4. pose proof (pa_pos _ _ _ _ PA) as QP.
    assert (Q3 : pos s3 = pos s2) by (subst s3; reflexivity). destruct (tame_len _ _ _ _ _ F) as (T1 & T2).
    pose proof (static_le0 lit _ C G (pos s) (pos s) s3 s' W3 W4 (pa_le _ _ _ _ PA) (le_n _) F) as F3.
    replace (pos s') with (pos s2) by lia. apply K2; [cbn [List.length]; rewrite drop_0, <- Q3, <- QP; exact S1|]. cbn [target_of pl_chain]. rewrite HP. cbn [on_spine].
    assert (NPL : forall i, pos s <= i -> pend s3 i -> pend s2 i).
    { intros i Hi (x & [X|X] & Y); rewrite E3 in X; [|destruct X]. exists x. split; [left; rewrite (loops_call _ _ W2) in X; exact X|exact Y]. }
    assert (CS : forall x, In x (cc_exits (call_of s2)) -> x + 2 <= pos s2) by (intros x; apply call_bounds; exact W2).
    assert (NPC : forall i, In i (cc_exits (call_of s2)) -> pos s <= i -> forall k, k = i \/ k = Datatypes.S i -> ~ pend s' k).
    { intros i Hi Li k Hk X. apply (pend_le _ _ _ _ _ (pa_le _ _ _ _ PA)) in X; [|pose proof (CS i Hi); lia].
      destruct X as (x & [X|X] & Y); rewrite E3 in X; [|destruct X]. rewrite (loops_call _ _ W2) in X. destruct (hd_cross s2 x i W2 X Hi); destruct Hk; destruct Y; lia. }
    split.
    + rewrite PS. subst s3. eapply (static_call (pl_chain P) _ G); [exact W2|reflexivity..| |exact F3].
      intros z _ Ez x Hx Lx. assert (g_null G = None) as GN by (pose proof (st_null _ _ _ S) as X; rewrite HP in X; exact X). cbn [g_tgt g_null] in Ez. rewrite GN in Ez. injection Ez as <-.
      split; [pose proof (CS x Hx); lia|]. split; [pose proof (f_len _ _ _ _ _ F); lia|]. destruct (pa_set _ _ _ _ PA ltac:(lia) x Hx) as (X1 & X2). rewrite Q3 in X1, X2. pose proof (CS x Hx).
      split; rewrite <- (f_bytes _ _ _ _ _ F); try lia; eauto.
    + rewrite PS. intros i Hi NP. cbn [g_tgt g_bc]. rewrite <- (f_bytes _ _ _ _ _ F); [|lia|].
      * rewrite (pa_same _ _ _ _ PA). { subst s3. reflexivity. } intros j Hj. split; intros ->; apply NP; exists j; auto.
      * intros X. apply (pend_le _ _ _ _ _ (pa_le _ _ _ _ PA)) in X; [|lia]. apply NP. apply NPL; [lia|exact X].
  - assert (HP : pl_chain P <> Fresh) by (unfold placed in PL; destruct (pl_chain P); try discriminate; rewrite Ed in PL; lia).
    apply (update_top_ok _ _ _ _ W2) in E4. fold (with_call (CallContext (Datatypes.S d) (cc_exits (call_of s2))) s2) in E4.
    assert (Q3 : pos s' = pos s2) by (subst s'; reflexivity). rewrite Q3 in *. apply K2; [cbn [List.length]; rewrite drop_0; exact S1|]. cbn [target_of pl_chain].
    split.
    + rewrite PS. eapply (static_call (pl_chain P) _ G); [exact W2|reflexivity..| |rewrite <- E4; exact F].
      intros z HS Ez x Hx Lx. assert (pl_chain P = Spine) as HS' by (destruct (pl_chain P); auto; try discriminate; congruence).
      assert (g_null G = Some z) as Ez' by (pose proof (st_null _ _ _ S) as X; rewrite HS' in X; cbn [g_tgt g_null] in Ez; destruct (g_null G); [exact Ez|congruence]).
      apply (f_null _ _ _ _ _ F z HS' Ez'); [rewrite E4; exact Hx|exact Lx].
    + rewrite PS. intros i Hi NP. cbn [g_tgt g_bc]. rewrite <- (f_bytes _ _ _ _ _ F); [rewrite E4; reflexivity|lia|].
      intros (x & X & Y). apply NP. exists x. split; [|exact Y]. rewrite E4 in X. rewrite (loops_call _ _ W2) in X. exact X.
Qed.

(** ** Arguments *)
Lemma fits_temps c G b t s : fits c G b (with_temps t s) <-> fits c G b s.
Proof. split; intros [[F1 F2 F3 F4 F5 F6 F7 F8 F9 F11 F12] FB]; split; [split|exact FB|split|exact FB]; assumption. Qed.
Lemma arg_null P G s : stands (arg_of P) G s -> g_null G = None.
Proof. intros S. exact (st_null _ _ _ S). Qed.
Lemma stands_temps P G t s s' C : (forall t, le [] C (with_temps t s) (with_temps t s')) -> stands P G (with_temps t s) -> stands P G (with_temps t s').
Proof. intros L. apply stands_le with (C := C). apply L. Qed.
Definition moves_but (C : list string) (n : nat) (s s' : cstate) : Prop :=
  wf s' /\ (forall t, le [] C (with_temps t s) (with_temps t s')) /\ below (pos s) s s' /\ cs_next_id s' = cs_next_id s + n.
Lemma fits_but c C G b b1 s s' : wf s -> wf s' -> (forall t, le [] C (with_temps t s) (with_temps t s')) -> keeps b1 (pos s) s s' -> b <= b1 -> fits c G b s' -> fits c G b1 s.
Proof.
  intros W W' L K B F. apply (fits_temps _ _ _ 0). eapply fits_le0; [apply temps_wf; exact W|apply temps_wf; exact W'|apply L|exact K|exact B|]. apply (fits_temps _ _ _ 0). exact F.
Qed.
Lemma but_pos C s s' : (forall t, le [] C (with_temps t s) (with_temps t s')) -> pos s <= pos s'.
Proof. intros L. exact (le_pos _ _ _ _ (L 0)). Qed.
Lemma isolated_code P C e R : (forall b N, incl (names e) N -> T b [] C N (fns e) (visit e) (fun _ => True)) -> EE (arg_of P) C (fns e) (visit e) R ->
  forall s u s', wf s -> visit_isolated visit e s = Ok (u, s') -> moves_but C (fns e) s s' /\ temps s' = Datatypes.S (temps s) /\
    forall c G, stands (arg_of P) G (with_temps (Datatypes.S (temps s)) s) -> fits c G (pos s) s' -> R G (cs_next_id s) tt (pos s) (pos s').
Proof.
  intros HT H s u s' W E. destruct (isolated_spec visit (pos s) C (names e ++ kind_names (kind s)) (fns e) e (HT _ _ (incl_appl _ (incl_refl _))) s u s' W (le_n _) (incl_appr _ (incl_refl _)) E) as (W' & M & TM & B & NI).
  split; [split; [exact W'|split; [intros t; eexists; apply M|auto]]|]. split; [exact TM|]. intros c G S F.
  destruct (isolated_ok visit _ _ _ _ W E) as (s2 & s3 & W2 & E2 & E3 & E4).
  assert (PL : placed (arg_of P) s2) by (subst s2; reflexivity).
  destruct (H _ _ _ W2 PL E3) as (M3 & K3). pose proof (mv_wf _ _ _ _ _ M3) as W3. specialize (E4 W3).
  assert (Q : pos s' = pos s3) by (rewrite E4; reflexivity). assert (P2 : pos s2 = pos s) by (rewrite E2; reflexivity). assert (N2 : cs_next_id s2 = cs_next_id s) by (rewrite E2; reflexivity).
  rewrite Q, <- P2, <- N2. apply K3.
  - cbn [List.length]. rewrite drop_0. destruct S as [S1 S2 S3 S4 S5]. subst s2. split; auto.
  - cbn [arg_of pl_chain]. split.
    + eapply (static_call c Fresh G); [exact W3|reflexivity..|discriminate|rewrite P2; rewrite <- E4; exact F].
    + intros i Hi NP. rewrite <- (f_bytes _ _ _ _ _ F); [rewrite E4; reflexivity|lia|]. intros (x & [X|X] & Y).
      * apply NP. exists x. split; [left|exact Y]. rewrite E4 in X. rewrite (loops_call _ _ W3) in X. exact X.
      * rewrite E4 in X. change (In x (cc_exits (call_of s))) in X. pose proof (call_bounds s x W X). destruct Y; lia.
Qed.
Lemma args_code P C (cd : ctx -> nat -> expr -> nat -> nat -> Prop) args : (forall e, In e args -> (forall b N, incl (names e) N -> T b [] C N (fns e) (visit e) (fun _ => True)) /\ EE (arg_of P) C (fns e) (visit e) (fun G k _ p q => cd G k e p q)) ->
  forall s u s', wf s -> each (visit_isolated visit) args s = Ok (u, s') -> moves_but C (list_sum (map fns args)) s s' /\
    forall c G, stands (arg_of P) G (with_temps (Datatypes.S (temps s)) s) -> fits c G (pos s) s' -> list_code cd G (cs_next_id s) args (pos s) (pos s').
Proof.
  induction args as [|e args IH]; intros H s u s' W E; cbn [each] in E.
  - injection E as _ <-. split; [|reflexivity]. split; [exact W|]. split; [intros; apply le_refl|]. split; [intros i _; reflexivity|cbn; lia].
  - apply bind_ok in E. destruct E as (u1 & s1 & E1 & E2). destruct (H e (or_introl eq_refl)) as (HT & HE).
    destruct (isolated_code P C e _ HT HE s u1 s1 W E1) as ((W1 & L1 & B1 & N1) & T1 & K1). pose proof (but_pos _ _ _ L1) as Q1.
    destruct (IH (fun x Hx => H x (or_intror Hx)) s1 u s' W1 E2) as ((W2 & L2 & B2 & N2) & K2). split.
    + split; [exact W2|]. split; [intros t; eapply le_trans0; [apply L1|apply L2]|]. split; [intros i Hi; rewrite B2, B1 by lia; reflexivity|]. cbn [map list_sum fold_right]. fold (list_sum (map fns args)). lia.
    + intros c G S F. cbn [list_code]. exists (pos s1). split.
      * apply (K1 c); [exact S|]. eapply fits_but; [exact W1|exact W2|exact L2|eapply below_keeps; [apply le_n|exact B2]|apply le_n|exact F].
      * rewrite <- N1. apply (K2 Fresh); [|apply fits_deep with (c := c); [discriminate|eapply fits_base; [exact Q1|exact F]]].
        destruct S as [S1 S2 S3 S4 S5]. assert (KE : kind s1 = kind s) by (destruct (L1 0) as (N & M); exact (m_kind _ _ _ _ _ M)). split; auto.
        -- intros X. destruct (S1 X) as (r & Hr). exists r. change (role_of (kind s1) = Some r). rewrite KE. exact Hr.
        -- intros X. specialize (S2 X). cbn [with_temps temps top cs_stack hd set_temps cx_temps g_deep g_depth] in *. fold (temps s1). lia.
        -- discriminate.
        -- intros l El. destruct (S4 l El) as (X1 & X2). split; [exact X1|]. intros t Et. change (t <= pos s1). specialize (X2 t Et). change (t <= pos s) in X2. lia.
        -- reflexivity.
Qed.
Lemma EE_call_args P C cd args : (forall e, In e args -> (forall b N, incl (names e) N -> T b [] C N (fns e) (visit e) (fun _ => True)) /\ EE (arg_of P) C (fns e) (visit e) (fun G k _ p q => cd G k e p q)) ->
  EE P C (list_sum (map fns args)) (visit_call_args visit args) (fun G k _ p q => list_code cd (g_deep 1 G) k args p q).
Proof.
  intros H s u s' W PL E. split.
  { pose proof (T_moves (flat_map names args) [] C (list_sum (map fns args)) (visit_call_args visit args) (fun _ => True) s u s') as X. destruct X as (X & _); auto. intros b N HN. apply T_call_args. intros e He. apply H; [exact He|].
    intros y Hy. apply HN. apply in_flat_map. eauto. }
  intros G S F. cbn [List.length] in S. rewrite drop_0 in S. unfold visit_call_args in E. apply bind_ok in E. destruct E as (n & s1 & E1 & E). apply get_temps_ok in E1. destruct E1 as (-> & ->).
  apply bind_ok in E. destruct E as (u2 & s2 & E2 & E3). apply put_temps_ok in E3. subst s'. apply (proj1 (fits_temps _ _ _ _ _)) in F.
  destruct (args_code P C cd args H s u2 s2 W E2) as ((W2 & L2 & B2 & N2) & K2). apply (K2 Fresh); [|apply fits_deep with (c := pl_chain P); [discriminate|exact F]].
  destruct S as [S1 S2 S3 S4 S5]. split; auto; [|discriminate|reflexivity]. intros X. specialize (S2 X). cbn [with_temps temps top cs_stack hd set_temps cx_temps g_deep g_depth]. lia.
Qed.
Lemma EE_index_arg P C n i R : (forall b N, incl (names i) N -> T b [] C N (fns i) (visit i) (fun _ => True)) -> n = fns i -> EE (arg_of P) C (fns i) (visit i) R ->
  EE P C n (bind (visit_isolated visit i) (fun _ => bind get_temps (fun n => put_temps (n - 1)))) (fun G k _ p q => R (g_deep 1 G) k tt p q).
Proof.
  intros HT -> H s u s' W PL E. apply bind_ok in E. destruct E as (u1 & s1 & E1 & E). apply bind_ok in E. destruct E as (n & s2 & E2 & E3). apply get_temps_ok in E2. destruct E2 as (-> & ->). apply put_temps_ok in E3.
  destruct (isolated_code P C i R HT H s u1 s1 W E1) as ((W1 & L1 & B1 & N1) & T1 & K1). rewrite T1 in E3. replace (Datatypes.S (temps s) - 1) with (temps s) in E3 by lia. split.
  - split; [subst s'; apply temps_wf; exact W1| |subst s'; exact B1|subst s'; exact N1]. subst s'. pose proof (L1 (temps s)) as X. rewrite (with_temps_id s W) in X. exact X.
  - intros G S F. cbn [List.length] in S. rewrite drop_0 in S. subst s'. apply (proj1 (fits_temps _ _ _ _ _)) in F. apply (K1 Fresh); [|apply fits_deep with (c := pl_chain P); [discriminate|exact F]].
    destruct S as [S1 S2 S3 S4 S5]. split; auto; [|discriminate|reflexivity]. intros X. specialize (S2 X). cbn [with_temps temps top cs_stack hd set_temps cx_temps g_deep g_depth]. lia.
Qed.
End Units.
