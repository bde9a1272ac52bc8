(** What blocks and loops leave in the finished bytecode. *)
From Verif.Model Require Import Compiler.
From Verif.Spec Require Import Encoding SupportSpec.
From Verif.Proofs Require Import ExprInd ReachP CodeP CodecP AssemblerP PoolP WellFormedP WellFormedPrimP CaptureP StackP EmitP VisitMonoP FitsP JumpsP.
#[local] Open Scope string_scope.
#[local] Open Scope list_scope.
#[local] Open Scope nat_scope.

Lemma agree_flags vs : agree vs (map flag_of vs).
Proof. induction vs as [|v vs IH]; constructor; auto. Qed.
Lemma agree_join a b g h : agree a g -> agree b h -> agree (a ++ b) (g ++ h).
Proof. apply Forall2_app. Qed.
Definition own (s : cstate) : vars := map flag_of (sc_vars (head s)).
Lemma own_spec D C N k e s s2 : mono D C N (pushed k e s) s2 -> map fst (own s2) = D /\ (forall x, In (x, true) (own s2) -> In x C).
Proof.
  intros M. destruct (m_head _ _ _ _ _ M) as (_ & _ & new & old & E & ED & F & O). assert (old = []) as -> by (inversion O; reflexivity). rewrite app_nil_r in E. unfold own. rewrite E. split.
  - rewrite map_map. exact ED.
  - intros x Hx. apply in_map_iff in Hx. destruct Hx as (v & Ev & Hv). rewrite Forall_forall in F. specialize (F v Hv). injection Ev as <- Hc. auto.
Qed.
Lemma own_length D C N k e s s2 : mono D C N (pushed k e s) s2 -> List.length (own s2) = List.length D.
Proof. intros M. destruct (own_spec _ _ _ _ _ _ _ M) as (<- & _). rewrite map_length. reflexivity. Qed.
Lemma popped_scopes s : scopes (popped s) = tl (scopes s). Proof. reflexivity. Qed.
Lemma popped_pos s : pos (popped s) = pos s. Proof. reflexivity. Qed.
Lemma popped_data s : data (popped s) = data s. Proof. reflexivity. Qed.
Lemma popped_next s : cs_next_id (popped s) = cs_next_id s. Proof. reflexivity. Qed.
Lemma popped_loops k s : wf s -> sc_kind (head s) = k -> loops (scopes s) = match k with KLoop => [sc_exits (head s)] | KBlock => [] end ++ loops (scopes (popped s)).
Proof. intros W K. rewrite (scopes_eta s W). unfold loops. cbn [filter]. unfold is_loop at 1. rewrite K. destruct k; reflexivity. Qed.
Lemma popped_entry k s : wf s -> sc_kind (head s) = k -> loop_entry s = match k with KLoop => Some (sc_entry (head s)) | KBlock => loop_entry (popped s) end.
Proof. intros W K. unfold loop_entry at 1. rewrite (scopes_eta s W). cbn [find]. unfold is_loop at 1. rewrite K. destruct k; reflexivity. Qed.
Lemma popped_call D C N k e s s2 : wf s -> wf s2 -> mono D C N (pushed k e s) s2 -> call_of (popped s2) = call_of s.
Proof.
  intros W W2 M. pose proof (m_tail _ _ _ _ _ M) as TL. change (tl (scopes (pushed k e s))) with (scopes s) in TL. unfold call_of, head. rewrite popped_scopes. rewrite (scopes_eta s W) in TL |- *.
  inversion TL as [|? ? ? ? (_ & X & _) _ E1 E2]; subst. cbn [hd]. exact X.
Qed.

Section Scopes.
Variable lit : nat -> fn_bytecode.
Local Notation fits := (fits lit).
Local Notation static := (static lit).
Local Notation ED := (ED lit).
Local Notation EE := (EE lit).

Lemma static_pop c G b D C N k e lo n s s2 : wf s -> wf s2 -> mono D C N (pushed k e s) s2 -> b <= pos s -> static c G b (popped s2) ->
  (k = KBlock -> lo = g_loop G) ->
  (k = KLoop -> forall l, lo = Some l -> lp_next l = e /\ forall x, In x (sc_exits (head s2)) -> goes (g_bc G) x (lp_break l)) ->
  static Fresh (with_loop lo (extend (own s2) (g_deep n G))) (pos s) s2.
Proof.
  intros W W2 M B [F1 F2 F3 F4 F5 F6 F7 F8 F9 F11 F12] HB HL. pose proof (popped_spec _ _ _ _ _ _ _ W W2 M) as (WP & MP & _ & KH).
  assert (EN : sc_entry (head s2) = e) by (destruct (m_head _ _ _ _ _ M) as ((_ & _ & X) & _); exact X).
  split; cbn [with_loop extend g_deep g_bc g_vars g_ups g_outer g_fn g_loop g_null g_depth]; auto; [|rewrite (popped_entry k s2 W2 KH)|discriminate].
  - rewrite (scopes_eta s2 W2). cbn [all_vars flat_map]. apply agree_join; [apply agree_flags|exact F6].
  - rewrite (popped_loops k s2 W2 KH). destruct k; cbn [app hd]; intros l El.
    + rewrite HB in El by reflexivity. destruct (F11 l El) as (X1 & X2). split; [exact X1|]. intros x Hx Lx. apply X2; [exact Hx|lia].
    + destruct (HL eq_refl l El) as (X1 & X2). split; [congruence|]. intros x Hx _. auto.
Qed.
(** Pending jumps after the scope are pending ones of the scope, or older. *)
Lemma pend_popped D C N k e s s2 i : wf s -> wf s2 -> mono D C N (pushed k e s) s2 -> pos s <= i -> pend (popped s2) i -> k = KBlock /\ pend s2 i.
Proof.
  intros W W2 M L (x & H & K). pose proof (popped_spec _ _ _ _ _ _ _ W W2 M) as (WP & MP & _ & KH). rewrite (popped_call _ _ _ _ _ _ _ W W2 M) in H.
  destruct H as [H|H].
  - destruct k.
    + split; [auto|]. exists x. split; [left|exact K]. rewrite (popped_loops _ _ W2 KH). exact H.
    + exfalso. assert (LL : loops (scopes (popped s2)) = loops (scopes s)).
      { pose proof (m_loops _ _ _ _ _ M) as LL. rewrite pushed_loops, (popped_loops _ _ W2 KH) in LL. cbn [app loops_le] in LL. apply LL. }
      rewrite LL in H. apply hd_loops in H. destruct H as (l & H1 & H2). pose proof (wf_loops s W l x H1 H2). destruct K; lia.
  - exfalso. pose proof (call_bounds s x W H). destruct K; lia.
Qed.
Lemma depth_none s i : wf s -> cc_depth (call_of s) = 0 -> pend s i -> exists x, In x (hd [] (loops (scopes s))) /\ (i = x \/ i = S x).
Proof.
  intros W D (x & [H|H] & K); [eauto|]. assert (cc_exits (call_of s) = []) as X by (apply (wf_depth s W (head s)); [rewrite (scopes_eta s W); left; auto|exact D]). rewrite X in H. destruct H.
Qed.
Lemma pushed_depth D C N k e s s2 : mono D C N (pushed k e s) s2 -> cc_depth (call_of s2) = 0.
Proof. intros M. destruct (m_head _ _ _ _ _ M) as (_ & (X & _) & _). exact X. Qed.
Lemma fits_pop c G b D C N e n s s2 : wf s -> wf s2 -> mono D C N (pushed KBlock e s) s2 -> b <= pos s -> fits c G b (popped s2) ->
  fits Fresh (extend (own s2) (g_deep n G)) (pos s) s2.
Proof.
  intros W W2 M B F. split.
  - apply (static_pop c G b D C N KBlock e (g_loop G) n s s2 W W2 M B F); [auto|discriminate].
  - intros i Hi NP. rewrite <- popped_data. apply (f_bytes _ _ _ _ _ F); [rewrite popped_pos; lia|]. intros X. apply NP. eapply pend_popped in X; [exact (proj2 X)|exact W|exact W2|exact M|lia].
Qed.

(** Closing the captured variables of a scope. *)
Lemma EE_each {A} P C (f : A -> M unit) (Q : ctx -> A -> nat -> nat -> Prop) (R : ctx -> list A -> nat -> nat -> Prop) l : (forall x, In x l -> EE P C 0 (f x) (fun G _ _ p q => Q G x p q)) ->
  (forall G p, R G [] p p) -> (forall G x r p p1 q, Q G x p p1 -> R G r p1 q -> R G (x :: r) p q) -> EE P C 0 (each f l) (fun G _ _ p q => R G l p q).
Proof.
  intros H H1 H2. induction l as [|x l IH]; cbn [each].
  - eapply ED_post; [apply ED_ret|]. cbn beta. intros G k a p q (_ & ->). apply H1.
  - eapply (EE_then lit 0 0); [apply H; left; reflexivity|apply IH; intros y Hy; apply H; right; exact Hy|reflexivity|]. cbn beta. eauto.
Qed.
Definition closing (vs : list scope_var) : list nat := flat_map (fun v => if sv_captured v then [u8_of (sv_slot v)] else []) (rev vs).
Lemma closes_app bc l1 l2 p q : closes bc (l1 ++ l2) p q <-> exists p1, closes bc l1 p p1 /\ closes bc l2 p1 q.
Proof.
  revert p. induction l1 as [|x l IH]; cbn [closes app]; intros p.
  - split; [eauto|]. intros (p1 & -> & H). exact H.
  - split.
    + intros (p1 & H1 & H2). apply IH in H2. destruct H2 as (p2 & H2 & H3). eauto.
    + intros (p1 & (p2 & H1 & H2) & H3). exists p2. split; [exact H1|]. apply IH. eauto.
Qed.
Lemma EE_close_vars P C vs : EE P C 0 (close_vars vs) (fun G _ _ p q => closes (g_bc G) (closing vs) p q).
Proof.
  unfold close_vars, closing. apply (EE_each P C _ (fun G v p q => closes (g_bc G) (if sv_captured v then [u8_of (sv_slot v)] else []) p q)
    (fun G l p q => closes (g_bc G) (flat_map (fun v => if sv_captured v then [u8_of (sv_slot v)] else []) l) p q)).
  - intros v _. destruct (sv_captured v).
    + eapply ED_post; [apply EE_emit_u8; reflexivity|]. cbn beta. intros G k a p q H. exists q. split; [exact H|reflexivity].
    + eapply ED_post; [apply ED_ret|]. cbn beta. intros G k a p q (_ & ->). reflexivity.
  - reflexivity.
  - cbn [flat_map]. intros G v r p p1 q H1 H2. apply closes_app. eauto.
Qed.
Lemma closing_flagged vs (r : list scope_var) : numbered (vs ++ r) -> List.length (vs ++ r) <= 256 -> closing vs = flagged (List.length r) (map flag_of vs).
Proof.
  intros N L. induction vs as [|v vs IH]; [reflexivity|]. cbn [map flag_of flagged]. cbn [app numbered] in N. destruct N as (N1 & N2). cbn [app List.length] in L. unfold closing in *. cbn [rev]. rewrite flat_map_app. rewrite IH by (auto; lia).
  f_equal. cbn [flat_map]. rewrite app_nil_r. destruct (sv_captured v); [|reflexivity]. rewrite map_length, N1, app_length. rewrite u8_small by (rewrite app_length in L; lia). f_equal. lia.
Qed.

Lemma close_scopes vs s u s' : close_vars vs s = Ok (u, s') -> scopes s' = scopes s.
Proof.
  unfold close_vars. generalize (rev vs) as l. intros l. revert s. induction l as [|v l IH]; cbn [each]; intros s E.
  - injection E as _ <-. reflexivity.
  - apply bind_ok in E. destruct E as (u1 & s1 & E1 & E2). rewrite (IH _ E2). destruct (sv_captured v); [|injection E1 as _ <-; reflexivity].
    apply on_asm_with in E1. destruct E1 as (asm & _ & ->). reflexivity.
Qed.
Lemma close_ok s u s' : visit_close_upvalues s = Ok (u, s') -> close_vars (sc_vars (head s)) s = Ok (u, s').
Proof. intros E. unfold visit_close_upvalues in E. apply bind_ok in E. destruct E as (sc & s1 & E1 & E2). apply top_scope_ok in E1. destruct E1 as (-> & ->). exact E2. Qed.
Lemma own_closing D C N k e c G b s s2 : wf s2 -> mono D C N (pushed k e s) s2 -> static c G b s2 -> g_vars G = own s2 ++ skipn (List.length D) (g_vars G) ->
  closing (sc_vars (head s2)) = flagged (List.length (g_vars G) - List.length D) (own s2).
Proof.
  intros W2 M F E. pose proof (own_length _ _ _ _ _ _ _ M) as OL. pose proof (f_vars _ _ _ _ _ F) as A. pose proof (top_numbered s2 W2) as N2. rewrite (scopes_eta s2 W2) in A, N2. cbn [all_vars flat_map] in A, N2.
  pose proof (F2_length _ _ _ A) as LA. rewrite app_length in LA. unfold own in OL. rewrite map_length in OL.
  rewrite (closing_flagged _ _ N2).
  - f_equal. lia.
  - rewrite app_length. pose proof (f_tame _ _ _ _ _ F) as TM. inversion TM as [bc L1 L2 L3 L4 EQ]. pose proof (f_slots _ _ _ _ _ F). pose proof (wf_all _ W2) as WA. rewrite (stack_eta s2 W2) in WA. cbn [cs_stack] in WA. inversion WA as [|? ? [B1 B2 B3 B4] _ EQ2]; subst.
    unfold cvars in B3. fold (scopes s2) in B3. fold (slot_count s2) in B3. rewrite (scopes_eta s2 W2) in B3. cbn [all_vars flat_map] in B3. rewrite app_length in B3. lia.
Qed.
(** A block, or the body of a function: [tail] comes after the variables are closed. *)
Lemma EE_block_tail P D C n (m tail : M unit) R R' : (forall s u s', wf s -> tail s = Ok (u, s') -> scopes s' = scopes s) ->
  moving [] C n (bind (m_push_scope KBlock None) (fun _ => bind m (fun _ => bind visit_close_upvalues (fun _ => bind tail (fun _ => bind m_pop_scope (fun _ => ret tt)))))) ->
  ED (stmt_of P) D C n m R -> EE (stmt_of P) C 0 tail R' ->
  EE P C n (bind (m_push_scope KBlock None) (fun _ => bind m (fun _ => bind visit_close_upvalues (fun _ => bind tail (fun _ => bind m_pop_scope (fun _ => ret tt))))))
    (fun G k _ p q => exists vs p1 p2, map fst vs = D /\ (forall x, In (x, true) vs -> In x C) /\ R (extend vs (g_in G)) k tt p p1 /\ closes (g_bc G) (flagged (List.length (g_vars G)) vs) p1 p2 /\
      R' (extend vs (g_in G)) (k + n) tt p2 q).
Proof.
  intros HT HM H H4 s a s' W PL E. split; [exact (HM _ _ _ W E)|]. intros G S F. cbn [List.length] in S. rewrite drop_0 in S.
  apply bind_ok in E. destruct E as (u0 & s1 & E1 & E). apply push_scope_ok in E1. apply bind_ok in E. destruct E as ([] & s2 & E2 & E). apply bind_ok in E. destruct E as (u3 & s3 & E3 & E). apply bind_ok in E. destruct E as ([] & s4 & E4 & E).
  apply bind_ok in E. destruct E as (sc & s5 & E5 & E6). injection E6 as _ <-. apply pop_scope_ok in E5. destruct E5 as (-> & ->).
  assert (W1 : wf s1) by (subst s1; apply pushed_wf; exact W).
  destruct (H _ _ _ W1 ltac:(subst s1; reflexivity) E2) as (M2 & K2). pose proof (mv_wf _ _ _ _ _ M2) as W2. pose proof (close_ok _ _ _ E3) as E3'.
  assert (PL2 : placed (stmt_of P) s2) by (destruct (mv_mono _ _ _ _ _ M2) as (N2 & O2); subst s1; exact (pushed_depth _ _ _ _ _ _ _ O2)).
  destruct (EE_close_vars (stmt_of P) C _ _ _ _ W2 PL2 E3') as (M3 & K3). pose proof (mv_wf _ _ _ _ _ M3) as W3.
  destruct (H4 _ _ _ W3 (placed_le _ _ _ _ _ (moves_le _ _ _ _ _ M3) PL2) E4) as (M4 & K4). pose proof (mv_wf _ _ _ _ _ M4) as W4.
  destruct (le_trans _ _ _ _ _ _ (le_trans _ _ _ _ _ _ (moves_le _ _ _ _ _ M2) (moves_le _ _ _ _ _ M3)) (moves_le _ _ _ _ _ M4)) as (N & O). cbn [app] in O. rewrite E1 in O.
  assert (SS : scopes s4 = scopes s2) by (rewrite (HT _ _ _ W3 E4); exact (close_scopes _ _ _ _ E3')).
  assert (OW : own s4 = own s2) by (unfold own, head; rewrite SS; reflexivity).
  pose proof (fits_pop _ _ _ _ _ _ _ 0 _ _ W W4 O (le_n _) F) as F4. fold (g_in G) in F4.
  assert (Q2 : pos s <= pos s2) by (pose proof (moves_pos _ _ _ _ _ M2) as X; rewrite E1 in X; exact X). assert (Q3 : pos s2 <= pos s3) by exact (moves_pos _ _ _ _ _ M3).
  destruct (own_spec _ _ _ _ _ _ _ O) as (O1 & O2). pose proof (own_length _ _ _ _ _ _ _ O) as OL.
  exists (own s4), (pos s2), (pos s3). split; [exact O1|]. split; [exact O2|].
  assert (ST : stands (stmt_of P) (drop (List.length D) (extend (own s4) (g_in G))) s1).
  { destruct S as [S1 S2 S3 S4 S5]. rewrite E1. rewrite <- OL. unfold drop. cbn [extend g_in g_deep g_bc g_vars g_ups g_outer g_fn g_loop g_null g_depth]. rewrite skipn_app, skipn_all, Nat.sub_diag. cbn [skipn app]. split; cbn [stmt_of pl_fn pl_exact pl_exit pl_chain g_fn g_loop g_depth g_vars g_null]; auto; rewrite Nat.add_0_r; auto. }
  assert (F3 : fits Fresh (extend (own s4) (g_in G)) (pos s) s3) by (eapply fits_le0; [exact W3|exact W4|exact (moves_le _ _ _ _ _ M4)|eapply moves_keeps; [exact M4|apply le_n]|apply le_n|exact F4]).
  assert (ST2 : stands (stmt_of P) (extend (own s4) (g_in G)) s2) by (destruct (moves_le _ _ _ _ _ M2) as (N2 & L2); eapply (stands_mono _ (List.length D)); [exact L2|exact ST]).
  split; [|split].
  - assert (PS : pos s1 = pos s) by (rewrite E1; reflexivity). assert (NS : cs_next_id s1 = cs_next_id s) by (rewrite E1; reflexivity). rewrite <- PS, <- NS. apply K2; [exact ST|].
    eapply fits_le0; [exact W2|exact W3|exact (moves_le _ _ _ _ _ M3)|eapply moves_keeps; [exact M3|apply le_n]| |exact F3]. lia.
  - assert (X : closes (g_bc G) (closing (sc_vars (head s2))) (pos s2) (pos s3)).
    { apply (K3 (extend (own s4) (g_in G))); [|eapply fits_base; [exact Q2|exact F3]]. cbn [List.length]. rewrite drop_0. exact ST2. }
    replace (closing (sc_vars (head s2))) with (flagged (List.length (g_vars G)) (own s4)) in X; [exact X|]. symmetry.
    assert (HE : closing (sc_vars (head s2)) = closing (sc_vars (head s4))) by (unfold head; rewrite SS; reflexivity). rewrite HE.
    rewrite (own_closing _ _ _ _ _ _ _ _ _ _ W4 O F4); cbn [extend g_in g_deep g_vars]; rewrite ?app_length, <- ?OL.
    + f_equal. lia.
    + rewrite skipn_app, skipn_all, Nat.sub_diag. reflexivity.
  - rewrite popped_pos. assert (NS : cs_next_id s + n = cs_next_id s3) by (pose proof (mv_next _ _ _ _ _ M2) as X; rewrite E1 in X; change (cs_next_id (pushed KBlock None s)) with (cs_next_id s) in X; pose proof (mv_next _ _ _ _ _ M3); lia). rewrite NS.
    apply K4; [|eapply fits_base; [|exact F4]; lia]. cbn [List.length]. rewrite drop_0. eapply stands_le; [exact (moves_le _ _ _ _ _ M3)|exact ST2].
Qed.
Lemma EE_block P D C n (m : M unit) R : moving [] C n (bind (m_push_scope KBlock None) (fun _ => bind m (fun _ => bind visit_close_upvalues (fun _ => bind m_pop_scope (fun _ => ret tt))))) ->
  ED (stmt_of P) D C n m R ->
  EE P C n (bind (m_push_scope KBlock None) (fun _ => bind m (fun _ => bind visit_close_upvalues (fun _ => bind m_pop_scope (fun _ => ret tt)))))
    (fun G k _ p q => exists vs p1, map fst vs = D /\ (forall x, In (x, true) vs -> In x C) /\ R (extend vs (g_in G)) k tt p p1 /\ closes (g_bc G) (flagged (List.length (g_vars G)) vs) p1 q).
Proof.
  intros HM H. eapply ED_post; [exact (EE_block_tail P D C n m (ret tt) R _ ltac:(intros s u s' _ [= _ <-]; reflexivity) HM H (ED_ret lit (stmt_of P) C tt))|].
  cbn beta. intros G k b p q (vs & p1 & p2 & H1 & H2 & H3 & H4 & _ & ->). eauto 8.
Qed.

(** ** Loops
    The scope of a loop is entered at [s] and left at [s2]; then comes some code up to [s5], where the jumps [L], those
    of [break] included, are made to lead. *)
Record left_loop (D C : list string) (L : list nat) (e : option nat) (s s2 s5 s6 : cstate) : Prop := {
  ll_wf : wf s; ll_wf2 : wf s2; ll_in : le D C (pushed KLoop e s) s2; ll_out : exists n, moves [] C n (popped s2) s5;
  ll_patch : patched_all L C s5 s6; ll_exits : incl (sc_exits (head s2)) L; ll_low : forall j, In j L -> pos s <= j /\ j + 2 <= pos s2 }.
Lemma ll_pos D C L e s s2 s5 s6 : left_loop D C L e s s2 s5 s6 -> pos s <= pos s2 /\ pos s2 <= pos s5 /\ pos s6 = pos s5.
Proof. intros [W W2 LI (n & O) PA _ _]. split; [exact (le_pos _ _ _ _ LI)|]. split; [exact (moves_pos _ _ _ _ _ O)|exact (pa_pos _ _ _ _ PA)]. Qed.
Lemma ll_wfs D C L e s s2 s5 s6 : left_loop D C L e s s2 s5 s6 -> wf (popped s2) /\ wf s5 /\ wf s6.
Proof.
  intros [W W2 (N & LI) (n & O) PA _ _]. destruct (popped_spec _ _ _ _ _ _ _ W W2 LI) as (X & _). split; [exact X|]. split; [exact (mv_wf _ _ _ _ _ O)|exact (pa_wf _ _ _ _ PA)].
Qed.
Lemma ll_pend D C L e s s2 s5 s6 i : left_loop D C L e s s2 s5 s6 -> pos s <= i -> pend s5 i \/ pend s6 i -> pos s2 <= i.
Proof.
  intros LL Hi H. destruct (ll_pos _ _ _ _ _ _ _ _ LL) as (Q1 & Q2 & Q3). destruct (Nat.le_gt_cases (pos s2) i) as [X|X]; [exact X|exfalso]. destruct LL as [W W2 (N & LI) (n & O) PA _ _].
  assert (P5 : pend s5 i) by (destruct H as [H|H]; [exact H|eapply pend_le; [exact (pa_le _ _ _ _ PA)|lia|exact H]]).
  apply (pend_le _ _ _ _ _ (moves_le _ _ _ _ _ O)) in P5; [|rewrite popped_pos; exact X]. eapply pend_popped in P5; [|exact W|exact W2|exact LI|exact Hi]. destruct P5; discriminate.
Qed.
Lemma ll_bytes D C L e c G b s s2 s5 s6 : left_loop D C L e s s2 s5 s6 -> b <= pos s -> fits c G b s6 ->
  forall i, pos s <= i < pos s2 -> (forall j, In j L -> i <> j /\ i <> S j) -> nth_error (data s2) i = nth_error (bc_data (g_bc G)) i.
Proof.
  intros LL B F i Hi NL. destruct (ll_pos _ _ _ _ _ _ _ _ LL) as (Q1 & Q2 & Q3). rewrite <- (f_bytes _ _ _ _ _ F); [|lia|intros X; pose proof (ll_pend _ _ _ _ _ _ _ _ i LL ltac:(lia) (or_intror X)); lia].
  destruct LL as [W W2 (N & LI) (n & O) PA _ _]. rewrite (pa_same _ _ _ _ PA) by exact NL. rewrite (mv_below _ _ _ _ _ O) by (rewrite popped_pos; lia). rewrite popped_data. reflexivity.
Qed.
Lemma ll_goes D C L e c G b s s2 s5 s6 : left_loop D C L e s s2 s5 s6 -> b <= pos s -> fits c G b s6 -> forall j, In j L -> goes (g_bc G) j (pos s6).
Proof.
  intros LL B F j Hj. destruct (ll_pos _ _ _ _ _ _ _ _ LL) as (Q1 & Q2 & Q3). destruct (tame_len _ _ _ _ _ F) as (T1 & T2). pose proof (f_len _ _ _ _ _ F) as FL. pose proof (ll_low _ _ _ _ _ _ _ _ LL j Hj) as (L1 & L2).
  split; [lia|]. split; [exact FL|]. pose proof (pa_set _ _ _ _ (ll_patch _ _ _ _ _ _ _ _ LL) ltac:(lia) j Hj) as (X1 & X2). rewrite <- Q3 in X1, X2.
  split; (rewrite <- (f_bytes _ _ _ _ _ F); [assumption|lia|]); intros X; match type of X with pend _ ?i => pose proof (ll_pend D C L e s s2 s5 s6 i LL ltac:(lia) (or_intror X)) end; lia.
Qed.
Lemma ll_static D C L e c G b s s2 s5 s6 lo n : left_loop D C L e s s2 s5 s6 -> b <= pos s -> fits c G b s6 -> (forall l, lo = Some l -> lp_next l = e /\ lp_break l = pos s6) ->
  static Fresh (with_loop lo (extend (own s2) (g_deep n G))) (pos s) s2.
Proof.
  intros LL B F HL. pose proof (ll_wfs _ _ _ _ _ _ _ _ LL) as (WP & W5 & W6). destruct (ll_in _ _ _ _ _ _ _ _ LL) as (N & LI).
  apply (static_pop c G b D C N KLoop e lo n s s2 (ll_wf _ _ _ _ _ _ _ _ LL) (ll_wf2 _ _ _ _ _ _ _ _ LL) LI B); [|discriminate|].
  - destruct LL as [_ _ _ (n5 & O) PA _ _]. eapply static_le0; [exact WP|exact W6| |apply le_n|exact F]. eapply le_trans0; [exact (moves_le _ _ _ _ _ O)|exact (pa_le _ _ _ _ PA)].
  - intros _ l El. destruct (HL l El) as (X1 & X2). split; [exact X1|]. rewrite X2. intros x Hx. eapply ll_goes; [exact LL|exact B|exact F|]. apply (ll_exits _ _ _ _ _ _ _ _ LL). exact Hx.
Qed.
(** A state inside the loop fits, except where the jumps [L] are that are not yet pending there. *)
Lemma ll_fits D C L e c G b s s2 s5 s6 lo n D2 bi si : left_loop D C L e s s2 s5 s6 -> b <= pos s -> fits c G b s6 -> (forall l, lo = Some l -> lp_next l = e /\ lp_break l = pos s6) ->
  wf si -> le D2 C si s2 -> keeps bi (pos si) si s2 -> pos s <= bi -> (forall j, In j L -> In j (sc_exits (head s2)) \/ j + 2 <= bi \/ pos si <= j) ->
  fits Fresh (drop (List.length D2) (with_loop lo (extend (own s2) (g_deep n G)))) bi si.
Proof.
  intros LL B F HL Wi Li K BI HJ. pose proof (ll_wf2 _ _ _ _ _ _ _ _ LL) as W2. split.
  - eapply static_le; [exact Wi|exact W2|exact Li|exact BI|]. eapply ll_static; eauto.
  - intros i Hi NP. cbn [drop with_loop extend g_deep g_bc]. rewrite <- (ll_bytes _ _ _ _ _ _ _ _ _ _ _ LL B F); [symmetry; apply K; exact Hi| |].
    + pose proof (le_pos _ _ _ _ Li). lia.
    + intros j Hj. assert (NE : In j (sc_exits (head s2)) -> i <> j /\ i <> S j).
      { intros X. destruct (ll_in _ _ _ _ _ _ _ _ LL) as (N & LI). destruct (popped_spec _ _ _ _ _ _ _ (ll_wf _ _ _ _ _ _ _ _ LL) W2 LI) as (_ & _ & _ & KH).
        assert (IN : In j (hd [] (loops (scopes s2)))) by (rewrite (popped_loops _ _ W2 KH); exact X).
        split; intros ->; apply NP; (eapply pend_le; [exact Li|lia|]); exists j; auto. }
      destruct (HJ j Hj) as [X|X]; [auto|]. lia.
Qed.
(** The code between. *)
Lemma ll_rest D C L e c G b s s2 s5 s6 : left_loop D C L e s s2 s5 s6 -> b <= pos s -> fits c G b s6 -> fits c G (pos s2) s5.
Proof.
  intros LL B F. pose proof (ll_wfs _ _ _ _ _ _ _ _ LL) as (WP & W5 & W6). destruct (ll_pos _ _ _ _ _ _ _ _ LL) as (Q1 & Q2 & Q3). eapply fits_le0; [exact W5|exact W6|exact (pa_le _ _ _ _ (ll_patch _ _ _ _ _ _ _ _ LL))| | |exact F].
  - intros i Hi. apply (pa_same _ _ _ _ (ll_patch _ _ _ _ _ _ _ _ LL)). intros j Hj. pose proof (ll_low _ _ _ _ _ _ _ _ LL j Hj). lia.
  - lia.
Qed.

Lemma ll_jump D D3 C L e c G b s s2 s5 s6 o sb j sc : left_loop D C L e s s2 s5 s6 -> b <= pos s -> fits c G b s6 -> wf sb -> vm_operands o = OffsetOperand -> jump o sb = Ok (j, sc) ->
  le D3 C sc s2 -> keeps (pos sb) (S (pos sb)) sc s2 -> In j L -> pos s <= pos sb -> (forall x, In x L -> x = j \/ x + 2 <= pos sb \/ pos sc < x) -> jumps (g_bc G) o (pos sb) (pos sc) (pos s6).
Proof.
  intros LL B F WB HO E L3 K IN LB HX. destruct (jump_ok _ _ _ _ WB E) as (-> & P1 & W1 & ES1). pose proof (le_pos _ _ _ _ L3). rewrite P1. apply goes_jumps; auto.
  - exact (proj1 (tame_len _ _ _ _ _ F)).
  - rewrite <- (ll_bytes _ _ _ _ _ _ _ _ _ _ _ LL B F); [|lia|intros x Hx; pose proof (HX x Hx); lia]. rewrite K by lia. rewrite ES1. unfold data at 1, top. cbn [cs_stack hd set_asm cx_asm asm_data].
    rewrite nth_error_app2 by (unfold pos; lia). replace (pos sb - List.length (data sb)) with 0 by (unfold pos; lia). reflexivity.
  - eapply ll_goes; eauto.
Qed.
Lemma head_exits D C e s s2 : wf s -> wf s2 -> le D C (pushed KLoop e s) s2 -> hd [] (loops (scopes s2)) = sc_exits (head s2) /\ Forall (fun x => pos s < x /\ x + 2 <= pos s2) (sc_exits (head s2)) /\ apart (sc_exits (head s2)).
Proof.
  intros W W2 (N & M). destruct (popped_spec _ _ _ _ _ _ _ W W2 M) as (_ & _ & F & K). specialize (F eq_refl). pose proof (popped_loops _ _ W2 K) as PL. cbn [app] in PL. split; [rewrite PL; reflexivity|].
  assert (IN : In (sc_exits (head s2)) (loops (scopes s2))) by (rewrite PL; left; reflexivity). split; [|exact (proj1 (wf_apart s2 W2) _ IN)].
  rewrite Forall_forall in *. intros x Hx. split; [auto|]. exact (wf_loops s2 W2 _ x IN Hx).
Qed.
Lemma exits_split D C e s o sb j sc s2 : wf s -> wf sb -> wf s2 -> le D C (pushed KLoop e s) sb -> jump o sb = Ok (j, sc) -> le [] C sc s2 -> le D C (pushed KLoop e s) s2 -> forall x, In x (sc_exits (head s2)) -> x + 2 <= pos sb \/ pos sc < x.
Proof.
  intros W WB W2 L1 E (N2 & L2) L3 x Hx. destruct (head_exits _ _ _ _ _ W W2 L3) as (EH & _). rewrite <- EH in Hx. destruct (loops_hd _ _ _ (m_loops _ _ _ _ _ L2)) as (new & E2 & F2). rewrite E2, in_app_iff in Hx.
  destruct (jump_ok _ _ _ _ WB E) as (_ & P1 & W1 & ES1). destruct Hx as [Hx|Hx].
  - left. rewrite ES1 in Hx. apply hd_loops in Hx. destruct Hx as (l & H1 & H2). exact (wf_loops sb WB l x H1 H2).
  - right. rewrite Forall_forall in F2. auto.
Qed.
Lemma stands_loop P Q k e n vs lo G s : stands P G s -> pl_chain Q = Fresh -> (pl_fn Q = true -> pl_fn P = true) -> (pl_exact Q = true -> pl_exact P = true /\ n = 0) ->
  (pl_exit Q = true -> exists l, lo = Some l /\ lp_depth l = g_depth G + n) -> (forall l, lo = Some l -> lp_vars l <= List.length (g_vars G) /\ forall t, lp_next l = Some t -> t <= pos s) ->
  stands Q (drop (List.length vs) (with_loop lo (extend vs (g_deep n G)))) (pushed k e s).
Proof.
  intros [S1 S2 S3 S4 S5] H1 H2 H3 H4 H5. unfold drop. cbn [with_loop extend g_deep g_bc g_vars g_ups g_outer g_fn g_loop g_null g_depth]. rewrite skipn_app, skipn_all, Nat.sub_diag. cbn [skipn app]. split; cbn [g_fn g_loop g_depth g_vars g_null]; auto.
  - intros X. destruct (H3 X) as (X1 & ->). rewrite Nat.add_0_r. exact (S2 X1).
  - rewrite H1. reflexivity.
Qed.
Lemma apart_cons j L : (forall x, In x L -> j + 2 <= x \/ x + 2 <= j) -> apart L -> apart (j :: L).
Proof. intros H A x y [<-|Hx] [<-|Hy]; auto. specialize (H x Hx). lia. Qed.
Lemma EE_loop_from {A} P Q D C n1 n2 e d o (m1 : M A) (m2 : A -> M unit) (m3 : scope -> M unit) (m4 : M unit) R1 R2 R3 R4 (lo : ctx -> nat -> option loopinfo) :
  vm_operands o = OffsetOperand ->
  (forall G t l, lo G t = Some l -> lp_next l = e /\ lp_break l = t /\ lp_vars l <= List.length (g_vars G)) ->
  pl_chain Q = Fresh -> (pl_fn Q = true -> pl_fn P = true) -> (pl_exact Q = true -> pl_exact P = true /\ d = 0) -> (forall G t, pl_exit Q = true -> exists l, lo G t = Some l /\ lp_depth l = g_depth G + d) ->
  let m := bind (m_push_scope KLoop e) (fun _ => bind m1 (fun a => bind (jump o) (fun j => bind (m2 a) (fun _ => bind m_pop_scope (fun sc => bind (m3 sc) (fun _ => bind (patch j) (fun _ => bind (each patch (sc_exits sc)) (fun _ => m4)))))))) in
  moving [] C (n1 + n2) m -> ED Q D C n1 m1 R1 -> (forall a, EE Q C n2 (m2 a) (R2 a)) -> (forall sc, EE P C 0 (m3 sc) (R3 sc)) -> EE P C 0 m4 R4 ->
  EE P C (n1 + n2) m (fun G k _ p q => (forall t, e = Some t -> t <= p) -> exists vs a sc p1 p2 p3 p4, p <= p2 /\ p2 <= p3 /\ map fst vs = D /\ (forall x, In (x, true) vs -> In x C) /\ closing (sc_vars sc) = flagged (List.length (g_vars G)) vs /\
    let G' := with_loop (lo G p4) (extend vs (g_deep d G)) in
    R1 G' k a p p1 /\ jumps (g_bc G) o p1 p2 p4 /\ R2 a G' (k + n1) tt p2 p3 /\ R3 sc G (k + n1 + n2) tt p3 p4 /\ R4 G (k + n1 + n2) tt p4 q).
Proof.
  intros HO HLO HQ1 HQ2 HQ3 HQ4 m HM H1 H2 H3 H4 s [] s' W PL E. split; [exact (HM _ _ _ W E)|]. intros G S F HE. cbn [List.length] in S. rewrite drop_0 in S. subst m. clear HM.
  apply bind_ok in E. destruct E as (u0 & s1 & E1 & E). apply push_scope_ok in E1. apply bind_ok in E. destruct E as (a & sb & EB & E). apply bind_ok in E. destruct E as (j & sc & EC & E).
  apply bind_ok in E. destruct E as ([] & s2 & E2 & E). apply bind_ok in E. destruct E as (scope & s3 & E3 & E). apply pop_scope_ok in E3. destruct E3 as (-> & ->).
  apply bind_ok in E. destruct E as ([] & s5 & E5 & E). assert (EP : exists s6, each patch (j :: sc_exits (head s2)) s5 = Ok (tt, s6) /\ m4 s6 = Ok (tt, s')).
  { apply bind_ok in E. destruct E as (u1 & s5' & X1 & E). apply bind_ok in E. destruct E as ([] & s6 & X2 & E). exists s6. split; [|exact E]. cbn [each]. unfold bind. rewrite X1. exact X2. } clear E. destruct EP as (s6 & E6 & E7).
  assert (W1 : wf s1) by (subst s1; apply pushed_wf; exact W). assert (PS : pos s1 = pos s) by (rewrite E1; reflexivity). assert (NS : cs_next_id s1 = cs_next_id s) by (rewrite E1; reflexivity).
  assert (PL1 : placed Q s1) by (unfold placed; rewrite HQ1, E1; reflexivity).
  destruct (H1 _ _ _ W1 PL1 EB) as (MB & KB). pose proof (mv_wf _ _ _ _ _ MB) as WB. pose proof (moves_le _ _ _ _ _ MB) as LB. pose proof (placed_le _ _ _ _ _ LB PL1) as PLB.
  pose proof (jump_moves C _ _ _ _ WB EC) as MC. destruct (jump_ok _ _ _ _ WB EC) as (Ej & PC & WC & _). pose proof (moves_le _ _ _ _ _ MC) as LC. pose proof (placed_le _ _ _ _ _ LC PLB) as PLC.
  destruct (H2 a _ _ _ WC PLC E2) as (M2 & K2). pose proof (mv_wf _ _ _ _ _ M2) as W2. pose proof (moves_le _ _ _ _ _ M2) as L2.
  assert (LD : le D C s1 s2) by (pose proof (le_trans _ _ _ _ _ _ (le_trans _ _ _ _ _ _ LB LC) L2) as X; exact X). pose proof LD as (N & OD). rewrite E1 in OD.
  destruct (popped_spec _ _ _ _ _ _ _ W W2 OD) as (WP & MP & _ & KH). pose proof (ex_intro (fun N => mono [] C N s (popped s2)) N MP) as LP. fold (le [] C s (popped s2)) in LP.
  destruct (H3 _ _ _ _ WP (placed_le _ _ _ _ _ LP PL) E5) as (M5 & K5). pose proof (mv_wf _ _ _ _ _ M5) as W5. pose proof (moves_le _ _ _ _ _ M5) as L5.
  assert (LD' : le D C (pushed KLoop e s) s2) by (rewrite <- E1; exact LD). destruct (head_exits _ _ _ _ _ W W2 LD') as (HE1 & HE2 & HE3). rewrite Forall_forall in HE2.
  pose proof (le_pos _ _ _ _ LB) as QB. pose proof (le_pos _ _ _ _ LC) as QC. pose proof (le_pos _ _ _ _ L2) as Q2. pose proof (le_pos _ _ _ _ L5) as Q5. rewrite popped_pos in Q5. rewrite PS in QB.
  assert (XS : forall x, In x (sc_exits (head s2)) -> x + 2 <= pos sb \/ pos sc < x) by (eapply exits_split; [exact W|exact WB|exact W2|rewrite <- E1; exact LB|exact EC|exact L2|exact LD']).
  assert (AP : apart (j :: sc_exits (head s2))) by (apply apart_cons; [intros x Hx; specialize (XS x Hx); lia|exact HE3]).
  pose proof (patches_step C _ _ _ _ W5 AP E6) as PA. pose proof (pa_wf _ _ _ _ PA) as W6. pose proof (pa_le _ _ _ _ PA) as L6. pose proof (pa_pos _ _ _ _ PA) as Q6.
  assert (LL : left_loop D C (j :: sc_exits (head s2)) e s s2 s5 s6).
  { split; auto. - exists 0. exact M5. - intros x Hx. right. exact Hx. - intros x [<-|Hx]; [lia|]. specialize (HE2 x Hx). lia. }
  destruct (H4 _ _ _ W6 (placed_le _ _ _ _ _ L6 (placed_le _ _ _ _ _ L5 (placed_le _ _ _ _ _ LP PL))) E7) as (M7 & K7). pose proof (moves_le _ _ _ _ _ M7) as L7. pose proof (mv_wf _ _ _ _ _ M7) as W7. pose proof (le_pos _ _ _ _ L7) as Q7.
  assert (F6 : fits (pl_chain P) G (pos s) s6) by (eapply fits_le0; [exact W6|exact W7|exact L7|eapply moves_keeps; [exact M7|apply le_n]|apply le_n|exact F]).
  destruct (own_spec _ _ _ _ _ _ _ OD) as (O1 & O2). pose proof (own_length _ _ _ _ _ _ _ OD) as OL.
  assert (LOK : forall l, lo G (pos s6) = Some l -> lp_next l = e /\ lp_break l = pos s6) by (intros l El; destruct (HLO _ _ _ El) as (X1 & X2 & _); auto).
  set (G' := with_loop (lo G (pos s6)) (extend (own s2) (g_deep d G))).
  assert (ST1 : stands Q (drop (List.length D) G') s1).
  { rewrite E1, <- OL. apply (stands_loop P); auto. intros l El. destruct (HLO _ _ _ El) as (X1 & _ & X2). split; [exact X2|]. rewrite X1. exact HE. }
  exists (own s2), a, (head s2), (pos sb), (pos sc), (pos s2), (pos s6). split; [lia|]. split; [exact Q2|]. split; [exact O1|]. split; [exact O2|].
  split; [|cbn zeta; fold G'; split; [|split; [|split; [|split]]]].
  - pose proof (ll_static _ _ _ _ _ _ _ _ _ _ _ (lo G (pos s6)) d LL (le_n _) F6 LOK) as FS. rewrite (own_closing _ _ _ _ _ _ _ _ _ _ W2 OD FS); cbn [with_loop extend g_in g_deep g_vars]; rewrite ?app_length, <- ?OL.
    + f_equal. lia.
    + rewrite skipn_app, skipn_all, Nat.sub_diag. reflexivity.
  - rewrite <- PS, <- NS. apply KB; [exact ST1|]. rewrite HQ1, <- (drop_0 G'). rewrite PS. change 0 with (List.length (@nil string)). eapply ll_fits; [exact LL|apply le_n|exact F6|exact LOK|exact WB|exact (le_trans0 _ _ _ _ _ LC L2)| |apply le_n|].
    + eapply keeps_trans; [eapply moves_keeps; [exact MC|apply le_n]|eapply moves_keeps; [exact M2|lia]].
    + intros x [<-|Hx]; [right; right; lia|left; exact Hx].
  - eapply ll_jump; [exact LL|apply le_n|exact F6|exact WB|exact HO|exact EC|exact L2|eapply moves_keeps; [exact M2|lia]|left; reflexivity|exact QB|]. intros x [<-|Hx]; [auto|right; apply XS; exact Hx].
  - assert (NB : cs_next_id s + n1 = cs_next_id sc) by (pose proof (mv_next _ _ _ _ _ MB); pose proof (mv_next _ _ _ _ _ MC); lia). rewrite NB. apply K2.
    + cbn [List.length]. rewrite drop_0. destruct (le_trans _ _ _ _ _ _ LB LC) as (N4 & O4). eapply (stands_mono _ (List.length D)); [exact O4|exact ST1].
    + rewrite HQ1, <- (drop_0 G'). change 0 with (List.length (@nil string)). eapply ll_fits; [exact LL|apply le_n|exact F6|exact LOK|exact W2|apply le_refl|apply keeps_refl|lia|]. intros x [<-|Hx]; [right; left; lia|left; exact Hx].
  - assert (NP : cs_next_id s + n1 + n2 = cs_next_id (popped s2)) by (rewrite popped_next; pose proof (mv_next _ _ _ _ _ MB); pose proof (mv_next _ _ _ _ _ MC); pose proof (mv_next _ _ _ _ _ M2); lia). rewrite NP.
    rewrite Q6. change (pos s2) with (pos (popped s2)). apply K5; [cbn [List.length]; rewrite drop_0; eapply stands_le; [exact LP|exact S]|]. rewrite popped_pos. eapply ll_rest; [exact LL|apply le_n|exact F6].
  - assert (NP : cs_next_id s + n1 + n2 = cs_next_id s6) by (pose proof (mv_next _ _ _ _ _ MB); pose proof (mv_next _ _ _ _ _ MC); pose proof (mv_next _ _ _ _ _ M2); pose proof (mv_next _ _ _ _ _ M5) as X5; rewrite popped_next in X5; rewrite (pa_next _ _ _ _ PA); lia). rewrite NP.
    apply K7; [cbn [List.length]; rewrite drop_0; eapply stands_le; [exact (le_trans0 _ _ _ _ _ LP (le_trans0 _ _ _ _ _ L5 L6))|exact S]|]. eapply fits_base; [|exact F]. lia.
Qed.

Lemma EE_forever P Q C n e (m1 m4 : M unit) R1 R4 (lo : ctx -> nat -> option loopinfo) :
  (forall G t l, lo G t = Some l -> lp_next l = e /\ lp_break l = t /\ lp_vars l <= List.length (g_vars G)) ->
  pl_chain Q = Fresh -> (pl_fn Q = true -> pl_fn P = true) -> (pl_exact Q = true -> pl_exact P = true) -> (forall G t, pl_exit Q = true -> exists l, lo G t = Some l /\ lp_depth l = g_depth G) ->
  let m := bind (m_push_scope KLoop e) (fun _ => bind m1 (fun _ => bind m_pop_scope (fun sc => bind (each patch (sc_exits sc)) (fun _ => m4)))) in
  moving [] C n m -> EE Q C n m1 R1 -> EE P C 0 m4 R4 ->
  EE P C n m (fun G k _ p q => (forall t, e = Some t -> t <= p) -> exists p4, R1 (with_loop (lo G p4) (g_in G)) k tt p p4 /\ R4 G (k + n) tt p4 q).
Proof.
  intros HLO HQ1 HQ2 HQ3 HQ4 m HM H1 H4 s [] s' W PL E. split; [exact (HM _ _ _ W E)|]. intros G S F HE. cbn [List.length] in S. rewrite drop_0 in S. subst m. clear HM.
  apply bind_ok in E. destruct E as (u0 & s1 & E1 & E). apply push_scope_ok in E1. apply bind_ok in E. destruct E as ([] & s2 & E2 & E). apply bind_ok in E. destruct E as (scope & s3 & E3 & E). apply pop_scope_ok in E3. destruct E3 as (-> & ->).
  apply bind_ok in E. destruct E as ([] & s6 & E6 & E7).
  assert (W1 : wf s1) by (subst s1; apply pushed_wf; exact W). assert (PS : pos s1 = pos s) by (rewrite E1; reflexivity). assert (NS : cs_next_id s1 = cs_next_id s) by (rewrite E1; reflexivity).
  assert (PL1 : placed Q s1) by (unfold placed; rewrite HQ1, E1; reflexivity).
  destruct (H1 _ _ _ W1 PL1 E2) as (M2 & K2). pose proof (mv_wf _ _ _ _ _ M2) as W2. pose proof (moves_le _ _ _ _ _ M2) as L2. pose proof L2 as (N & OD). rewrite E1 in OD.
  destruct (popped_spec _ _ _ _ _ _ _ W W2 OD) as (WP & MP & _ & KH). pose proof (ex_intro (fun N => mono [] C N s (popped s2)) N MP) as LP. fold (le [] C s (popped s2)) in LP.
  assert (LD' : le [] C (pushed KLoop e s) s2) by (rewrite <- E1; exact L2). destruct (head_exits _ _ _ _ _ W W2 LD') as (HE1 & HE2 & HE3). rewrite Forall_forall in HE2.
  pose proof (le_pos _ _ _ _ L2) as Q2. rewrite PS in Q2.
  pose proof (patches_step C _ _ _ _ WP HE3 E6) as PA. pose proof (pa_wf _ _ _ _ PA) as W6. pose proof (pa_le _ _ _ _ PA) as L6. pose proof (pa_pos _ _ _ _ PA) as Q6. rewrite popped_pos in Q6.
  assert (LL : left_loop [] C (sc_exits (head s2)) e s s2 (popped s2) s6).
  { split; auto. - exists 0. apply moves_refl. exact WP. - apply incl_refl. - intros x Hx. specialize (HE2 x Hx). lia. }
  destruct (H4 _ _ _ W6 (placed_le _ _ _ _ _ L6 (placed_le _ _ _ _ _ LP PL)) E7) as (M7 & K7). pose proof (moves_le _ _ _ _ _ M7) as L7. pose proof (mv_wf _ _ _ _ _ M7) as W7. pose proof (le_pos _ _ _ _ L7) as Q7.
  assert (F6 : fits (pl_chain P) G (pos s) s6) by (eapply fits_le0; [exact W6|exact W7|exact L7|eapply moves_keeps; [exact M7|apply le_n]|apply le_n|exact F]).
  destruct (own_spec _ _ _ _ _ _ _ OD) as (O1 & _). assert (O2 : own s2 = []) by (destruct (own s2); [reflexivity|discriminate]).
  assert (LOK : forall l, lo G (pos s6) = Some l -> lp_next l = e /\ lp_break l = pos s6) by (intros l El; destruct (HLO _ _ _ El) as (X1 & X2 & _); auto).
  assert (ST1 : stands Q (with_loop (lo G (pos s6)) (g_in G)) s1).
  { rewrite E1. pose proof (stands_loop P Q KLoop e 0 [] (lo G (pos s6)) G s S HQ1 HQ2) as X. cbn [List.length] in X. rewrite drop_0 in X. apply X; auto.
    - intros HX. destruct (HQ4 G (pos s6) HX) as (l & Y1 & Y2). exists l. split; [exact Y1|lia].
    - intros l El. destruct (HLO _ _ _ El) as (X1 & _ & X2). split; [exact X2|]. rewrite X1. exact HE. }
  exists (pos s6). split.
  - rewrite <- PS, <- NS, Q6. apply K2; [cbn [List.length]; rewrite drop_0, <- Q6; exact ST1|]. rewrite HQ1.
    pose proof (ll_fits _ _ _ _ _ _ _ _ _ _ _ (lo G (pos s6)) 0 [] (pos s) s2 LL (le_n _) F6 LOK W2 (le_refl _ _) (keeps_refl _ _ _) (le_n _)) as X.
    rewrite O2 in X. cbn [List.length] in X. rewrite drop_0 in X. rewrite PS, <- Q6. apply X. intros j Hj. left. exact Hj.
  - assert (NP : cs_next_id s + n = cs_next_id s6) by (pose proof (mv_next _ _ _ _ _ M2); rewrite (pa_next _ _ _ _ PA), popped_next; lia). rewrite NP.
    apply K7; [cbn [List.length]; rewrite drop_0; eapply stands_le; [exact (le_trans0 _ _ _ _ _ LP L6)|exact S]|]. eapply fits_base; [|exact F]. lia.
Qed.
(** [while] patches its own jump before it leaves the scope. *)
Lemma patch_popped j s u s' : wf s -> patch j s = Ok (u, s') -> patch j (popped s) = Ok (u, popped s') /\ head s' = head s.
Proof.
  intros W E. unfold patch in *. apply on_asm_with in E. destruct E as (asm & E & ->). split; [|reflexivity].
  unfold on_asm, bind, get_context, set_context, Compiler.lift, ret, popped, with_scopes. cbn [cs_stack]. change (cx_asm (set_scopes _ (top s))) with (cx_asm (top s)). rewrite E. reflexivity.
Qed.
Lemma pop_ok_iff s : wf s -> m_pop_scope s = Ok (head s, popped s).
Proof.
  intros W. rewrite (stack_eta s W) at 1. unfold m_pop_scope, on_scopes, bind, get_context, set_context, Compiler.lift, ret, pop_scope. cbn [cs_stack]. fold (scopes s). rewrite (scopes_eta s W) at 1. unfold popped, with_scopes. reflexivity.
Qed.
Lemma ED_sim {A} P D C n (m m' : M A) R : (forall s r, wf s -> m' s = Ok r -> m s = Ok r) -> ED P D C n m R -> ED P D C n m' R.
Proof. intros X H s a s' W PL E. apply (H s a s' W PL). auto. Qed.

(** ** Jumps of break and continue *)
Lemma EE_break P C : pl_exit P = true -> EE P C 0 visit_break (fun G _ _ p q => exists l, g_loop G = Some l /\ lp_depth l = g_depth G /\ jumps (g_bc G) OpJump p q (lp_break l)).
Proof.
  intros HP s a s' W PL E. split; [apply (T_moves [] _ _ _ _ (fun _ => True) s a s' (fun b N _ => T_break b C N) W E)|]. intros G S F. cbn [List.length] in S. rewrite drop_0 in S. destruct (st_exit _ _ _ S HP) as (l & El & Ed). exists l. split; [exact El|]. split; [exact Ed|].
  destruct (break_ok _ _ _ W E) as (s1 & sc & E1 & EL & ES & W'). destruct (jump_ok _ _ _ _ W E1) as (_ & P1 & W1 & ES1). destruct (add_exit_spec _ _ _ EL) as (_ & EX & NE).
  assert (PS : pos s' = pos s + 3) by (rewrite ES; exact P1). assert (SS : scopes s' = sc) by (rewrite ES; reflexivity).
  destruct (f_loop _ _ _ _ _ F l El) as (_ & X). rewrite SS, EX in X. cbn [hd] in X. specialize (X (Datatypes.S (pos s)) ltac:(apply in_app_iff; right; left; reflexivity) ltac:(lia)).
  rewrite PS. apply goes_jumps; [reflexivity|exact (proj1 (tame_len _ _ _ _ _ F))| |exact X].
  assert (CA : cc_exits (call_of s') = cc_exits (call_of s)).
  { destruct (T_break (pos s) [] (kind_names (kind s)) s a s' W (le_n _) (incl_refl _) E) as (_ & M & _). unfold call_of, head. rewrite SS. destruct (add_exit_spec _ _ _ EL) as (FS & _). rewrite (scopes_eta s W) in FS. inversion FS as [|? ? ? ? (_ & Y & _) _ Z1 Z2]; subst. unfold head in Y. cbn [hd]. rewrite Y. rewrite (scopes_eta s W). reflexivity. }
  rewrite <- (f_bytes _ _ _ _ _ F); [|lia|].
  - rewrite ES. change (data (with_scopes (ScopeStack sc (slot_count s)) s1)) with (data s1). rewrite ES1. unfold data at 1, top. cbn [cs_stack hd set_asm cx_asm asm_data]. rewrite nth_error_app2 by (unfold pos; lia). replace (pos s - List.length (data s)) with 0 by (unfold pos; lia). reflexivity.
  - intros (x & H & K). rewrite SS, EX, CA in H. cbn [hd] in H. rewrite in_app_iff in H.
    assert (x + 2 <= pos s \/ x = Datatypes.S (pos s)) as Y; [|destruct K; lia]. destruct H as [[H|[H|[]]]|H]; [left|right; auto|left].
    + apply hd_loops in H. destruct H as (e & H1 & H2). exact (wf_loops s W e x H1 H2).
    + exact (call_bounds s x W H).
Qed.
Lemma entry_ok s p s' : wf s -> on_scopes (fun s => omap (fun p => (p, s)) (entry_point KLoop s)) s = Ok (p, s') -> s' = s /\ loop_entry s = Some (Some p).
Proof.
  intros W E. apply on_scopes_ok in E. destruct E as (c & r & n & ss' & Es & E & ->). apply omap_ok in E. destruct E as (p' & E & E2). injection E2 as <- <-. subst s. split; [destruct c as [? ? ? ? ?]; reflexivity|].
  unfold entry_point, first_of_kind in E. unfold loop_entry, scopes, top. cbn [cs_stack hd]. change is_loop with (fun sc => scope_kind_eqb (sc_kind sc) KLoop).
  destruct (find (fun sc => scope_kind_eqb (sc_kind sc) KLoop) (ss_scopes (cx_scopes c))) as [sc|]; [|discriminate]. cbn [option_map]. destruct (sc_entry sc); [|discriminate]. injection E as <-. reflexivity.
Qed.
Lemma EE_continue P C : pl_exit P = true -> EE P C 0 visit_continue (fun G _ _ p q => exists l t, g_loop G = Some l /\ lp_depth l = g_depth G /\ lp_next l = Some t /\ jumps (g_bc G) OpJump p q t).
Proof.
  intros HP s a s' W PL E. unfold visit_continue in E. apply bind_ok in E. destruct E as (c0 & s0 & E0 & E). assert (s0 = s) as -> by (unfold get_context in E0; destruct (cs_stack s); [discriminate|injection E0 as _ <-; reflexivity]).
  destruct (in_context_of KLoop (cx_scopes c0)); [|discriminate]. apply bind_ok in E. destruct E as (t & s1 & E1 & E2). destruct (entry_ok _ _ _ W E1) as (-> & EN).
  destruct (EE_jump_back lit P C t s a s' W PL E2) as (M & K). split; [exact M|]. intros G S F. specialize (K G S F). cbn [List.length] in S. rewrite drop_0 in S. destruct (st_exit _ _ _ S HP) as (l & El & Ed).
  assert (NX : lp_next l = Some t). { destruct (f_loop _ _ _ _ _ F l El) as (X & _). destruct (mv_mono _ _ _ _ _ M) as (N & O). rewrite (entry_le _ _ _ _ _ W (mv_wf _ _ _ _ _ M) O), EN in X. congruence. }
  exists l, t. split; [exact El|]. split; [exact Ed|]. split; [exact NX|]. apply K. exact (proj2 (st_loop _ _ _ S l El) t NX).
Qed.
End Scopes.
