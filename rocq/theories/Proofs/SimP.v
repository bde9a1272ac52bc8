(** Simulation: what running the code of an expression must do, given the interpreter's answer; how
    subexpressions are used. *)
From Verif.Spec Require Import SupportSpec.
From Verif.Proofs Require Import StackP VmPrimP CallP ReachP CodeP MemP StepP ScopeSimP CallSimP.
#[local] Open Scope string_scope.
#[local] Open Scope list_scope.
#[local] Open Scope nat_scope.

Section Sim.
Variable w : world.
Variable lit : nat -> fn_bytecode.
Notation Inv := (Inv lit).
Notation good := (good lit).
Notation code := (code lit).

(** The machine stands where the interpreter does.  [lt]: the operands that were there when the innermost loop
    began. *)
Record here (G : ctx) (S : scene) (fr : frame) (ups : option (list nat)) (lt : list value) (rho : names_of) (V : view)
    (b : list value) (m : memory) (K : links) (t : list value) : Prop := {
  h_scope : scope_ok G fr ups rho V (s_env S);
  h_inv : Inv rho V b m K;
  h_fn : s_fn S = g_fn G;
  h_chain : match g_null G with Some _ => s_chain S = true | None => s_chain S = false end;
  h_depth : List.length t = g_depth G;
  h_loop : match g_loop G with
           | Some l => (exists ex, t = ex ++ lt) /\ List.length lt = lp_depth l /\ lp_vars l <= List.length (g_vars G)
           | None => True
           end;
  h_room : List.length b + List.length t + s_room S <= max_stack_size;
  h_frame : fr_end fr <= List.length b }.

(** The answers that are not values. *)
Definition rest (G : ctx) (fr : frame) (ups : option (list nat)) (lt : list value) (rho : names_of) (V : view) (b : list value)
    (p : nat) (s : vm) (t : list value) (a : answer) : Prop :=
  let leads := leads w (g_bc G) fr ups p s in
  let good V' := good (fr_start fr) rho V b in
  match a with
  | AVal _ _ | AUnknown => True
  | ABreak m' =>
      match g_loop G with
      | Some l => exists rho' b' K', leads (At (lp_break l) (state m' K' b' lt)) /\
          good V rho' (cut (fr_start fr + lp_vars l) V) b' m' K'
      | None => False
      end
  | AContinue m' =>
      match g_loop G with
      | Some (Loop vs _ (Some z) _) => exists rho' b' K', leads (At z (state m' K' b' lt)) /\
          good V rho' (cut (fr_start fr + vs) V) b' m' K'
      | Some (Loop _ _ None _) => True
      | None => False
      end
  | AReturn v m' => exists rho' b' K', leads (Done (state m' K' b' [v])) /\ good V rho' (cut (fr_start fr) V) b' m' K'
  | ANull m' =>
      match g_null G with
      | Some z => exists rho' b' K', leads (At z (state m' K' b' (VNull :: t))) /\ good V rho' V b' m' K'
      | None => False
      end
  | AFail e m' => fails w (g_bc G) fr ups p s e (m_vm m')
  | ACrash => leads Crashed
  end.
Definition post (G : ctx) (fr : frame) (ups : option (list nat)) (lt : list value) (rho : names_of) (V : view) (b : list value)
    (p : nat) (s : vm) (t : list value) (q : nat) (a : answer) : Prop :=
  match a with
  | AVal v m' => exists rho' b' K', leads w (g_bc G) fr ups p s (At q (state m' K' b' (v :: t))) /\
      good (fr_start fr) rho V b rho' V b' m' K'
  | _ => rest G fr ups lt rho V b p s t a
  end.

Definition sim_eval (I : interp) : Prop :=
  (forall G S fr ups lt rho V b m K t k e p q, here G S fr ups lt rho V b m K t -> enough <= s_room S -> code G k e p q ->
     post G fr ups lt rho V b p (state m K b t) t q (i_eval I S k e m)) /\
  (forall S k e m, s_room S < enough -> i_eval I S k e m = AUnknown).

Lemma good_trans n rho0 V0 b0 rho1 V1 b1 m1 K1 rho2 V2 b2 m2 K2 :
  good n rho0 V0 b0 rho1 V1 b1 m1 K1 -> good n rho1 V1 b1 rho2 V2 b2 m2 K2 -> (forall i, i < n -> V1 i = V0 i) ->
  good n rho0 V0 b0 rho2 V2 b2 m2 K2.
Proof.
  intros [A B C] [D E F] X. split; auto; [eapply ext_trans; eauto|].
  eapply keep_trans; eauto. eapply keep_view; eauto. intros. symmetry. auto.
Qed.
Lemma good_view n rho0 V0 b0 rho1 V1 V1' b1 m1 K1 : good n rho0 V0 b0 rho1 V1 b1 m1 K1 -> (forall i, V1' i = V1 i) -> good n rho0 V0 b0 rho1 V1' b1 m1 K1.
Proof. intros [A B C] X. split; auto. eapply Inv_view; eauto. Qed.
Lemma good_le n n' rho0 V0 b0 rho1 V1 b1 m1 K1 : good n rho0 V0 b0 rho1 V1 b1 m1 K1 -> n' <= n -> good n' rho0 V0 b0 rho1 V1 b1 m1 K1.
Proof. intros [A B C] X. split; auto. eapply keep_le; eauto. Qed.

Lemma g_deep_deep a b G : g_deep a (g_deep b G) = g_deep (b + a) G.
Proof. clear. unfold g_deep. cbn. f_equal. lia. Qed.
Lemma deep_deep a b S : deep a (deep b S) = deep (b + a) S.
Proof. clear. unfold deep. cbn. f_equal. lia. Qed.
Lemma inner_deep S : inner S = deep 0 S.
Proof. unfold deep, inner. now rewrite Nat.sub_0_r. Qed.
Lemma deep_inner n S : deep n (inner S) = deep n S. Proof. reflexivity. Qed.
Lemma deep_target n S : deep n (target S) = deep n S. Proof. reflexivity. Qed.

(** Within the evaluation of one expression, whose result has to satisfy [P]. *)
Definition closed (P : answer -> Prop) (G : ctx) (fr : frame) (ups : option (list nat)) (lt : list value) (rho : names_of) (V : view) (b : list value)
    (p : nat) (s : vm) (t : list value) : Prop :=
  forall a, match a with AVal _ _ => False | _ => True end -> rest G fr ups lt rho V b p s t a -> P a.
Lemma closed_sound P G fr ups lt rho V b p s t : closed P G fr ups lt rho V b p s t -> sound w P (g_bc G) fr ups p s.
Proof. intros H. split; intros; apply H; auto; exact Logic.I. Qed.

Section Start.
Variable I : interp.
Variables (fr : frame) (ups : option (list nat)).
Variables (rho0 : names_of) (V0 : view) (b0 : list value) (p0 : nat) (s0 : vm) (bc : bytecode).

Definition reached (p : nat) (t : list value) (rho : names_of) (V : view) (b : list value) (m : memory) (K : links) : Prop :=
  leads w bc fr ups p0 s0 (At p (state m K b t)) /\ good (fr_start fr) rho0 V0 b0 rho V b m K.

Lemma reached_len p t rho V b m K : reached p t rho V b m K -> List.length b = List.length b0.
Proof. intros (_ & [_ _ (L & _)]). exact L. Qed.
Lemma reached_inv p t rho V b m K : reached p t rho V b m K -> Inv rho V b m K.
Proof. intros (_ & [H _ _]). exact H. Qed.
Lemma reached_ext p t rho V b m K : reached p t rho V b m K -> ext rho0 rho.
Proof. intros (_ & [_ H _]). exact H. Qed.
Lemma reached_leads p t rho V b m K : reached p t rho V b m K -> leads w bc fr ups p0 s0 (At p (state m K b t)).
Proof. intros (H & _). exact H. Qed.
Lemma reached_good p t rho V b m K : reached p t rho V b m K -> good (fr_start fr) rho0 V0 b0 rho V b m K.
Proof. intros (_ & H). exact H. Qed.

(** Steps that touch neither variables nor captured variables. *)
Lemma reach_step p t rho V b m K p' t' m' : reached p t rho V b m K -> leads w bc fr ups p (state m K b t) (At p' (state m' K b t')) -> same m m' ->
  reached p' t' rho V b m' K.
Proof.
  intros (L & [A B C]) L' SM. split; [eapply leads_trans; eauto|]. split; auto. eapply same_inv; eauto.
Qed.
Lemma reach_step_ p t rho V b m K p' t' : reached p t rho V b m K -> leads w bc fr ups p (state m K b t) (At p' (state m K b t')) ->
  reached p' t' rho V b m K.
Proof. intros R L. eapply reach_step; eauto. apply same_refl. Qed.
Lemma reach_good p t rho V b m K p' t' rho' V' b' m' K' : reached p t rho V b m K -> leads w bc fr ups p (state m K b t) (At p' (state m' K' b' t')) ->
  good (fr_start fr) rho V b rho' V' b' m' K' -> (forall i, i < fr_start fr -> V i = V0 i) -> reached p' t' rho' V' b' m' K'.
Proof. intros (L & G) L' G' X. split; [eapply leads_trans; eauto|eapply good_trans; eauto]. Qed.
Lemma reach_view p t rho V V' b m K : reached p t rho V b m K -> (forall i, V' i = V i) -> reached p t rho V' b m K.
Proof. intros (L & G) X. split; auto. eapply good_view; eauto. Qed.

Section For.
Variable P : answer -> Prop.
Variables (G : ctx) (lt t0 : list value).
Hypothesis BC : g_bc G = bc.
Hypothesis HP : closed P G fr ups lt rho0 V0 b0 p0 s0 t0.

Lemma P_sound p t rho V b m K : reached p t rho V b m K -> sound w P bc fr ups p (state m K b t).
Proof. intros (L & _). eapply sound_from; [exact L|]. rewrite <- BC. eapply closed_sound; eauto. Qed.
Lemma P_unknown : P AUnknown.
Proof. apply HP; exact Logic.I. Qed.

(** From inside to outside. *)
Lemma rest_from G1 p1 t1 t1' rho1 V1 b1 m1 K1 a :
  reached p1 t1' rho1 V1 b1 m1 K1 -> g_bc G1 = bc -> g_loop G1 = g_loop G ->
  match g_loop G with Some l => lp_vars l <= List.length (g_vars G) | None => True end ->
  (forall i, i < fr_start fr + List.length (g_vars G) -> V1 i = V0 i) ->
  (g_null G1 = None \/ g_null G1 = g_null G /\ t1 = t0 /\ forall i, V1 i = V0 i) ->
  rest G1 fr ups lt rho1 V1 b1 p1 (state m1 K1 b1 t1') t1 a -> rest G fr ups lt rho0 V0 b0 p0 s0 t0 a.
Proof.
  intros (L & GD) B1 EL LV X NL H. rewrite <- BC in *. destruct a as [v m'|m'|m'|v m'|m'|e m'| |]; cbn [rest] in *; auto.
  - rewrite EL in H. destruct (g_loop G) as [l|]; auto. rewrite B1 in H. destruct H as (rho' & b' & K' & H1 & H2).
    exists rho', b', K'. split; [eapply leads_trans; eauto|].
    assert (H3 : good (fr_start fr) rho0 V0 b0 rho' (cut (fr_start fr + lp_vars l) V1) b' m' K') by (eapply good_trans; eauto; intros; apply X; lia).
    eapply good_view; [exact H3|]. intros i. unfold cut. destruct (Nat.ltb_spec i (fr_start fr + lp_vars l)); auto. symmetry. apply X. lia.
  - rewrite EL in H. destruct (g_loop G) as [[vs z [nx|] d]|]; auto. rewrite B1 in H. destruct H as (rho' & b' & K' & H1 & H2).
    exists rho', b', K'. split; [eapply leads_trans; eauto|]. cbn [lp_vars] in LV.
    assert (H3 : good (fr_start fr) rho0 V0 b0 rho' (cut (fr_start fr + vs) V1) b' m' K') by (eapply good_trans; eauto; intros; apply X; lia).
    eapply good_view; [exact H3|]. intros i. unfold cut. destruct (Nat.ltb_spec i (fr_start fr + vs)); auto. symmetry. apply X. lia.
  - rewrite B1 in H. destruct H as (rho' & b' & K' & H1 & H2). exists rho', b', K'. split; [eapply leads_trans; eauto|].
    assert (H3 : good (fr_start fr) rho0 V0 b0 rho' (cut (fr_start fr) V1) b' m' K') by (eapply good_trans; eauto; intros; apply X; lia).
    eapply good_view; [exact H3|]. intros i. unfold cut. destruct (Nat.ltb_spec i (fr_start fr)); auto. symmetry. apply X. lia.
  - destruct NL as [N|(N & Et & XV)]; [rewrite N in H; contradiction|]. rewrite N in H. destruct (g_null G) as [z|]; auto. rewrite B1 in H. subst t1.
    destruct H as (rho' & b' & K' & H1 & H2). exists rho', b', K'. split; [eapply leads_trans; eauto|].
    eapply good_view; [eapply good_trans; eauto|]. intros. symmetry. auto.
  - rewrite B1 in H. eapply fails_from; eauto.
  - rewrite B1 in H. eapply leads_trans; eauto.
Qed.

(** Answers that do not depend on the loops around. *)
Lemma rest_inner G1 lt1 p1 t1 t1' rho1 V1 b1 m1 K1 a :
  reached p1 t1' rho1 V1 b1 m1 K1 -> g_bc G1 = bc -> (forall i, i < fr_start fr -> V1 i = V0 i) ->
  match a with AReturn _ _ | AFail _ _ | ACrash | AUnknown => True | _ => False end ->
  rest G1 fr ups lt1 rho1 V1 b1 p1 (state m1 K1 b1 t1') t1 a -> rest G fr ups lt rho0 V0 b0 p0 s0 t0 a.
Proof.
  intros (L & GD) B1 X Ha H. rewrite <- BC in *. destruct a as [v m'|m'|m'|v m'|m'|e m'| |]; try contradiction; cbn [rest] in *; auto.
  - rewrite B1 in H. destruct H as (rho' & b' & K' & H1 & H2). exists rho', b', K'. split; [eapply leads_trans; eauto|].
    assert (H3 : good (fr_start fr) rho0 V0 b0 rho' (cut (fr_start fr) V1) b' m' K') by (eapply good_trans; eauto).
    eapply good_view; [exact H3|]. intros i. unfold cut. destruct (Nat.ltb_spec i (fr_start fr)); auto. symmetry. apply X. lia.
  - rewrite B1 in H. eapply fails_from; eauto.
  - rewrite B1 in H. eapply leads_trans; eauto.
Qed.

Hypothesis SE : sim_eval I.

Lemma eval_gen G1 S1 p1 p2 t1 rho1 V1 b1 m1 K1 k e next :
  reached p1 t1 rho1 V1 b1 m1 K1 -> (enough <= s_room S1 -> here G1 S1 fr ups lt rho1 V1 b1 m1 K1 t1) -> g_bc G1 = bc -> g_loop G1 = g_loop G ->
  match g_loop G with Some l => lp_vars l <= List.length (g_vars G) | None => True end ->
  (forall i, i < fr_start fr + List.length (g_vars G) -> V1 i = V0 i) ->
  (g_null G1 = None \/ g_null G1 = g_null G /\ t1 = t0 /\ forall i, V1 i = V0 i) ->
  code G1 k e p1 p2 ->
  (enough <= s_room S1 -> forall v m2 rho2 b2 K2, reached p2 (v :: t1) rho2 V1 b2 m2 K2 -> ext rho1 rho2 -> P (next v m2)) ->
  P (vbind (i_eval I S1 k e m1) next).
Proof.
  intros R H B1 EL LV X NL C N. destruct (Nat.lt_ge_cases (s_room S1) enough) as [Lo|Hi].
  - rewrite (proj2 SE) by assumption. apply P_unknown.
  - pose proof (proj1 SE _ _ _ _ _ _ _ _ _ _ _ _ _ _ _ (H Hi) Hi C) as PO.
    assert (RF : forall a, rest G1 fr ups lt rho1 V1 b1 p1 (state m1 K1 b1 t1) t1 a -> rest G fr ups lt rho0 V0 b0 p0 s0 t0 a)
      by (intros; eapply rest_from; eauto).
    destruct (i_eval I S1 k e m1) as [v m'|m'|m'|v m'|m'|er m'| |] eqn:EA; cbn [vbind]; cbn [post] in PO;
      try (apply HP; [exact Logic.I|apply RF; exact PO]).
    destruct PO as (rho' & b' & K' & L & GD). apply (N Hi v m' rho' b' K').
    + eapply reach_good; eauto; [now rewrite B1 in L|]. intros; apply X; lia.
    + apply GD.
Qed.
End For.
End Start.

(** Moving between contexts. *)
Lemma here_deep G S fr ups lt rho V b m K t rho' b' m' K' n u :
  here G S fr ups lt rho V b m K t -> Inv rho' V b' m' K' -> ext rho rho' -> List.length b' = List.length b ->
  List.length u = n -> n <= s_room S -> here (g_deep n G) (deep n S) fr ups lt rho' V b' m' K' (u ++ t).
Proof.
  intros [A B C D E F H J] I' X L Lu R. split; cbn [g_deep deep g_null s_chain g_fn s_fn g_depth g_loop g_vars s_env s_room]; auto.
  - eapply scope_ctx; [eapply scope_ext; eauto| | | |]; reflexivity.
  - rewrite app_length. lia.
  - destruct (g_loop G) as [l|]; auto. destruct F as ((ex & ->) & F2 & F3). split; auto. exists (u ++ ex). now rewrite app_assoc.
  - rewrite app_length. lia.
  - lia.
Qed.
Lemma here_now G S fr ups lt rho V b m K t rho' b' m' K' :
  here G S fr ups lt rho V b m K t -> Inv rho' V b' m' K' -> ext rho rho' -> List.length b' = List.length b ->
  here G S fr ups lt rho' V b' m' K' t.
Proof. intros [A B C D E F H J] I' X L. split; auto; try lia. eapply scope_ext; eauto. Qed.
Lemma here_tgt q G S fr ups lt rho V b m K t :
  here G S fr ups lt rho V b m K t -> here (g_tgt q G) (target S) fr ups lt rho V b m K t.
Proof.
  intros [A B C D E F H J]. split; cbn [g_tgt target g_null s_chain g_fn s_fn g_depth g_loop g_vars s_env s_room]; auto.
  - eapply scope_ctx; [exact A| | | |]; reflexivity.
  - now destruct (g_null G).
Qed.

(** Uses of subexpressions with the same variables. *)
Section Use.
Variable I : interp.
Variables (fr : frame) (ups : option (list nat)).
Variables (rho0 : names_of) (V0 : view) (b0 : list value) (p0 : nat) (m0 : memory) (K0 : links) (t0 ts : list value).
Variables (G : ctx) (S : scene) (lt : list value) (P : answer -> Prop).
Notation s0 := (state m0 K0 b0 ts).
Notation bc := (g_bc G).
Hypothesis H0 : here G S fr ups lt rho0 V0 b0 m0 K0 t0.
Hypothesis HP : closed P G fr ups lt rho0 V0 b0 p0 s0 t0.
Hypothesis ROOM : enough <= s_room S.
Hypothesis SE : sim_eval I.
Hypothesis SC : sim_call w lit I.
Notation reached := (reached fr ups rho0 V0 b0 p0 s0 bc).

Lemma start : reached p0 ts rho0 V0 b0 m0 K0.
Proof. split; [apply leads_refl|]. split; [apply H0|apply ext_refl|apply keep_refl]. Qed.
Lemma use_loop : match g_loop G with Some l => lp_vars l <= List.length (g_vars G) | None => True end.
Proof. pose proof (h_loop _ _ _ _ _ _ _ _ _ _ _ H0). destruct (g_loop G); intuition. Qed.
Lemma use_start : fr_start fr <= List.length b0.
Proof. pose proof (h_frame _ _ _ _ _ _ _ _ _ _ _ H0). destruct (h_scope _ _ _ _ _ _ _ _ _ _ _ H0). lia. Qed.
Lemma use_sound p t rho b m K : reached p t rho V0 b m K -> sound w P bc fr ups p (state m K b t).
Proof. intros R. eapply P_sound; eauto. Qed.
Lemma use_fits p t rho V b m K n k : reached p t rho V b m K -> k + n <= s_room S -> fits b t0 n.
Proof. intros R L. pose proof (reached_len _ _ _ _ _ _ _ _ _ _ _ _ _ _ _ R). pose proof (h_room _ _ _ _ _ _ _ _ _ _ _ H0). unfold fits. lia. Qed.
Lemma use_scope p t rho b m K : reached p t rho V0 b m K -> scope_ok G fr ups rho V0 (s_env S).
Proof. intros R. eapply scope_ext; [eapply reached_ext; eauto|apply H0]. Qed.
Lemma use_frame p t rho V b m K : reached p t rho V b m K -> fr_end fr <= List.length b.
Proof. intros R. rewrite (reached_len _ _ _ _ _ _ _ _ _ _ _ _ _ _ _ R). apply H0. Qed.

Lemma use_eval n u p1 p2 rho1 b1 m1 K1 k e next :
  reached p1 (u ++ t0) rho1 V0 b1 m1 K1 -> List.length u = n -> code (g_deep n G) k e p1 p2 ->
  (enough + n <= s_room S -> forall v m2 rho2 b2 K2, reached p2 (v :: u ++ t0) rho2 V0 b2 m2 K2 -> P (next v m2)) ->
  P (vbind (i_eval I (deep n S) k e m1) next).
Proof.
  intros R Lu C N.
  assert (X : enough <= s_room (deep n S) -> n <= s_room S /\ enough + n <= s_room S) by (cbn [deep s_room]; unfold enough in *; lia).
  eapply (eval_gen I fr ups rho0 V0 b0 p0 s0 bc P G lt t0 eq_refl HP SE (g_deep n G) (deep n S)); [exact R| |reflexivity|reflexivity|apply use_loop|auto|left; reflexivity|exact C|].
  - intros Hr. eapply here_deep; eauto.
    + eapply reached_inv; eauto.
    + eapply reached_ext; eauto.
    + eapply reached_len; eauto.
    + now apply X.
  - intros Hr v m2 rho2 b2 K2 R2 _. apply (N (proj2 (X Hr)) v m2 rho2 b2 K2 R2).
Qed.
Lemma use_inner p1 p2 rho1 b1 m1 K1 k e next :
  reached p1 t0 rho1 V0 b1 m1 K1 -> code (g_in G) k e p1 p2 ->
  (forall v m2 rho2 b2 K2, reached p2 (v :: t0) rho2 V0 b2 m2 K2 -> P (next v m2)) ->
  P (vbind (i_eval I (inner S) k e m1) next).
Proof. intros R C N. rewrite inner_deep. eapply (use_eval 0 []); eauto. Qed.
(** In tail position. *)
Lemma use_tail p1 p2 rho1 b1 m1 K1 k e :
  reached p1 t0 rho1 V0 b1 m1 K1 -> code (g_in G) k e p1 p2 ->
  (forall v m2 rho2 b2 K2, reached p2 (v :: t0) rho2 V0 b2 m2 K2 -> P (AVal v m2)) ->
  P (i_eval I (inner S) k e m1).
Proof. intros R C N. rewrite <- (vbind_val (i_eval _ _ _ _ _)). eapply use_inner; eauto. Qed.
(** The expression itself again. *)
Lemma use_again p1 p2 rho1 b1 m1 K1 k e :
  reached p1 t0 rho1 V0 b1 m1 K1 -> code G k e p1 p2 ->
  (forall v m2 rho2 b2 K2, reached p2 (v :: t0) rho2 V0 b2 m2 K2 -> P (AVal v m2)) ->
  P (i_eval I S k e m1).
Proof.
  intros R C N. rewrite <- (vbind_val (i_eval _ _ _ _ _)).
  eapply (eval_gen I fr ups rho0 V0 b0 p0 s0 bc P G lt t0 eq_refl HP SE G S); [exact R| |reflexivity|reflexivity|apply use_loop|auto|right; auto|exact C|eauto].
  intros _. eapply here_now; eauto; [eapply reached_inv|eapply reached_ext|eapply reached_len]; eauto.
Qed.
Lemma use_again_bind p1 p2 rho1 b1 m1 K1 k e next :
  reached p1 t0 rho1 V0 b1 m1 K1 -> code G k e p1 p2 ->
  (forall v m2 rho2 b2 K2, reached p2 (v :: t0) rho2 V0 b2 m2 K2 -> P (next v m2)) ->
  P (vbind (i_eval I S k e m1) next).
Proof.
  intros R C N.
  eapply (eval_gen I fr ups rho0 V0 b0 p0 s0 bc P G lt t0 eq_refl HP SE G S); [exact R| |reflexivity|reflexivity|apply use_loop|auto|right; auto|exact C|eauto].
  intros _. eapply here_now; eauto; [eapply reached_inv|eapply reached_ext|eapply reached_len]; eauto.
Qed.

Lemma use_vm {A} (f : run A) p t q rho b m K fin next : reached p t rho V0 b m K ->
  stores w bc fr ups (f (m_vm m)) p (state m K b t) q (fun a s => state (set_vm s m) K b (fin a)) ->
  (forall a m', reached q (fin a) rho V0 b m' K -> P (next a m')) -> P (with_vm f m next).
Proof.
  intros R ST N. eapply with_vm_sim; [exact ST|eapply use_sound; exact R|]. intros a s' L. apply N.
  eapply reach_step; eauto. apply set_same.
Qed.
Lemma use_load x p q u rho b m K next : reached p (u ++ t0) rho V0 b m K -> loads G x p q -> List.length u < s_room S ->
  (forall v, reached q (v :: u ++ t0) rho V0 b m K -> P (next v m)) -> P (vbind (load (s_env S) x m) next).
Proof.
  intros R A L N. eapply load_sim; [eapply use_scope; eauto|eapply reached_inv; eauto|eapply use_frame; eauto|exact A| |eapply use_sound; exact R|].
  - pose proof (use_fits _ _ _ _ _ _ _ (Datatypes.S (List.length u)) 0 R). unfold fits in *. rewrite app_length. lia.
  - intros v Lv. apply N. eapply reach_step_; eauto.
Qed.
Lemma use_store x v p q rho b m K next : reached p (v :: t0) rho V0 b m K -> assigns G x p q ->
  (forall m' b' K', reached q (VUnit :: t0) rho V0 b' m' K' -> P (next VUnit m')) -> P (vbind (store (s_env S) x v m) next).
Proof.
  intros R A N. eapply store_sim; [eapply use_scope; eauto|eapply reached_inv; eauto|eapply use_frame; eauto|exact A| |eapply use_sound; exact R|].
  - eapply (use_fits _ _ _ _ _ _ _ 1 0); eauto. unfold enough in ROOM. lia.
  - intros m' b' K' Lv HI KP. apply (N m' b' K'). eapply reach_good; eauto. split; auto. apply ext_refl.
Qed.
Lemma use_call_in V room u f args p q rho b m K next : (forall i, i < fr_start fr -> V i = V0 i) ->
  reached p (rev args ++ f :: u ++ t0) rho V b m K -> room + List.length u = s_room S ->
  at_ bc p (IByte OpCall (List.length args)) q ->
  (forall v m' rho' b' K', good (List.length b) rho V b rho' V b' m' K' -> reached q (v :: u ++ t0) rho' V b' m' K' -> P (next v m')) -> P (vbind (i_call I room f args m) next).
Proof.
  intros XV R L A N. eapply call_sim; [exact SC|eapply reached_inv; eauto| |exact A|eapply P_sound; [reflexivity|exact HP|exact R]|].
  - pose proof (reached_len _ _ _ _ _ _ _ _ _ _ _ _ _ _ _ R). pose proof (h_room _ _ _ _ _ _ _ _ _ _ _ H0). rewrite app_length. lia.
  - intros v m' rho' b' K' Lv GD. eapply N; [exact GD|]. eapply reach_good; eauto. eapply good_le; [exact GD|].
    rewrite (reached_len _ _ _ _ _ _ _ _ _ _ _ _ _ _ _ R). apply use_start.
Qed.
Lemma use_call room u f args p q rho b m K next : reached p (rev args ++ f :: u ++ t0) rho V0 b m K -> room + List.length u = s_room S ->
  at_ bc p (IByte OpCall (List.length args)) q ->
  (forall v m' rho' b' K', reached q (v :: u ++ t0) rho' V0 b' m' K' -> P (next v m')) -> P (vbind (i_call I room f args m) next).
Proof. intros R L A N. eapply (use_call_in V0); eauto. Qed.
Lemma use_operate_in V room u o l r p q rho b m K next : (forall i, i < fr_start fr -> V i = V0 i) ->
  reached p (r :: l :: u ++ t0) rho V b m K -> room + List.length u = s_room S -> 2 <= room ->
  at_ bc p (INone o) q -> binary_opcode o = true ->
  (forall v m' rho' b' K', good (List.length b) rho V b rho' V b' m' K' -> reached q (v :: u ++ t0) rho' V b' m' K' -> P (next v m')) -> P (vbind (operate w I room o l r m) next).
Proof.
  intros XV R L L2 A B N.
  assert (HR : List.length b + List.length (u ++ t0) + room <= max_stack_size).
  { pose proof (reached_len _ _ _ _ _ _ _ _ _ _ _ _ _ _ _ R). pose proof (h_room _ _ _ _ _ _ _ _ _ _ _ H0). rewrite app_length. lia. }
  eapply operate_sim; [exact SC|eapply reached_inv; eauto|exact HR| |exact A|exact B|eapply P_sound; [reflexivity|exact HP|exact R]|].
  - unfold fits. lia.
  - intros v m' rho' b' K' Lv GD. eapply N; [exact GD|]. eapply reach_good; eauto. eapply good_le; [exact GD|].
    rewrite (reached_len _ _ _ _ _ _ _ _ _ _ _ _ _ _ _ R). apply use_start.
Qed.
Lemma use_operate room u o l r p q rho b m K next : reached p (r :: l :: u ++ t0) rho V0 b m K -> room + List.length u = s_room S -> 2 <= room ->
  at_ bc p (INone o) q -> binary_opcode o = true ->
  (forall v m' rho' b' K', reached q (v :: u ++ t0) rho' V0 b' m' K' -> P (next v m')) -> P (vbind (operate w I room o l r m) next).
Proof. intros R L L2 A B N. eapply (use_operate_in V0); eauto. Qed.
End Use.
End Sim.
