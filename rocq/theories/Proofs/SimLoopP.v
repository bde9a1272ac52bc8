(** Simulation of loops. *)
From Verif.Spec Require Import SupportSpec.
From Verif.Proofs Require Import StackP VmPrimP CallP ReachP CodeP MemP StepP ScopeSimP CallSimP SimP SimBlockP.
#[local] Open Scope string_scope.
#[local] Open Scope list_scope.
#[local] Open Scope nat_scope.

(** The code of one round and of the end of the two kinds of [for]. *)
Definition range_code (lit : nat -> fn_bytecode) (G : ctx) (k : nat) (inclusive : bool) (x : string) (body : expr) (p2 q : nat) : Prop :=
  let bc := g_bc G in
  exists fl p3 p4 p5 p6 p7 p8 p9 p10 p11 p12 p13 p14,
  let slot := List.length (g_vars G) in
  let G' := with_loop (Some (Loop slot p13 None (S (g_depth G)))) (extend [(x, fl)] (g_deep 1 G)) in
  has_room G /\
  at_ bc p2 (IByte OpStoreLocal slot) p3 /\ at_ bc p3 (IByte OpDup 1) p4 /\
  at_ bc p4 (INone (if inclusive then OpLessThanOrEqual else OpLessThan)) p5 /\
  jumps bc OpJumpIfFalse p5 p6 p13 /\
  code lit G' k body p6 p7 /\
  at_ bc p7 (INone OpPop) p8 /\ at_ bc p8 (IByte OpLoadLocal slot) p9 /\ at_ bc p9 (INone OpPushI1) p10 /\
  at_ bc p10 (INone OpAdd) p11 /\ closes bc (if fl then [slot] else []) p11 p12 /\ jumps bc OpJump p12 p13 p2 /\
  at_ bc p13 (INone OpPop) p14 /\ at_ bc p14 (INone OpPushUnit) q.
Definition iter_code (lit : nat -> fn_bytecode) (G : ctx) (k : nat) (x : string) (body : expr) (p4 q : nat) : Prop :=
  let bc := g_bc G in
  exists fl p5 p6 p7 p8 p9 p10 p11 p12 p13 p14 p15 p16 p17,
  let slot := List.length (g_vars G) in
  let G' := with_loop None (extend [(x, fl)] (g_deep 1 G)) in
  has_room G /\
  at_ bc p4 (IByte OpDup 0) p5 /\ at_ bc p5 (IByte OpCall 0) p6 /\ at_ bc p6 (IByte OpDup 0) p7 /\
  at_const bc OpLoadField (CSymbol "is_done") p7 p8 /\ jumps bc OpJumpIfTrue p8 p9 p15 /\
  (exists i, at_ bc p9 (ITwo OpLoadFieldToLocal i slot) p10 /\ nth_error (bc_constants bc) i = Some (CSymbol "value")) /\
  at_ bc p10 (INone OpPop) p11 /\ code lit G' k body p11 p12 /\ at_ bc p12 (INone OpPop) p13 /\
  closes bc (if fl then [slot] else []) p13 p14 /\ jumps bc OpJump p14 p15 p4 /\
  at_ bc p15 (INone OpPop) p16 /\ at_ bc p16 (INone OpPop) p17 /\ at_ bc p17 (INone OpPushUnit) q.

Section Loop.
Variable w : world.
Variable lit : nat -> fn_bytecode.
Notation Inv := (Inv lit).
Notation code := (code lit).

Definition sim_range (I : interp) : Prop :=
  (forall G S fr ups lt rho V b m K t k inclusive x body v limit p q,
     here lit (g_in G) S fr ups lt rho V b m K t -> enough + 1 <= s_room S -> range_code lit G k inclusive x body p q ->
     post w lit (g_in G) fr ups lt rho V b p (state m K b (v :: limit :: t)) t q (i_range I S k inclusive x body v limit m)) /\
  (forall S k inclusive x body v limit m, s_room S < enough + 1 -> i_range I S k inclusive x body v limit m = AUnknown).
Definition sim_iter (I : interp) : Prop :=
  (forall G S fr ups lt rho V b m K t k x body next p q,
     here lit (g_in G) S fr ups lt rho V b m K t -> enough + 1 <= s_room S -> iter_code lit G k x body p q ->
     post w lit (g_in G) fr ups lt rho V b p (state m K b (next :: t)) t q (i_iter I S k x body next m)) /\
  (forall S k x body next m, s_room S < enough + 1 -> i_iter I S k x body next m = AUnknown).

Variable I : interp.
Variables (fr : frame) (ups : option (list nat)).
Variables (rho0 : names_of) (V0 : view) (b0 : list value) (p0 : nat) (m0 : memory) (K0 : links) (t0 ts : list value).
Variables (G : ctx) (S : scene) (lt : list value) (P : answer -> Prop) (q0 : nat).
Notation s0 := (state m0 K0 b0 ts).
Notation bc := (g_bc G).
Notation reached := (reached w lit fr ups rho0 V0 b0 p0 s0 bc).
Hypothesis SE : sim_eval w lit I.
Hypothesis IMP : sim_import w lit I.
Hypothesis SC : sim_call w lit I.
Hypothesis SR : sim_range I.
Hypothesis SI : sim_iter I.
Hypothesis HV : forall v rho b m K, reached q0 (v :: t0) rho V0 b m K -> P (AVal v m).

Section While.
Hypothesis H0 : here lit G S fr ups lt rho0 V0 b0 m0 K0 t0.
Hypothesis HP : closed w lit P G fr ups lt rho0 V0 b0 p0 s0 t0.
Hypothesis ROOM : enough <= s_room S.
Hypothesis ET : ts = t0.
Variable z : nat.
Hypothesis AZ : at_ bc z (INone OpPushUnit) q0.
Notation G' := (with_loop (Some (Loop (List.length (g_vars G)) z (Some p0) (g_depth G))) (g_in G)).

Lemma scope_cut V : (forall i, i < fr_start fr + List.length (g_vars G) -> V i = V0 i) -> forall i, V0 i = cut (fr_start fr + List.length (g_vars G)) V i.
Proof.
  intros X i. unfold cut. destruct (Nat.ltb_spec i (fr_start fr + List.length (g_vars G))); [symmetry; auto|].
  apply (sc_free _ _ _ _ _ _ (h_scope _ _ _ _ _ _ _ _ _ _ _ _ H0)). assumption.
Qed.

Lemma loop_here rho b m K p t : reached p t rho V0 b m K -> here lit G' (inner S) fr ups t0 rho V0 b m K t0.
Proof.
  intros R. pose proof (reached_len _ _ _ _ _ _ _ _ _ _ _ _ _ _ _ _ _ R) as L. destruct H0 as [A1 A2 A3 A4 A5 A6 A7 A8]. split; cbn [with_loop g_in g_deep g_vars g_fn g_null g_depth g_loop inner s_fn s_chain s_room s_env lp_depth lp_vars]; auto; try lia.
  - eapply scope_ctx; [eapply scope_ext; [eapply reached_ext; exact R|exact A1]| | | |]; reflexivity.
  - eapply reached_inv; exact R.
  - split; [exists []; reflexivity|]. split; lia.
Qed.
Lemma loop_closed e k (Q : answer -> Prop) : code G k e p0 q0 ->
  (forall a, match a with AVal _ _ => False | _ => True end -> P (again a (i_eval I S k e)) -> Q a) ->
  closed w lit Q G' fr ups t0 rho0 V0 b0 p0 s0 t0.
Proof.
  intros C HQ a Na Ra. apply HQ; auto. assert (UF : forall (b : list value), List.length b = List.length b0 -> fits b t0 1).
  { intros b' L. pose proof (h_room _ _ _ _ _ _ _ _ _ _ _ _ H0). unfold fits, enough in *. lia. }
  assert (ST : reached p0 t0 rho0 V0 b0 m0 K0) by (rewrite <- ET; eapply start; eauto).
  assert (OUT : match a with AReturn _ _ | AFail _ _ | ACrash | AUnknown => True | _ => False end -> P a).
  { intros Ha. apply HP; auto. eapply (rest_inner w lit) with (G1 := G') (t1 := t0) (t1' := ts); [reflexivity| |reflexivity| |exact Ha|exact Ra]; [eapply start; eauto|auto]. }
  destruct a as [v m'|m'|m'|v m'|m'|er m'| |]; try contradiction; cbn [again]; try (apply OUT; exact Logic.I).
  - cbn [rest with_loop g_loop lp_break lp_vars] in Ra. destruct Ra as (rho' & b' & K' & L & GD).
    assert (R1 : reached z t0 rho' V0 b' m' K').
    { split; [exact L|]. eapply good_view; [exact GD|]. apply scope_cut; auto. }
    eapply HV. eapply reach_step_; [exact R1|]. eapply lead_push; [exact AZ|reflexivity|apply UF; eapply reached_len; exact R1].
  - cbn [rest with_loop g_loop lp_break lp_vars] in Ra. destruct Ra as (rho' & b' & K' & L & GD).
    assert (R1 : reached p0 t0 rho' V0 b' m' K').
    { split; [exact L|]. eapply good_view; [exact GD|]. apply scope_cut; auto. }
    eapply use_again; [exact H0|exact HP|exact SE|exact R1|exact C|intros; eapply HV; eassumption].
Qed.

Lemma loop_start : reached p0 t0 rho0 V0 b0 m0 K0.
Proof. rewrite <- ET. eapply start; eauto. Qed.
Lemma loop_block e k k' es t p p3 p4 rho b m K : code G k e p0 q0 -> reached p t0 rho V0 b m K ->
  block_code code true G' k' es t p p3 -> jumps bc OpJump p3 p4 p0 ->
  P (again (block lit I (inner S) k' es t m) (i_eval I S k e)).
Proof.
  intros C R CB J. pose proof (loop_here _ _ _ _ _ _ loop_start) as H1.
  apply (block_sim w lit I fr ups rho0 V0 b0 p0 m0 K0 t0 ts G' (inner S) t0 (fun a => P (again a (i_eval I S k e))) H1 eq_refl
    (loop_closed e k _ C (fun a _ h => h)) ROOM SE IMP true k' es t p p3 rho b m K); [exact R|exact CB|].
  intros v rho' b' m' K' R1. cbn [again]. cbn [app] in R1.
  assert (R2 : reached p0 t0 rho' V0 b' m' K') by (eapply reach_step_; [exact R1|]; eapply lead_jump; exact J).
  eapply use_again; [exact H0|exact HP|exact SE|exact R2|exact C|intros; eapply HV; eassumption].
Qed.
End While.

Lemma sim_loop k es t (H0 : here lit G S fr ups lt rho0 V0 b0 m0 K0 t0) (HP : closed w lit P G fr ups lt rho0 V0 b0 p0 s0 t0) (ROOM : enough <= s_room S) :
  ts = t0 -> code G k (ELoop (EBlock es t)) p0 q0 -> P (again (block lit I (inner S) k es t m0) (i_eval I S k (ELoop (EBlock es t)))).
Proof.
  intros ET C. pose proof C as (p3 & p4 & CB & J & A). eapply loop_block; eauto. eapply loop_start; eauto.
Qed.
Lemma sim_while k c es t (H0 : here lit G S fr ups lt rho0 V0 b0 m0 K0 t0) (HP : closed w lit P G fr ups lt rho0 V0 b0 p0 s0 t0) (ROOM : enough <= s_room S) :
  ts = t0 -> code G k (EWhile c (EBlock es t)) p0 q0 ->
  P (match i_eval I (inner S) k c m0 with
      | AVal v m1 => as_condition v m1 (fun b =>
          if b then again (block lit I (inner S) (k + fns c) es t m1) (i_eval I S k (EWhile c (EBlock es t))) else AVal VUnit m1)
      | a => again a (i_eval I S k (EWhile c (EBlock es t)))
      end).
Proof.
  intros ET C. pose proof C as (p1 & p2 & p3 & p4 & C1 & J1 & CB & J2 & A).
  pose proof (loop_start H0 ET) as R0. pose proof (loop_here H0 ROOM p4 _ _ _ _ _ _ R0) as H1.
  set (F := i_eval I S k (EWhile c (EBlock es t))) in *.
  set (Q := fun a => P (match a with AVal v m1 => as_condition v m1 (fun b =>
          if b then again (block lit I (inner S) (k + fns c) es t m1) F else AVal VUnit m1) | a => again a F end)).
  cut (Q (i_eval I (inner S) k c m0)); [unfold Q; destruct (i_eval I (inner S) k c m0); exact (fun h => h)|]. rewrite <- (vbind_val (i_eval _ _ _ _ _)).
  assert (CQ : closed w lit Q (with_loop (Some (Loop (List.length (g_vars G)) p4 (Some p0) (g_depth G))) (g_in G)) fr ups t0 rho0 V0 b0 p0 s0 t0).
  { eapply loop_closed; [exact H0|exact HP|exact ROOM|exact ET|exact A|exact C|]. intros a Na. unfold Q. destruct a; try contradiction; auto. }
  eapply (use_again_bind w lit I fr ups rho0 V0 b0 p0 m0 K0 t0 ts _ (inner S) t0 Q H1 CQ SE); [exact R0|exact C1|].
  intros v m1 rho1 b1 K1 R1. unfold Q. cbn [with_loop g_bc] in R1.
  assert (UF : fits b1 t0 1).
  { pose proof (h_room _ _ _ _ _ _ _ _ _ _ _ _ H0). pose proof (reached_len _ _ _ _ _ _ _ _ _ _ _ _ _ _ _ _ _ R1). unfold fits, enough in *. lia. }
  unfold as_condition. destruct v; try (eapply (so_fail w); [eapply use_sound; [exact HP|exact R1]|]; eapply fails_at, lead_j_err; [exact J1|now left|exact UF|exact Logic.I]).
  assert (R2 : reached (if b then p2 else p4) t0 rho1 V0 b1 m1 K1) by (eapply reach_step_; [exact R1|apply lead_jif; [exact J1|exact UF]]).
  destruct b.
  - eapply loop_block; [exact H0|exact HP|exact ROOM|exact ET|exact A|exact C|exact R2|exact CB|exact J2].
  - eapply HV. eapply reach_step_; [exact R2|]. eapply lead_push; [exact A|reflexivity|exact UF].
Qed.

(** [for]. *)
Section For.
Hypothesis H0 : here lit (g_in G) S fr ups lt rho0 V0 b0 m0 K0 t0.
Hypothesis HP : closed w lit P (g_in G) fr ups lt rho0 V0 b0 p0 s0 t0.
Hypothesis ROOM : enough + 1 <= s_room S.

Ltac lens := repeat match goal with R : SimP.reached _ _ _ _ _ _ _ _ _ _ _ _ _ _ ?b _ _ |- _ =>
    lazymatch goal with
    | H : List.length b = List.length b0 |- _ => fail
    | _ => pose proof (reached_len _ _ _ _ _ _ _ _ _ _ _ _ _ _ _ _ _ R)
    end end.
Ltac ft := match goal with |- ?g => tryif has_evar g then fail else idtac end; lens; pose proof (h_room _ _ _ _ _ _ _ _ _ _ _ _ H0); unfold fits, enough in *; cbn [List.length app] in *;
  rewrite ?app_length, ?rev_length, ?set_nth_len in *; cbn [List.length] in *; lia.
Ltac go R L := eapply reach_step_ in R; [|solve [eapply L; first [eassumption | reflexivity | ft]]].

(** The loop variable. *)
Lemma for_var fl (x : string) v t p rho b m K : reached p t rho V0 b m K -> has_room G -> nth_error b (fr_start fr + List.length (g_vars G)) = Some v ->
  let V1 := put (fr_start fr + List.length (g_vars G)) (List.length (m_cells m)) fl V0 in
  reached p t rho V1 b (set_cells (m_cells m ++ [Some v]) m) K /\ (forall i, i < fr_start fr + List.length (g_vars G) -> V1 i = V0 i) /\ scope_ok (extend [(x, fl)] G) fr ups rho V1 ((x, List.length (m_cells m)) :: s_env S).
Proof.
  intros R HR E V1. destruct (h_scope _ _ _ _ _ _ _ _ _ _ _ _ H0) as [(El & Eo & A & BL & C) SF SS SV]. cbn [g_in g_deep g_vars g_bc g_outer g_ups] in *.
  unfold has_room in HR. split; [|split].
  - pose proof (reached_inv _ _ _ _ _ _ _ _ _ _ _ _ _ _ _ _ _ R) as HI. destruct R as (L & [G1' G2 G3]). split; [exact L|]. split; auto. apply Inv_put; auto.
  - intros i Hi. apply put_other. lia.
  - split; cbn [extend g_vars g_bc g_outer g_ups app List.length].
    + exists ((x, List.length (m_cells m)) :: El), Eo. rewrite A. split; [reflexivity|]. split; [|eapply captured_ext; [eapply reached_ext; exact R|exact C]]. cbn [locals]. split; [reflexivity|]. split; [apply put_same|].
      eapply locals_ext; [|exact BL]. intros i Hi. apply put_other. lia.
    + intros i Hi. unfold V1. rewrite put_other by lia. apply SF. lia.
    + exact SS.
    + lia.
Qed.
Lemma for_cut V : (forall i, i < fr_start fr + List.length (g_vars G) -> V i = V0 i) -> forall i, V0 i = cut (fr_start fr + List.length (g_vars G)) V i.
Proof.
  intros X i. unfold cut. destruct (Nat.ltb_spec i (fr_start fr + List.length (g_vars G))); [symmetry; auto|].
  apply (sc_free _ _ _ _ _ _ (h_scope _ _ _ _ _ _ _ _ _ _ _ _ H0)). assumption.
Qed.
(** The end of a round. *)
Lemma for_close fl x l V t p q rho b m K : reached p t rho V b m K ->
  (forall i, i < fr_start fr + List.length (g_vars G) -> V i = V0 i) ->
  scope_ok (extend [(x, fl)] G) fr ups rho V ((x, l) :: s_env S) ->
  closes bc (if fl : bool then [List.length (g_vars G)] else []) p q -> fits b t 0 ->
  exists b' K', reached q t rho V0 b' m K'.
Proof.
  intros R X SCP C F.
  assert (C' : closes bc (flagged (List.length (g_vars G)) [(x, fl)]) p q) by (cbn [flagged app List.length]; rewrite Nat.add_0_r; exact C).
  destruct (closes_sim w lit fr ups G [(x, fl)] rho V _ b m K t p q SCP (reached_inv _ _ _ _ _ _ _ _ _ _ _ _ _ _ _ _ _ R) C') as (b' & K' & L & HI & KP); [|exact F|].
  - rewrite (reached_len _ _ _ _ _ _ _ _ _ _ _ _ _ _ _ _ _ R). apply H0.
  - exists b', K'. eapply reach_view; [eapply reach_good; [exact R|exact L| |]|].
    + split; [exact HI|apply ext_refl|eapply keep_le; [exact KP|lia]].
    + intros i Hi. apply X. lia.
    + apply for_cut. exact X.
Qed.

Lemma range_again k inclusive x body v limit p rho b m K : reached p (v :: limit :: t0) rho V0 b m K -> range_code lit G k inclusive x body p q0 ->
  P (i_range I S k inclusive x body v limit m).
Proof.
  intros R C. assert (H1 : here lit (g_in G) S fr ups lt rho V0 b m K t0).
  { eapply here_now; [exact H0|eapply reached_inv|eapply reached_ext|eapply reached_len]; exact R. }
  pose proof (proj1 SR _ _ _ _ _ _ _ _ _ _ _ k inclusive x body v limit p q0 H1 ROOM C) as PO.
  destruct (i_range I S k inclusive x body v limit m) as [y m'|m'|m'|y m'|m'|er m'| |] eqn:EA; cbn [post] in PO;
    try (apply HP; [exact Logic.I|]; eapply (rest_from w lit); [reflexivity|exact R|reflexivity|reflexivity| |auto|left; reflexivity|exact PO]; eapply use_loop; eauto).
  destruct PO as (rho' & b' & K' & L & GD). eapply HV. eapply reach_good; [exact R|exact L|exact GD|auto].
Qed.
Lemma iter_again k x body next p rho b m K : reached p (next :: t0) rho V0 b m K -> iter_code lit G k x body p q0 ->
  P (i_iter I S k x body next m).
Proof.
  intros R C. assert (H1 : here lit (g_in G) S fr ups lt rho V0 b m K t0).
  { eapply here_now; [exact H0|eapply reached_inv|eapply reached_ext|eapply reached_len]; exact R. }
  pose proof (proj1 SI _ _ _ _ _ _ _ _ _ _ _ k x body next p q0 H1 ROOM C) as PO.
  destruct (i_iter I S k x body next m) as [y m'|m'|m'|y m'|m'|er m'| |] eqn:EA; cbn [post] in PO;
    try (apply HP; [exact Logic.I|]; eapply (rest_from w lit); [reflexivity|exact R|reflexivity|reflexivity| |auto|left; reflexivity|exact PO]; eapply use_loop; eauto).
  destruct PO as (rho' & b' & K' & L & GD). eapply HV. eapply reach_good; [exact R|exact L|exact GD|auto].
Qed.

Lemma for_here ol fl x l V1 u p rho b m K : reached p (u :: t0) rho V1 b m K ->
  (ol = None \/ exists z, ol = Some (Loop (List.length (g_vars G)) z None (Datatypes.S (g_depth G)))) ->
  scope_ok (extend [(x, fl)] G) fr ups rho V1 ((x, l) :: s_env S) ->
  here lit (with_loop ol (extend [(x, fl)] (g_deep 1 G))) (declare x l (deep 1 S)) fr ups (u :: t0) rho V1 b m K (u :: t0).
Proof.
  intros R OL SCP. pose proof (reached_len _ _ _ _ _ _ _ _ _ _ _ _ _ _ _ _ _ R) as L. destruct H0 as [A1 A2 A3 A4 A5 A6 A7 A8].
  cbn [g_in g_deep g_fn g_depth] in *. unfold enough in *.
  split; cbn [with_loop g_in g_deep g_vars g_fn g_null g_depth g_loop declare deep extend s_fn s_chain s_room s_env lp_depth lp_vars app List.length]; auto; try lia.
  - eapply scope_ctx; [exact SCP| | | |]; reflexivity.
  - eapply reached_inv; exact R.
  - destruct OL as [->|(z & ->)]; auto. cbn [lp_depth lp_vars]. split; [exists []; reflexivity|]. split; lia.
Qed.

Lemma range_sim k inclusive x body v limit : ts = v :: limit :: t0 -> range_code lit G k inclusive x body p0 q0 ->
  P (range w I S k inclusive x body v limit m0).
Proof.
  intros ET C. pose proof C as (fl & p3 & p4 & p5 & p6 & p7 & p8 & p9 & p10 & p11 & p12 & p13 & p14 & HR & A1 & A2 & A3 & J & CB & A4 & A5 & A6 & A7 & CL & J2 & A8 & A9).
  set (slot := List.length (g_vars G)) in *. unfold range. destruct (Nat.ltb_spec (s_room S) (enough + 1)); [lia|].
  assert (FE : fr_end fr <= List.length b0) by apply H0. pose proof (h_scope _ _ _ _ _ _ _ _ _ _ _ _ H0) as SCP0.
  assert (SL : fr_start fr + slot < fr_end fr) by (pose proof (sc_slots _ _ _ _ _ _ SCP0) as SS; unfold has_room in HR; cbn [g_in g_deep g_bc] in SS; lia).
  assert (R0 : reached p0 (v :: limit :: t0) rho0 V0 b0 m0 K0) by (rewrite <- ET; apply (start w lit fr ups rho0 V0 b0 p0 m0 K0 t0 ts (g_in G) S lt H0)).
  assert (R1 : reached p3 (v :: limit :: t0) rho0 V0 (set_nth b0 (fr_start fr + slot) v) m0 K0).
  { eapply reach_good; [exact R0|apply (lead_write_local w _ _ _ false); [exact A1|lia|lia|ft]| |auto].
    split; [|apply ext_refl|apply keep_set; intros; lia]. eapply Inv_stack; [apply H0|]. intros i Vi. apply nth_error_set_nth_neq. intros Q. apply Vi.
    apply (sc_free _ _ _ _ _ _ SCP0). cbn [g_in g_deep g_vars]. fold slot. lia. }
  go R1 (lead_dup w bc fr ups 1 limit).
  assert (VS : V0 (fr_start fr + slot) = None) by (apply (sc_free _ _ _ _ _ _ SCP0); cbn [g_in g_deep g_vars]; fold slot; lia).
  assert (ROOM4 : enough <= s_room S) by lia.
  assert (FIN : forall u rho b m K, reached p13 (u :: t0) rho V0 b m K -> P (AVal VUnit m)).
  { intros u rho b m K R. go R lead_pop. go R (lead_push w bc fr ups OpPushUnit VUnit). eapply HV; exact R. }
  eapply (use_operate_in w lit I fr ups rho0 V0 b0 p0 m0 K0 t0 ts (g_in G) S lt P H0 HP ROOM4 SC V0 (s_room S - 1) [limit]);
    [auto|exact R1|cbn [List.length]; unfold enough in *; lia|unfold enough in *; lia|exact A3|destruct inclusive; reflexivity|].
  intros c m1 rho1 b1 K1 GD R2. unfold as_condition.
  destruct c; try (eapply (so_fail w); [eapply use_sound; [exact HP|exact R2]|]; eapply fails_at, lead_j_err; [exact J|now left|ft|exact Logic.I]).
  assert (R3 : reached (if b then p6 else p13) (limit :: t0) rho1 V0 b1 m1 K1) by (eapply reach_step_; [exact R2|apply lead_jif; [exact J|ft]]).
  destruct b; [|eapply FIN; exact R3]. cbn [alloc].
  assert (EV : nth_error b1 (fr_start fr + slot) = Some v).
  { destruct GD as [_ _ (_ & KP)]. rewrite KP; [apply nth_error_set_nth_eq; lia|rewrite set_nth_len; lia|exact VS]. }
  destruct (for_var fl x v _ _ _ _ _ _ R3 HR EV) as (R4 & XV & SCP). fold slot in R4, XV, SCP. set (l := List.length (m_cells m1)) in *.
  set (V1 := put (fr_start fr + slot) l fl V0) in *. set (m2 := set_cells (m_cells m1 ++ [Some v]) m1) in *.
  assert (HH := for_here (Some (Loop slot p13 None (Datatypes.S (g_depth G)))) fl x l V1 limit _ _ _ _ _ R4 (or_intror (ex_intro _ p13 eq_refl)) SCP).
  assert (RM : enough <= s_room (declare x l (deep 1 S))) by (cbn [declare deep s_room]; unfold enough in *; lia).
  pose proof (proj1 SE _ _ _ _ _ _ _ _ _ _ _ _ _ _ _ HH RM CB) as PO.
  destruct (i_eval I (declare x l (deep 1 S)) k body m2) as [y m'|m'|m'|y m'|m'|er m'| |] eqn:EA; cbn [post] in PO.
  - destruct (nth_error (m_cells m') l) as [[y'|]|] eqn:EC; try (apply HP; exact Logic.I).
    destruct PO as (rho' & b' & K' & L & GD2).
    assert (R5 : reached p7 (y :: limit :: t0) rho' V1 b' m' K') by (eapply reach_good; [exact R4|exact L|exact GD2|intros; apply XV; lia]).
    assert (SCP' : scope_ok (extend [(x, fl)] G) fr ups rho' V1 ((x, l) :: s_env S)) by (eapply scope_ext; [apply GD2|exact SCP]).
    go R5 lead_pop.
    assert (EY : nth_error b' (fr_start fr + slot) = Some y').
    { eapply (i_val _ _ _ _ _ _ (gd_inv _ _ _ _ _ _ _ _ _ _ GD2)); [apply put_same|exact EC]. }
    eapply reach_step_ in R5; [|eapply (lead_load_local w bc fr ups slot y'); [exact A5|exact SL|rewrite (reached_len _ _ _ _ _ _ _ _ _ _ _ _ _ _ _ _ _ R5); lia|exact EY|ft]].
    go R5 (lead_push w bc fr ups OpPushI1 (VInt 1)).
    eapply (use_operate_in w lit I fr ups rho0 V0 b0 p0 m0 K0 t0 ts (g_in G) S lt P H0 HP ROOM4 SC V1 (s_room S - 1) [limit]);
      [intros; apply XV; lia|exact R5|cbn [List.length]; unfold enough in *; lia|unfold enough in *; lia|exact A7|reflexivity|].
    intros nx m5 rho5 b5 K5 GD5 R6.
    destruct (for_close fl x l V1 _ _ _ _ _ _ _ R6 XV (scope_ext _ _ _ _ _ _ _ (gd_ext _ _ _ _ _ _ _ _ _ _ GD5) SCP') CL) as (b6 & K6 & R7); [ft|].
    eapply reach_step_ in R7; [|eapply lead_jump; exact J2]. eapply range_again; [exact R7|exact C].
  - cbn [rest with_loop g_loop lp_break lp_vars] in PO. destruct PO as (rho' & b' & K' & L & GD2).
    eapply FIN. eapply reach_view; [eapply reach_good; [exact R4|exact L|exact GD2|intros; apply XV; lia]|]. apply for_cut. exact XV.
  - apply HP; exact Logic.I.
  - apply HP; [exact Logic.I|]. eapply (rest_inner w lit) with (lt1 := limit :: t0) (t1 := limit :: t0); [reflexivity|exact R4|reflexivity|intros; apply XV; lia|exact Logic.I|exact PO].
  - contradiction.
  - apply HP; [exact Logic.I|]. eapply (rest_inner w lit) with (lt1 := limit :: t0) (t1 := limit :: t0); [reflexivity|exact R4|reflexivity|intros; apply XV; lia|exact Logic.I|exact PO].
  - apply HP; [exact Logic.I|]. eapply (rest_inner w lit) with (lt1 := limit :: t0) (t1 := limit :: t0); [reflexivity|exact R4|reflexivity|intros; apply XV; lia|exact Logic.I|exact PO].
  - apply HP; exact Logic.I.
Qed.

Lemma iter_sim k x body next : ts = next :: t0 -> iter_code lit G k x body p0 q0 -> P (EvalSpec.iter I S k x body next m0).
Proof.
  intros ET C. pose proof C as (fl & p5 & p6 & p7 & p8 & p9 & p10 & p11 & p12 & p13 & p14 & p15 & p16 & p17 & HR & A1 & A2 & A3 & A4 & J & (ci & A5 & ECI) & A6 & CB & A7 & CL & J2 & A8 & A9 & A10).
  set (slot := List.length (g_vars G)) in *. unfold EvalSpec.iter. destruct (Nat.ltb_spec (s_room S) (enough + 1)); [lia|].
  assert (FE : fr_end fr <= List.length b0) by apply H0. pose proof (h_scope _ _ _ _ _ _ _ _ _ _ _ _ H0) as SCP0.
  assert (SL : fr_start fr + slot < fr_end fr) by (pose proof (sc_slots _ _ _ _ _ _ SCP0) as SS; unfold has_room in HR; cbn [g_in g_deep g_bc] in SS; lia).
  assert (R0 : reached p0 (next :: t0) rho0 V0 b0 m0 K0) by (rewrite <- ET; apply (start w lit fr ups rho0 V0 b0 p0 m0 K0 t0 ts (g_in G) S lt H0)).
  assert (VS : V0 (fr_start fr + slot) = None) by (apply (sc_free _ _ _ _ _ _ SCP0); cbn [g_in g_deep g_vars]; fold slot; lia).
  assert (ROOM4 : enough <= s_room S) by lia.
  assert (R1 := R0). go R1 (lead_dup w bc fr ups 0 next).
  eapply (use_call_in w lit I fr ups rho0 V0 b0 p0 m0 K0 t0 ts (g_in G) S lt P H0 HP ROOM4 SC V0 (s_room S - 1) [next] next []);
    [auto|exact R1|cbn [List.length]; unfold enough in *; lia|exact A2|].
  intros r m1 rho1 b1 K1 GD R2. cbn [app] in R2. go R2 (lead_dup w bc fr ups 0 r).
  eapply (use_vm w lit fr ups rho0 V0 b0 p0 m0 K0 t0 ts (g_in G) lt P HP); [exact R2|apply lead_load_field; [exact A4|ft]|]. cbv beta.
  intros d m2 R3. unfold as_condition.
  destruct d; try (eapply (so_fail w); [eapply use_sound; [exact HP|exact R3]|]; eapply fails_at, lead_j_err; [exact J|now right|ft|exact Logic.I]).
  assert (R4 : reached (if b then p15 else p9) (r :: next :: t0) rho1 V0 b1 m2 K1) by (eapply reach_step_; [exact R3|apply lead_jit; [exact J|ft]]).
  destruct b.
  { go R4 lead_pop. go R4 lead_pop. go R4 (lead_push w bc fr ups OpPushUnit VUnit). eapply HV; exact R4. }
  assert (FE1 : fr_end fr <= List.length b1) by (rewrite (reached_len _ _ _ _ _ _ _ _ _ _ _ _ _ _ _ _ _ R4); exact FE).
  eapply (with_vm_sim w); [eapply lead_field_to_local with (t := next :: t0); [exact A5|exact ECI|exact SL|exact FE1|ft]|eapply P_sound with (G := g_in G); [reflexivity|exact HP|exact R4]|].
  cbv beta. intros v s' L1. cbn [alloc].
  assert (R5 : reached p10 (v :: next :: t0) rho1 V0 (set_nth b1 (fr_start fr + slot) v) (set_vm s' m2) K1).
  { eapply reach_good; [exact R4|exact L1| |auto]. split; [|apply ext_refl|apply keep_set; intros; lia].
    eapply Inv_stack; [apply Inv_vm; eapply reached_inv; exact R4|]. intros i Vi. apply nth_error_set_nth_neq. congruence. }
  go R5 lead_pop.
  assert (EV : nth_error (set_nth b1 (fr_start fr + slot) v) (fr_start fr + slot) = Some v) by (apply nth_error_set_nth_eq; lia).
  destruct (for_var fl x v _ _ _ _ _ _ R5 HR EV) as (R6 & XV & SCP). fold slot in R6, XV, SCP. set (l := List.length (m_cells (set_vm s' m2))) in *.
  set (V1 := put (fr_start fr + slot) l fl V0) in *.
  assert (HH := for_here None fl x l V1 next _ _ _ _ _ R6 (or_introl eq_refl) SCP).
  assert (RM : enough <= s_room (declare x l (deep 1 S))) by (cbn [declare deep s_room]; unfold enough in *; lia).
  pose proof (proj1 SE _ _ _ _ _ _ _ _ _ _ _ _ _ _ _ HH RM CB) as PO.
  match goal with |- P (match ?X with _ => _ end) => destruct X as [y m'|m'|m'|y m'|m'|er m'| |] eqn:EA end; cbn [post] in PO.
  - destruct PO as (rho' & b' & K' & L & GD2).
    assert (R7 : reached p12 (y :: next :: t0) rho' V1 b' m' K') by (eapply reach_good; [exact R6|exact L|exact GD2|intros; apply XV; lia]).
    assert (SCP' : scope_ok (extend [(x, fl)] G) fr ups rho' V1 ((x, l) :: s_env S)) by (eapply scope_ext; [apply GD2|exact SCP]).
    go R7 lead_pop.
    destruct (for_close fl x l V1 _ _ _ _ _ _ _ R7 XV SCP' CL) as (b6 & K6 & R8); [ft|].
    eapply reach_step_ in R8; [|eapply lead_jump; exact J2]. eapply iter_again; [exact R8|exact C].
  - apply HP; exact Logic.I.
  - apply HP; exact Logic.I.
  - apply HP; [exact Logic.I|]. eapply (rest_inner w lit) with (lt1 := next :: t0) (t1 := next :: t0); [reflexivity|exact R6|reflexivity|intros; apply XV; lia|exact Logic.I|exact PO].
  - contradiction.
  - apply HP; [exact Logic.I|]. eapply (rest_inner w lit) with (lt1 := next :: t0) (t1 := next :: t0); [reflexivity|exact R6|reflexivity|intros; apply XV; lia|exact Logic.I|exact PO].
  - apply HP; [exact Logic.I|]. eapply (rest_inner w lit) with (lt1 := next :: t0) (t1 := next :: t0); [reflexivity|exact R6|reflexivity|intros; apply XV; lia|exact Logic.I|exact PO].
  - apply HP; exact Logic.I.
Qed.
End For.
End Loop.
