(** When the state of the compiler fits finished bytecode, and what code its elementary actions leave there. *)
From Verif.Model Require Import Compiler.
From Verif.Spec Require Import Encoding SupportSpec.
From Verif.Proofs Require Import ExprInd ReachP CodeP CodecP AssemblerP PoolP WellFormedP WellFormedPrimP CaptureP StackP EmitP VisitMonoP.
#[local] Open Scope string_scope.
#[local] Open Scope list_scope.
#[local] Open Scope nat_scope.

Definition drop (d : nat) (G : ctx) : ctx :=
  Ctx (g_bc G) (skipn d (g_vars G)) (g_ups G) (g_outer G) (g_fn G) (g_loop G) (g_null G) (g_depth G).
Lemma drop_0 G : drop 0 G = G. Proof. destruct G; reflexivity. Qed.
Lemma skipn_skipn {A} a b (l : list A) : skipn a (skipn b l) = skipn (b + a) l.
Proof. revert l. induction b as [|b IH]; intros l; [reflexivity|]. destruct l; [now rewrite !skipn_nil|]. cbn. apply IH. Qed.
Lemma drop_drop a b G : drop a (drop b G) = drop (b + a) G.
Proof. unfold drop. cbn. f_equal. apply skipn_skipn. Qed.

(** What the code format can hold, and [lit] naming every function. *)
Inductive tame (lit : nat -> fn_bytecode) : bytecode -> Prop :=
| Tame bc : (Z.of_nat (List.length (bc_data bc)) <= 32767)%Z -> bc_slot_count bc <= 256 -> bc_upvalue_count bc <= 256 ->
    (forall f, In (CFunction f) (bc_constants bc) -> lit (fn_id f) = f /\ tame lit (fn_code f)) -> tame lit bc.

Definition agree : list scope_var -> vars -> Prop :=
  Forall2 (fun v g => fst g = sv_name v /\ (sv_captured v = true -> snd g = true)).
Definition level_ok (c : context) (l : level) : Prop := agree (cvars c) (fst l) /\ prefix (cx_upvalues c) (snd l).
(** The jump with its offset at [j] ends up at [t]. *)
Definition offset_at (d : list byte) (j t : nat) : Prop :=
  nth_error d j = nth_error (be16 (Z.of_nat (t - j - 2))) 0 /\ nth_error d (S j) = nth_error (be16 (Z.of_nat (t - j - 2))) 1.
Definition goes (bc : bytecode) (j t : nat) : Prop := j + 2 <= t /\ t <= List.length (bc_data bc) /\ offset_at (bc_data bc) j t.
Definition pend (s : cstate) (i : nat) : Prop :=
  exists x, (In x (hd [] (loops (scopes s))) \/ In x (cc_exits (call_of s))) /\ (i = x \/ i = S x).
Definition loop_entry (s : cstate) : option (option nat) := option_map sc_entry (find is_loop (scopes s)).

Definition role_of (k : compiler_kind) : option role :=
  match k with KFunction r | KMethod r => Some (Returning r) | KConstructor => Some Constructing | _ => None end.
Record static (lit : nat -> fn_bytecode) (c : chain_place) (G : ctx) (b : nat) (s : cstate) : Prop := {
  f_tame : tame lit (g_bc G);
  f_len : pos s <= List.length (bc_data (g_bc G));
  f_consts : prefix (consts s) (bc_constants (g_bc G));
  f_ups : prefix (ups s) (g_ups G);
  f_count : List.length (g_ups G) = bc_upvalue_count (g_bc G);
  f_vars : agree (all_vars (scopes s)) (g_vars G);
  f_outer : Forall2 level_ok (outer s) (g_outer G);
  f_slots : slot_count s <= bc_slot_count (g_bc G);
  f_fn : g_fn G = role_of (kind s);
  f_loop : forall l, g_loop G = Some l -> loop_entry s = Some (lp_next l) /\
    forall x, In x (hd [] (loops (scopes s))) -> b <= x -> goes (g_bc G) x (lp_break l);
  f_null : forall z, c = Spine -> g_null G = Some z -> forall x, In x (cc_exits (call_of s)) -> b <= x -> goes (g_bc G) x z }.
Record fits (lit : nat -> fn_bytecode) (c : chain_place) (G : ctx) (b : nat) (s : cstate) : Prop := {
  f_static :> static lit c G b s;
  f_bytes : forall i, b <= i < pos s -> ~ pend s i -> nth_error (data s) i = nth_error (bc_data (g_bc G)) i }.

(** ** Going back *)
Definition keeps (p q : nat) (s s' : cstate) : Prop := forall i, p <= i < q -> nth_error (data s') i = nth_error (data s) i.
Lemma keeps_refl p q s : keeps p q s s. Proof. intros i _. reflexivity. Qed.
Lemma keeps_trans p q s1 s2 s3 : keeps p q s1 s2 -> keeps p q s2 s3 -> keeps p q s1 s3.
Proof. intros A B i H. rewrite B, A; auto. Qed.
Lemma below_keeps b p q s s' : q <= b -> below b s s' -> keeps p q s s'.
Proof. intros L H i Hi. apply H. lia. Qed.

Lemma agree_le C vs vs' g : Forall2 (var_le C) vs vs' -> agree vs' g -> agree vs g.
Proof.
  intros F. revert g. induction F as [|v v' a a' (H1 & H2 & H3 & H4) F IH]; intros g A; inversion A as [|? y ? ? (A1 & A2) A3]; subst; constructor; [|apply IH; exact A3].
  split; [congruence|auto].
Qed.
Lemma agree_app a b g : agree (a ++ b) g -> agree b (skipn (List.length a) g) /\ map fst (firstn (List.length a) g) = map sv_name a.
Proof.
  revert g. induction a as [|v a IH]; intros g H; cbn in *; [auto|]. inversion H as [|? y ? g' (A1 & A2) A3]; subst. destruct (IH _ A3) as (X1 & X2). cbn. split; [exact X1|congruence].
Qed.
Lemma mono_vars D C N s s' : wf s -> wf s' -> mono D C N s s' -> exists new old, all_vars (scopes s') = new ++ old /\ map sv_name new = D /\
  Forall2 (var_le C) (all_vars (scopes s)) old /\ Forall (fun v => sv_captured v = true -> In (sv_name v) C) new.
Proof.
  intros W W' M. destruct (m_head _ _ _ _ _ M) as (_ & _ & new & old & H1 & H2 & H3 & H4). exists new, (old ++ all_vars (tl (scopes s'))).
  rewrite (scopes_eta s' W'), (scopes_eta s W). cbn [all_vars flat_map tl]. rewrite H1, <- app_assoc. split; [auto|]. split; [auto|]. split; [|auto]. apply Forall2_app; [exact H4|]. apply all_vars_le. exact (m_tail _ _ _ _ _ M).
Qed.
Lemma find_le C l l' : Forall2 (scope_le C) l l' -> option_map sc_entry (find is_loop l') = option_map sc_entry (find is_loop l).
Proof.
  induction 1 as [|x y a b ((_ & K & E) & _) F IH]; cbn; auto. unfold is_loop. rewrite K. fold (is_loop x). destruct (is_loop x); cbn; [congruence|auto].
Qed.
Lemma entry_le D C N s s' : wf s -> wf s' -> mono D C N s s' -> loop_entry s' = loop_entry s.
Proof.
  intros W W' M. unfold loop_entry. rewrite (scopes_eta s' W'), (scopes_eta s W). cbn [find]. destruct (m_head _ _ _ _ _ M) as ((_ & K & E) & _).
  assert (IL : is_loop (head s') = is_loop (head s)) by (unfold is_loop; rewrite K; reflexivity). rewrite IL. destruct (is_loop (head s)); cbn [option_map]; [congruence|]. eapply find_le. exact (m_tail _ _ _ _ _ M).
Qed.
Lemma loops_hd p l l' : loops_le p l l' -> exists new, hd [] l' = hd [] l ++ new /\ Forall (fun y => p < y) new.
Proof.
  destruct l as [|a l]; destruct l' as [|a' l']; cbn; try contradiction.
  - intros _. exists []. auto.
  - intros ((new & -> & F) & _). eauto.
Qed.
Lemma pend_back D C N s s' i : mono D C N s s' -> i < pos s -> pend s' i -> pend s i.
Proof.
  intros M L (x & H & K). destruct (loops_hd _ _ _ (m_loops _ _ _ _ _ M)) as (n1 & E1 & F1). destruct (m_head _ _ _ _ _ M) as (_ & (_ & n2 & E2 & F2) & _).
  unfold call_of in H. rewrite E1, E2, !in_app_iff in H. rewrite Forall_forall in F1, F2. exists x. split; [|exact K].
  destruct H as [[H|H]|[H|H]]; auto; exfalso; [specialize (F1 x H)|specialize (F2 x H)]; cbn in *; destruct K; lia.
Qed.
Lemma levels_le N l l' g : Forall2 (outer_le N) l l' -> Forall2 level_ok l' g -> Forall2 level_ok l g.
Proof.
  intros F. revert g. induction F as [|c c' a a' O F IH]; intros g A; inversion A as [|? y ? ? (A1 & A2) A3]; subst; constructor; [|apply IH; exact A3].
  split; [eapply agree_le; [apply all_vars_le; exact (ol_scopes _ _ _ O)|exact A1]|eapply prefix_trans; [exact (ol_ups _ _ _ O)|exact A2]].
Qed.
Lemma static_at lit c D C N G b b1 s s' : wf s -> wf s' -> mono D C N s s' -> b <= b1 -> static lit c G b s' -> static lit c (drop (List.length D) G) b1 s.
Proof.
  intros W W' M L F. destruct (mono_vars _ _ _ _ _ W W' M) as (new & old & V1 & V2 & V3 & V4). destruct F as [F1 F2 F3 F4 F5 F6 F7 F8 F9 F11 F12].
  pose proof (m_pos _ _ _ _ _ M) as MP. destruct (loops_hd _ _ _ (m_loops _ _ _ _ _ M)) as (n1 & E1 & N1). destruct (m_head _ _ _ _ _ M) as (_ & (_ & n2 & E2 & N2) & _).
  split; cbn [drop g_bc g_vars g_ups g_outer g_fn g_loop g_null g_depth]; auto.
  - lia.
  - eapply prefix_trans; [exact (m_consts _ _ _ _ _ M)|exact F3].
  - eapply prefix_trans; [exact (m_ups _ _ _ _ _ M)|exact F4].
  - rewrite V1 in F6. apply agree_app in F6. destruct F6 as (F6 & _). rewrite <- V2, map_length. eapply agree_le; eauto.
  - eapply levels_le; [exact (m_outer _ _ _ _ _ M)|exact F7].
  - pose proof (m_slots _ _ _ _ _ M). lia.
  - rewrite <- (m_kind _ _ _ _ _ M). exact F9.
  - intros l El. destruct (F11 l El) as (X1 & X2). rewrite <- (entry_le _ _ _ _ _ W W' M). split; [exact X1|]. intros x Hx Lx. apply X2; [rewrite E1; apply in_app_iff; auto|lia].
  - intros z -> Ez x Hx Lx. apply (F12 z eq_refl Ez); [unfold call_of; rewrite E2; apply in_app_iff; auto|lia].
Qed.
Lemma fits_at lit c D C N G b b1 s s' : wf s -> wf s' -> mono D C N s s' -> keeps b1 (pos s) s s' -> b <= b1 -> fits lit c G b s' -> fits lit c (drop (List.length D) G) b1 s.
Proof.
  intros W W' M K L F. split; [eapply static_at; eauto; exact (f_static _ _ _ _ _ F)|]. pose proof (m_pos _ _ _ _ _ M) as MP.
  intros i Hi NP. rewrite <- (K i ltac:(lia)). apply (f_bytes _ _ _ _ _ F); [lia|]. intros P. apply NP. eapply pend_back; eauto. lia.
Qed.
Lemma fits_names lit c D C N G b s s' : wf s -> wf s' -> mono D C N s s' -> fits lit c G b s' -> map fst (firstn (List.length D) (g_vars G)) = D.
Proof.
  intros W W' M F. destruct (mono_vars _ _ _ _ _ W W' M) as (new & old & V1 & V2 & V3 & V4). pose proof (f_vars _ _ _ _ _ F) as F6. rewrite V1 in F6. apply agree_app in F6.
  destruct F6 as (_ & F6). rewrite <- V2, map_length. exact F6.
Qed.
Lemma extend_drop d G : extend (firstn d (g_vars G)) (drop d G) = G.
Proof. destruct G. unfold extend, drop. cbn. f_equal. apply firstn_skipn. Qed.
Lemma static_ctx lit c c' G G' b b' s : b <= b' -> g_bc G' = g_bc G -> g_vars G' = g_vars G -> g_ups G' = g_ups G -> g_outer G' = g_outer G -> g_fn G' = g_fn G -> g_loop G' = g_loop G ->
  (c' = Spine -> c = Spine /\ g_null G' = g_null G) -> static lit c G b s -> static lit c' G' b' s.
Proof.
  intros L E1 E2 E3 E4 E5 E6 HC [F1 F2 F3 F4 F5 F6 F7 F8 F9 F11 F12]. split; rewrite ?E1, ?E2, ?E3, ?E4, ?E5; auto.
  - rewrite E6. intros l El. destruct (F11 l El) as (X1 & X2). split; [exact X1|]. intros x Hx Lx. apply X2; [exact Hx|lia].
  - intros z Ez En x Hx Lx. destruct (HC Ez) as (Ec & Eg). apply (F12 z Ec); [congruence|exact Hx|lia].
Qed.
Lemma fits_ctx lit c c' G G' b b' s : b <= b' -> g_bc G' = g_bc G -> g_vars G' = g_vars G -> g_ups G' = g_ups G -> g_outer G' = g_outer G -> g_fn G' = g_fn G -> g_loop G' = g_loop G ->
  (c' = Spine -> c = Spine /\ g_null G' = g_null G) -> fits lit c G b s -> fits lit c' G' b' s.
Proof.
  intros L E1 E2 E3 E4 E5 E6 HC [F FB]. split; [eapply static_ctx; eauto|]. rewrite E1. intros i Hi. apply FB. lia.
Qed.
Definition deep_ok (c : chain_place) : Prop := c <> Spine.
Lemma fits_deep lit c c' n G b s : deep_ok c' -> fits lit c G b s -> fits lit c' (g_deep n G) b s.
Proof. intros H. apply fits_ctx; try reflexivity. intros ->. destruct (H eq_refl). Qed.

(** ** Reading an instruction off the bytes *)
Lemma nth_ext {A} (a b : list A) : (forall n, nth_error a n = nth_error b n) -> a = b.
Proof.
  revert b. induction a as [|x a IH]; intros [|y b] H; auto; try (specialize (H 0); discriminate). pose proof (H 0) as H0. injection H0 as <-. f_equal. apply IH. intros n. exact (H (S n)).
Qed.
Lemma nth_firstn {A} (l : list A) p n : n < p -> nth_error (firstn p l) n = nth_error l n.
Proof. revert p n. induction l as [|x l IH]; intros [|p] [|n] H; cbn; auto; try lia. apply IH. lia. Qed.
Lemma nth_skipn {A} (l : list A) p n : nth_error (skipn p l) n = nth_error l (p + n).
Proof. revert p. induction l as [|x l IH]; intros [|p]; cbn; auto. destruct n; reflexivity. Qed.
Lemma slice {A} (d l : list A) p : (forall i, i < List.length l -> nth_error d (p + i) = nth_error l i) -> p + List.length l <= List.length d ->
  d = firstn p d ++ l ++ skipn (p + List.length l) d.
Proof.
  intros H L. apply nth_ext. intros n. destruct (Nat.lt_ge_cases n p) as [H1|H1].
  - rewrite nth_error_app1 by (rewrite firstn_length; lia). rewrite nth_firstn by exact H1. reflexivity.
  - rewrite nth_error_app2 by (rewrite firstn_length; lia). rewrite firstn_length, Nat.min_l by lia. destruct (Nat.lt_ge_cases (n - p) (List.length l)) as [H2|H2].
    + rewrite nth_error_app1 by exact H2. rewrite <- H by exact H2. f_equal. lia.
    + rewrite nth_error_app2 by exact H2. rewrite nth_skipn. f_equal. lia.
Qed.
Lemma at_bytes bc p ins : instr_ok (bc_constants bc) ins -> p + List.length (encode_instr ins) <= List.length (bc_data bc) ->
  (forall i, i < List.length (encode_instr ins) -> nth_error (bc_data bc) (p + i) = nth_error (encode_instr ins) i) -> at_ bc p ins (p + List.length (encode_instr ins)).
Proof.
  intros H L B. unfold at_. rewrite (slice _ _ _ B L). pose proof (fetch_encoded (bc_constants bc) (firstn p (bc_data bc)) ins (skipn (p + List.length (encode_instr ins)) (bc_data bc)) H) as F.
  rewrite firstn_length, Nat.min_l in F by lia. exact F.
Qed.
Lemma be16_length z : List.length (be16 z) = 2. Proof. reflexivity. Qed.
Lemma jump_target q z t : (-32768 <= z <= 32767)%Z -> (Z.of_nat t <= 32767)%Z -> Z.of_nat t = (Z.of_nat q + z)%Z -> offset_position (Z.of_nat q) z = Z.of_nat t.
Proof. intros. unfold offset_position, u64_wrap. rewrite Zplus_mod_idemp_r. rewrite Z.mod_small by lia. lia. Qed.
Lemma goes_jumps bc o p t : vm_operands o = OffsetOperand -> (Z.of_nat (List.length (bc_data bc)) <= 32767)%Z -> nth_error (bc_data bc) p = Some (opcode_to_byte o) ->
  goes bc (S p) t -> jumps bc o p (p + 3) t.
Proof.
  intros HO L B (G1 & G2 & G3 & G4). exists (Z.of_nat (t - S p - 2)). split.
  - apply (at_bytes bc p (IOffset o (Z.of_nat (t - S p - 2)))).
    + split; [exact HO|lia].
    + cbn [encode_instr be16 List.length]. lia.
    + cbn [encode_instr be16 List.length]. intros i Hi. destruct i as [|[|[|i]]]; [| | |lia]; cbn [nth_error].
      * rewrite Nat.add_0_r. exact B.
      * rewrite Nat.add_1_r. exact G3.
      * replace (p + 2) with (S (S p)) by lia. exact G4.
  - apply jump_target; lia.
Qed.

(** ** Actions and the code they leave *)
Record moves (D C : list string) (n : nat) (s s' : cstate) : Prop := {
  mv_wf : wf s'; mv_mono : exists N, mono D C N s s'; mv_below : below (pos s) s s'; mv_next : cs_next_id s' = cs_next_id s + n }.
Lemma moves_pos D C n s s' : moves D C n s s' -> pos s <= pos s'.
Proof. intros [_ (N & M) _ _]. exact (m_pos _ _ _ _ _ M). Qed.
Lemma moves_trans D1 D2 C n1 n2 s1 s2 s3 : moves D1 C n1 s1 s2 -> moves D2 C n2 s2 s3 -> moves (D2 ++ D1) C (n1 + n2) s1 s3.
Proof.
  intros M1 M2. pose proof (moves_pos _ _ _ _ _ M1). destruct M1 as [A1 (N1 & A2) A3 A4], M2 as [B1 (N2 & B2) B3 B4]. split.
  - exact B1.
  - exists (N1 ++ N2). eapply mono_trans; eapply mono_incl; try eassumption; auto using incl_refl, incl_appl, incl_appr.
  - intros i Hi. rewrite B3, A3; auto. lia.
  - lia.
Qed.
Lemma moves_refl C s : wf s -> moves [] C 0 s s.
Proof. intros W. split; [exact W|exists []; apply mono_refl|intros i _; reflexivity|lia]. Qed.
Lemma T_moves {A} L D C n (m : M A) Q s a s' : (forall b N, incl L N -> T b D C N n m Q) -> wf s -> m s = Ok (a, s') -> moves D C n s s' /\ Q a.
Proof.
  intros H W E. destruct (H (pos s) (L ++ kind_names (kind s)) (incl_appl _ (incl_refl _)) s a s' W (le_n _) (incl_appr _ (incl_refl _)) E) as (X1 & X2 & X3 & X4 & X5).
  split; [|exact X5]. split; eauto.
Qed.

Definition placed (P : place) (s : cstate) : Prop :=
  match pl_chain P with Fresh => cc_depth (call_of s) = 0 | _ => 0 < cc_depth (call_of s) end.
Record stands (P : place) (G : ctx) (s : cstate) : Prop := {
  st_fn : pl_fn P = true -> exists r, role_of (kind s) = Some r;
  st_exact : pl_exact P = true -> temps s = g_depth G;
  st_exit : pl_exit P = true -> exists l, g_loop G = Some l /\ lp_depth l = g_depth G;
  st_loop : forall l, g_loop G = Some l -> lp_vars l <= List.length (g_vars G) /\ forall t, lp_next l = Some t -> t <= pos s;
  st_null : match pl_chain P with Fresh => g_null G = None | Spine => g_null G <> None | Aside => True end }.
Lemma placed_mono P D C N s s' : mono D C N s s' -> placed P s -> placed P s'.
Proof. intros M. destruct (m_head _ _ _ _ _ M) as (_ & (X & _) & _). unfold placed, call_of. rewrite X. auto. Qed.
Lemma stands_mono P d D C N G s s' : mono D C N s s' -> stands P (drop d G) s -> stands P G s'.
Proof.
  intros M [S1 S2 S3 S4 S5]. cbn [drop g_bc g_vars g_ups g_outer g_fn g_loop g_null g_depth] in *. split; auto.
  - rewrite (m_kind _ _ _ _ _ M). exact S1.
  - rewrite (m_temps _ _ _ _ _ M). exact S2.
  - intros l El. destruct (S4 l El) as (X1 & X2). rewrite skipn_length in X1. split; [lia|]. intros t Et. specialize (X2 t Et). pose proof (m_pos _ _ _ _ _ M). lia.
Qed.

Section Fits.
Variable lit : nat -> fn_bytecode.
Local Notation fits := (fits lit).

Definition ED {A} (P : place) (D C : list string) (n : nat) (m : M A) (R : ctx -> nat -> A -> nat -> nat -> Prop) : Prop :=
  forall s a s', wf s -> placed P s -> m s = Ok (a, s') -> moves D C n s s' /\
    forall G, stands P (drop (List.length D) G) s -> fits (pl_chain P) G (pos s) s' -> R G (cs_next_id s) a (pos s) (pos s').
Lemma ED_bind {A B} P D1 D2 C n1 n2 (m : M A) (f : A -> M B) R1 R2 : ED P D1 C n1 m R1 -> (forall a, ED P D2 C n2 (f a) (R2 a)) ->
  ED P (D2 ++ D1) C (n1 + n2) (bind m f) (fun G k b p q => exists a p1, R1 (drop (List.length D2) G) k a p p1 /\ R2 a G (k + n1) b p1 q).
Proof.
  intros H1 H2 s b s' W PL E. apply bind_ok in E. destruct E as (a & s1 & E1 & E2). destruct (H1 _ _ _ W PL E1) as (M1 & K1).
  pose proof (mv_mono _ _ _ _ _ M1) as (N1 & O1). destruct (H2 a _ _ _ (mv_wf _ _ _ _ _ M1) (placed_mono _ _ _ _ _ _ O1 PL) E2) as (M2 & K2).
  split; [eapply moves_trans; eauto|]. intros G S F. exists a, (pos s1). rewrite app_length, <- drop_drop in S. pose proof (mv_mono _ _ _ _ _ M2) as (N2 & O2). split.
  - apply K1; [exact S|]. eapply fits_at; [exact (mv_wf _ _ _ _ _ M1)|exact (mv_wf _ _ _ _ _ M2)|exact O2| |apply le_n|exact F].
    eapply below_keeps; [apply le_n|exact (mv_below _ _ _ _ _ M2)].
  - rewrite <- (mv_next _ _ _ _ _ M1). apply K2; [eapply stands_mono; eauto|]. eapply fits_ctx; [|reflexivity..| |exact F]; [exact (moves_pos _ _ _ _ _ M1)|auto].
Qed.
Definition EE {A} (P : place) (C : list string) (n : nat) (m : M A) (R : ctx -> nat -> A -> nat -> nat -> Prop) : Prop := ED P [] C n m R.
Lemma EE_bind {A B} P C n1 n2 (m : M A) (f : A -> M B) R1 R2 : EE P C n1 m R1 -> (forall a, EE P C n2 (f a) (R2 a)) ->
  EE P C (n1 + n2) (bind m f) (fun G k b p q => exists a p1, R1 G k a p p1 /\ R2 a G (k + n1) b p1 q).
Proof.
  intros H1 H2 s b s' W PL E. destruct (ED_bind P [] [] C n1 n2 m f R1 R2 H1 H2 s b s' W PL E) as (M & K). split; [exact M|].
  intros G S F. specialize (K G S F). cbn [List.length] in K. rewrite drop_0 in K. exact K.
Qed.
Lemma ED_post {A} P D C n (m : M A) (R R' : ctx -> nat -> A -> nat -> nat -> Prop) : ED P D C n m R -> (forall G k a p q, R G k a p q -> R' G k a p q) -> ED P D C n m R'.
Proof. intros H I s a s' W PL E. destruct (H s a s' W PL E) as (M & K). split; auto. Qed.
Lemma ED_num {A} P D C n n' (m : M A) R : n = n' -> ED P D C n m R -> ED P D C n' m R.
Proof. intros ->. auto. Qed.
Lemma ED_decls {A} P D D' C n (m : M A) R : D = D' -> ED P D C n m R -> ED P D' C n m R.
Proof. intros ->. auto. Qed.
Lemma ED_ext {A} P D C n (m m' : M A) R : (forall s, m s = m' s) -> ED P D C n m R -> ED P D C n m' R.
Proof. intros X H s a s' W PL E. rewrite <- X in E. apply H; auto. Qed.
Lemma ED_ret {A} P C (a : A) : EE P C 0 (ret a) (fun _ _ b p q => b = a /\ p = q).
Proof. intros s x s' W PL [= <- <-]. split; [apply moves_refl; exact W|auto]. Qed.
Lemma ED_fail {A} P D C n e R : ED P D C n (@fail A e) R.
Proof. intros s x s' W PL E. discriminate. Qed.
Lemma ED_panic {A} P D C n R : ED P D C n (@panic A) R.
Proof. intros s x s' W PL E. discriminate. Qed.
Lemma EE_seq {A B} n1 n2 P C n (m : M A) (f : A -> M B) R1 R2 (R : ctx -> nat -> B -> nat -> nat -> Prop) : EE P C n1 m R1 -> (forall a, EE P C n2 (f a) (R2 a)) -> n1 + n2 = n ->
  (forall G k b p q a p1, R1 G k a p p1 -> R2 a G (k + n1) b p1 q -> R G k b p q) -> EE P C n (bind m f) R.
Proof.
  intros H1 H2 <- H. eapply ED_post; [apply (EE_bind P C n1 n2 m f R1 R2 H1 H2)|]. cbn beta. intros G k b p q (a & p1 & X1 & X2). eapply H; eauto.
Qed.
Lemma ED_seq {A B} D1 D2 n1 n2 P D C n (m : M A) (f : A -> M B) R1 R2 (R : ctx -> nat -> B -> nat -> nat -> Prop) : ED P D1 C n1 m R1 -> (forall a, ED P D2 C n2 (f a) (R2 a)) -> n1 + n2 = n -> D2 ++ D1 = D ->
  (forall G k b p q a p1, R1 (drop (List.length D2) G) k a p p1 -> R2 a G (k + n1) b p1 q -> R G k b p q) -> ED P D C n (bind m f) R.
Proof.
  intros H1 H2 <- <- H. eapply ED_post; [apply (ED_bind P D1 D2 C n1 n2 m f R1 R2 H1 H2)|]. cbn beta. intros G k b p q (a & p1 & X1 & X2). eapply H; eauto.
Qed.
Lemma EE_then {A B} n1 n2 P C n (m : M A) (f : M B) R1 R2 (R : ctx -> nat -> B -> nat -> nat -> Prop) : EE P C n1 m R1 -> EE P C n2 f R2 -> n1 + n2 = n ->
  (forall G k b p q a p1, R1 G k a p p1 -> R2 G (k + n1) b p1 q -> R G k b p q) -> EE P C n (bind m (fun _ => f)) R.
Proof. intros H1 H2 E H. eapply (EE_seq n1 n2) with (R2 := fun _ => R2); [exact H1|intros _; exact H2|exact E|exact H]. Qed.
Lemma ED_then {A B} D1 D2 n1 n2 P D C n (m : M A) (f : M B) R1 R2 (R : ctx -> nat -> B -> nat -> nat -> Prop) : ED P D1 C n1 m R1 -> ED P D2 C n2 f R2 -> n1 + n2 = n -> D2 ++ D1 = D ->
  (forall G k b p q a p1, R1 (drop (List.length D2) G) k a p p1 -> R2 G (k + n1) b p1 q -> R G k b p q) -> ED P D C n (bind m (fun _ => f)) R.
Proof. intros H1 H2 E1 E2 H. eapply (ED_seq D1 D2 n1 n2) with (R2 := fun _ => R2); [exact H1|intros _; exact H2|exact E1|exact E2|exact H]. Qed.
(** An action in another place of the same scope. *)
Lemma EE_sub {A} P P' C n (m : M A) R g : EE P' C n m R -> (forall s, placed P s -> placed P' s) -> (forall G s, stands P G s -> stands P' (g G) s) ->
  (forall G b s, fits (pl_chain P) G b s -> fits (pl_chain P') (g G) b s) -> EE P C n m (fun G k a p q => R (g G) k a p q).
Proof.
  intros H H1 H2 H3 s a s' W PL E. destruct (H s a s' W (H1 s PL) E) as (M & K). split; [exact M|]. intros G S F. apply K; [|auto].
  cbn [List.length] in *. rewrite drop_0 in *. auto.
Qed.

(** ** Instructions *)
Definition with_asm (a : assembler) (s : cstate) : cstate := CState (set_asm a (top s) :: outer s) (cs_next_id s).
Lemma on_asm_with {A} (f : assembler -> outcome (A * assembler)) s a s' : on_asm f s = Ok (a, s') -> exists asm, f (cx_asm (top s)) = Ok (a, asm) /\ s' = with_asm asm s.
Proof. intros E. apply on_asm_ok in E. destruct E as (c & r & n & asm' & -> & E & ->). exists asm'. auto. Qed.
Lemma pend_low s i : wf s -> pend s i -> i < pos s.
Proof.
  intros W (x & H & K). assert (x + 2 <= pos s); [|destruct K; lia]. destruct H as [H|H]; [|apply (call_bounds s x W H)].
  destruct (loops (scopes s)) as [|l r] eqn:E; [destruct H|]. apply (wf_loops s W l); [rewrite E; left; auto|exact H].
Qed.
Lemma emitted c G ins s s' asm : wf s -> s' = with_asm asm s -> asm_data asm = data s ++ encode_instr ins -> instr_ok (bc_constants (g_bc G)) ins ->
  fits c G (pos s) s' -> at_ (g_bc G) (pos s) ins (pos s').
Proof.
  intros W -> D OK F. assert (PS : pos (with_asm asm s) = pos s + List.length (encode_instr ins)).
  { unfold pos at 1, data, with_asm, top. cbn [cs_stack hd set_asm cx_asm]. rewrite D, app_length. reflexivity. }
  pose proof (f_len _ _ _ _ _ F) as FL. rewrite PS in *. apply at_bytes; [exact OK|exact FL|].
  intros i Hi. rewrite <- (f_bytes _ _ _ _ _ F); [|lia|].
  - unfold data, with_asm, top. cbn [cs_stack hd set_asm cx_asm]. rewrite D, nth_error_app2 by (unfold pos; lia). f_equal. unfold pos. lia.
  - intros X. assert (pend s (pos s + i)) as X2 by exact X. apply (pend_low _ _ W) in X2. lia.
Qed.
Lemma EE_emit P C o : vm_operands o = NoOperand -> EE P C 0 (emit o) (fun G _ _ p q => at_ (g_bc G) p (INone o) q).
Proof.
  intros HO s a s' W PL E. split; [apply (T_moves [] _ _ _ _ (fun _ => True) s a s' (fun b N _ => T_emit b C N o) W E)|].
  intros G S F. apply on_asm_with in E. destruct E as (asm & [= _ <-] & ->). eapply emitted; eauto using emit0_data.
Qed.
Lemma EE_emit_u8 P C o x : vm_operands o = ByteOperand -> EE P C 0 (emit_u8 o x) (fun G _ _ p q => at_ (g_bc G) p (IByte o x) q).
Proof.
  intros HO s a s' W PL E. split; [apply (T_moves [] _ _ _ _ (fun _ => True) s a s' (fun b N _ => T_emit_u8 b C N o x) W E)|].
  intros G S F. apply on_asm_with in E. destruct E as (asm & [= _ <-] & ->). eapply emitted; eauto using emit1_data.
Qed.
Definition exact_const (c : const) : Prop := forall c', const_eqb c' c = true -> c' = c.
Lemma symbol_exact x : exact_const (CSymbol x).
Proof. intros [] H; try discriminate. apply String.eqb_eq in H. congruence. Qed.
Lemma made c a i a' : make_constant c a = Ok (i, a') -> exact_const c -> nth_error (asm_consts a') i = Some c.
Proof. intros E X. destruct (make_constant_entry _ _ _ _ E) as (c' & H & [->|K]); [exact H|]. rewrite (X _ K) in H. exact H. Qed.
Lemma const_final c G b s i k : fits c G b s -> nth_error (consts s) i = Some k -> nth_error (bc_constants (g_bc G)) i = Some k.
Proof. intros F H. eapply prefix_nth; [exact (f_consts _ _ _ _ _ F)|exact H]. Qed.
Lemma EE_emit_c P C o k : vm_operands o = ByteOperand -> (forall g, k <> CFunction g) -> exact_const k -> EE P C 0 (emit_c o k) (fun G _ _ p q => at_const (g_bc G) o k p q).
Proof.
  intros HO HK HX s a s' W PL E. split; [apply (T_moves [] _ _ _ _ (fun _ => True) s a s' (fun b N _ => T_emit_c b C N o k HK) W E)|].
  intros G S F. apply on_asm_with in E. destruct E as (asm & E & ->). apply omap_ok in E. destruct E as (a1 & E & [= _ <-]). unfold emit_const in E. apply obind_ok in E.
  destruct E as ([i a2] & E & [= <-]). destruct (make_constant_prefix _ _ _ _ E) as (_ & D). exists i. split.
  - eapply emitted; eauto. rewrite emit1_data, D. reflexivity.
  - eapply const_final; [exact F|]. exact (made _ _ _ _ E HX).
Qed.
Lemma EE_lftl P C f x : EE P C 0 (emit_lftl f x) (fun G _ _ p q => exists i, at_ (g_bc G) p (ITwo OpLoadFieldToLocal i x) q /\ nth_error (bc_constants (g_bc G)) i = Some (CSymbol f)).
Proof.
  intros s a s' W PL E. split; [apply (T_moves [] _ _ _ _ (fun _ => True) s a s' (fun b N _ => T_emit_lftl b C N f x) W E)|].
  intros G S F. apply on_asm_with in E. destruct E as (asm & E & ->). apply omap_ok in E. destruct E as (a1 & E & [= _ <-]). unfold emit_load_field_to_local in E. apply obind_ok in E.
  destruct E as ([i a2] & E & [= <-]). destruct (make_constant_prefix _ _ _ _ E) as (_ & D). exists i. split.
  - eapply emitted; eauto; [|solve [reflexivity]..]. cbn [put_u8 asm_data]. rewrite <- !app_assoc, D. reflexivity.
  - eapply const_final; [exact F|]. exact (made _ _ _ _ E (symbol_exact f)).
Qed.
Lemma EE_here P C : EE P C 0 here (fun _ _ a p q => a = p /\ p = q).
Proof.
  intros s a s' W PL E. split; [|].
  { pose proof (T_moves [] [] C 0 here (fun _ => True) s a s') as X. destruct X as (X & _); auto. intros b N _. eapply T_post; [apply T_here|auto]. }
  intros G S F. apply on_asm_with in E. destruct E as (asm & [= <- <-] & ->). split; reflexivity.
Qed.
Lemma EE_jump_back P C t : EE P C 0 (jump_back t) (fun G _ _ p q => t <= p -> jumps (g_bc G) OpJump p q t).
Proof.
  intros s a s' W PL E. split; [apply (T_moves [] _ _ _ _ (fun _ => True) s a s' (fun b N _ => T_jump_back b C N t) W E)|].
  intros G S F L. apply on_asm_with in E. destruct E as (asm & [= _ <-] & ->).
  pose proof (f_tame _ _ _ _ _ F) as TM. inversion TM as [bc L1 L2 L3 L4 EQ]. clear EQ. pose proof (f_len _ _ _ _ _ F) as FL.
  assert (PS : pos (with_asm (emit_jump_back t (cx_asm (top s))) s) = pos s + 3).
  { unfold pos, data, with_asm, top, emit_jump_back, put_i16, put_u8. cbn [cs_stack hd set_asm cx_asm asm_data]. rewrite !app_length. cbn [List.length i16_bytes]. rewrite <- Nat.add_assoc. reflexivity. }
  rewrite PS in FL. assert (LP : List.length (asm_data (cx_asm (top s))) = pos s) by reflexivity.
  assert (ES := emit_jump_back_spec t (cx_asm (top s)) ltac:(rewrite LP; lia)). rewrite LP in ES. exists (Z.of_nat t - Z.of_nat (pos s + 3))%Z. split.
  - eapply emitted; eauto; [rewrite ES; reflexivity|]. split; [reflexivity|lia].
  - rewrite PS. apply jump_target; lia.
Qed.

(** ** Variables *)
Lemma lookup_agree x vs g : agree vs g ->
  match lookup x (map flag_of vs) with
  | Some (j, fl) => exists fl', lookup x g = Some (j, fl') /\ (fl = true -> fl' = true)
  | None => lookup x g = None
  end.
Proof.
  induction 1 as [|v [y fl] vs g (H1 & H2) F IH]; cbn; auto. cbn in H1. subst y. destruct (String.eqb x (sv_name v)); [|exact IH]. exists fl. rewrite map_length, (F2_length _ _ _ F). auto.
Qed.
Lemma lookup_below x vs j fl : lookup x vs = Some (j, fl) -> j < List.length vs.
Proof. induction vs as [|[y f] vs IH]; cbn; [discriminate|]. destruct (String.eqb x y); [intros [= <- <-]; lia|]. intros H. apply IH in H. lia. Qed.
Lemma fits_small c G b s : wf s -> fits c G b s -> List.length (g_vars G) <= 256 /\ List.length (g_ups G) <= 256 /\ List.length (g_vars G) = List.length (all_vars (scopes s)).
Proof.
  intros W F. pose proof (f_tame _ _ _ _ _ F) as TM. inversion TM as [bc L1 L2 L3 L4 EQ]. pose proof (f_slots _ _ _ _ _ F). pose proof (f_count _ _ _ _ _ F). pose proof (F2_length _ _ _ (f_vars _ _ _ _ _ F)) as FV.
  pose proof W as W'. rewrite (stack_eta s W) in W'. pose proof (cw_count _ _ (wf_top _ _ _ W')) as CW. change (List.length (all_vars (scopes s)) <= slot_count s) in CW. lia.
Qed.
Lemma u8_small n : n < 256 -> u8_of n = n. Proof. intros H. unfold u8_of. apply Nat.mod_small. exact H. Qed.
Lemma top_numbered s : wf s -> numbered (all_vars (scopes s)).
Proof. intros W. pose proof W as W'. rewrite (stack_eta s W) in W'. exact (cw_numbered _ _ (wf_top _ _ _ W')). Qed.
Definition found (G : ctx) (x : string) (a : option scope_var) : Prop :=
  match a with
  | Some v => (exists fl, lookup x (g_vars G) = Some (sv_slot v, fl)) /\ u8_of (sv_slot v) = sv_slot v
  | None => lookup x (g_vars G) = None
  end.
Lemma local_ok x s a s' : m_local x s = Ok (a, s') -> s' = s /\ a = find_local x (scopes s).
Proof. intros E. apply on_scopes_ok in E. destruct E as (c & r & n & ss' & -> & [= <- <-] & ->). split; [destruct c; reflexivity|reflexivity]. Qed.
Lemma found_local c G b s x : wf s -> fits c G b s -> found G x (find_local x (scopes s)).
Proof.
  intros W F. pose proof (lookup_agree x _ _ (f_vars _ _ _ _ _ F)) as H. rewrite (lookup_local _ _ (top_numbered s W)) in H. unfold found. destruct (find_local x (scopes s)) as [v|]; [|exact H].
  destruct H as (fl & H & _). split; [eauto|]. apply u8_small. apply lookup_below in H. destruct (fits_small _ _ _ _ W F). lia.
Qed.
Lemma EE_local P C x : EE P C 0 (m_local x) (fun G _ a p q => p = q /\ found G x a).
Proof.
  intros s a s' W PL E. split; [apply (T_moves [] _ _ _ _ (fun _ => True) s a s' (fun b N _ => T_local b C N x) W E)|].
  intros G S F. apply local_ok in E. destruct E as (-> & ->). split; [reflexivity|]. eapply found_local; eauto.
Qed.
Lemma reach_mono ups gups out g i x : prefix ups gups -> Forall2 level_ok out g -> reach ups (map slevel out) i x -> reach gups g i x.
Proof.
  intros P F. revert ups gups i P. induction F as [|c [vs us] out g (A1 & A2) F IH]; intros ups gups i P H; cbn [map reach slevel] in *; [exact H|].
  destruct (nth_error ups i) as [d|] eqn:E; [|contradiction]. rewrite (prefix_nth _ _ _ _ P E). cbn [fst snd] in A1, A2. pose proof (lookup_agree x _ _ A1) as LA. destruct d as [j m|j m].
  - rewrite H in LA. destruct LA as (fl & -> & X). rewrite X; reflexivity.
  - destruct H as (H1 & H2). rewrite H1 in LA. split; [exact LA|]. eapply IH; eauto.
Qed.
Lemma hidden_mono out g x : Forall2 level_ok out g -> hidden x (map slevel out) -> hidden x g.
Proof.
  unfold hidden. induction 1 as [|c [vs us] out g (A1 & A2) F IH]; cbn [map]; intros H; [constructor|]. inversion H as [|? ? H1 H2]; subst. constructor; [|apply IH; exact H2].
  cbn [fst slevel] in *. pose proof (lookup_agree x _ _ A1) as LA. rewrite H1 in LA. exact LA.
Qed.
Definition resolves (G : ctx) (x : string) (a : option nat) : Prop :=
  match a with Some i => reach (g_ups G) (g_outer G) i x /\ u8_of i = i | None => hidden x (g_outer G) end.
Lemma EE_resolve P C x : EE P C 0 (m_resolve_upvalue x) (fun G _ a p q => p = q /\ resolves G x a).
Proof.
  intros s a s' W PL E. split; [apply (T_moves [x] _ _ _ _ (fun _ => True) s a s' (fun b N H => T_resolve b C N x (H x (or_introl eq_refl))) W E)|].
  intros G S F. unfold m_resolve_upvalue in E. destruct (resolve_upvalue x (cs_stack s)) as [[i st]|] eqn:Er; injection E as <- <-.
  - destruct (resolve_step _ _ _ _ _ Er (wf_all _ W) (wf_chained _ W)) as (cur & out & cur' & out' & E1 & -> & R).
    split; [unfold pos, data, top; cbn [cs_stack hd]; rewrite (r_asm _ _ _ _ _ _ _ R), E1; reflexivity|].
    pose proof (f_outer _ _ _ _ _ F) as FO. pose proof (f_ups _ _ _ _ _ F) as FU. cbn [outer ups top cs_stack tl hd] in FO, FU. split.
    + eapply reach_mono; [exact FU|exact FO|exact (r_reach _ _ _ _ _ _ _ R)].
    + apply u8_small. pose proof (prefix_length _ _ FU) as PL2. change (ups (CState (cur' :: out') (cs_next_id s))) with (cx_upvalues cur') in PL2. pose proof (r_index _ _ _ _ _ _ _ R). pose proof (f_count _ _ _ _ _ F).
      pose proof (f_tame _ _ _ _ _ F) as TM. inversion TM as [bc L1 L2 L3 L4 EQ]. lia.
  - split; [reflexivity|]. eapply hidden_mono; [exact (f_outer _ _ _ _ _ F)|]. apply (resolve_hidden (cs_next_id s)); [|exact Er]. pose proof (wf_all _ W) as WA. unfold outer. destruct (cs_stack s) as [|c0 r0]; [constructor|]. inversion WA as [|? ? Z1 Z2]. exact Z2.
Qed.
Lemma EE_ident P C x : EE P C 0 (visit_ident x) (fun G _ _ p q => loads G x p q).
Proof.
  unfold visit_ident. eapply (EE_seq 0 0) with (R2 := fun a G k _ p q => found G x a -> loads G x p q); [apply EE_local| |reflexivity|].
  - intros [v|]; [destruct (sv_is_initialized v); [|apply ED_fail]|].
    + eapply ED_post; [apply EE_emit_u8; reflexivity|]. cbn beta. intros G k _ p q H ((fl & H1) & H2). unfold loads. rewrite H1. rewrite H2 in H. exact H.
    + eapply (EE_seq 0 0) with (R2 := fun a G k _ p q => resolves G x a -> found G x None -> loads G x p q); [apply EE_resolve| |reflexivity|].
      * intros [i|].
        -- eapply ED_post; [apply EE_emit_u8; reflexivity|]. cbn beta. intros G k _ p q H (H1 & H2) H3. unfold loads. rewrite H3. left. exists i. rewrite H2 in H. auto.
        -- eapply ED_post; [apply EE_emit_c; [reflexivity|discriminate|apply symbol_exact]|]. cbn beta. intros G k _ p q H H1 H3. unfold loads. rewrite H3. right. auto.
      * cbn beta. intros G k _ p q a p1 (<- & H1) H2. auto.
  - cbn beta. intros G k _ p q a p1 (<- & H1) H2. auto.
Qed.
Lemma EE_local_type P C t slot : EE P C 0 (visit_local_type t slot) (fun G _ _ p q => u8_of slot = slot -> checks G t slot p q).
Proof.
  destruct t as [ty|]; cbn [visit_local_type].
  - eapply (EE_then 0 0); [apply EE_ident|apply EE_emit_u8; destruct (ta_nullable ty); reflexivity|reflexivity|].
    cbn beta. intros G k _ p q _ p1 H1 H2 HS. cbn [checks]. exists p1. rewrite HS in H2. auto.
  - eapply ED_post; [apply ED_ret|]. cbn beta. intros G k a p q (_ & ->) _. reflexivity.
Qed.
Lemma EE_return P C : EE P C 0 visit_return (fun G _ _ p q => (exists r, g_fn G = Some r) -> rets G p q).
Proof.
  intros s a s' W PL E. split; [apply (T_moves [] _ _ _ _ (fun _ => True) s a s' (fun b N _ => T_return b C N) W E)|].
  intros G S F (r & Hr). pose proof E as E0. unfold visit_return in E. apply bind_ok in E. destruct E as (k & s1 & E1 & E2). apply get_kind_ok in E1. destruct E1 as (-> & ->).
  assert (KS : kind s' = kind s).
  { destruct (T_moves [] [] C 0 visit_return (fun _ => True) s a s' (fun b N _ => T_return b C N) W) as ([_ (N & M) _ _] & _); [|exact (m_kind _ _ _ _ _ M)].
    exact E0. }
  pose proof (f_fn _ _ _ _ _ F) as FF. rewrite KS in FF.
  assert (TY : forall t, (visit_ident (ta_name t) ;;; emit (if ta_nullable t then OpAssertTypeOrNullAndReturn else OpAssertTypeAndReturn)) s = Ok (a, s') ->
    exists p1, loads G (ta_name t) (pos s) p1 /\ at_ (g_bc G) p1 (INone (if ta_nullable t then OpAssertTypeOrNullAndReturn else OpAssertTypeAndReturn)) (pos s')).
  { intros t E3. destruct (EE_bind P C 0 0 (visit_ident (ta_name t)) (fun _ => emit (if ta_nullable t then OpAssertTypeOrNullAndReturn else OpAssertTypeAndReturn)) _ _ (EE_ident P C (ta_name t))
      (fun _ => EE_emit P C (if ta_nullable t then OpAssertTypeOrNullAndReturn else OpAssertTypeAndReturn) ltac:(destruct (ta_nullable t); reflexivity)) s a s' W PL E3) as (_ & K).
    destruct (K G S F) as (_ & p1 & H1 & H2). eauto. }
  assert (PL0 : emit OpReturn s = Ok (a, s') -> at_ (g_bc G) (pos s) (INone OpReturn) (pos s')).
  { intros E3. destruct (EE_emit P C OpReturn eq_refl s a s' W PL E3) as (_ & K). exact (K G S F). }
  unfold rets. rewrite FF. destruct (kind s) as [| |rt|rt|]; cbn [role_of] in *; try contradiction; try congruence; try (exact (PL0 E2)); (destruct rt as [t|]; [exact (TY t E2)|exact (PL0 E2)]).
Qed.
Lemma EE_get_temps P C : pl_exact P = true -> EE P C 0 get_temps (fun G _ a p q => p = q /\ a = g_depth G).
Proof.
  intros HP s a s' W PL E. split; [apply (T_moves [] _ _ _ _ (fun _ => True) s a s' (fun b N _ => T_get_temps b C N) W E)|].
  intros G S F. apply get_temps_ok in E. destruct E as (-> & ->). split; [reflexivity|]. exact (st_exact _ _ _ S HP).
Qed.
Lemma EE_drops P C n : EE P C 0 (drop_temps n) (fun G _ _ p q => drops (g_bc G) n p q).
Proof.
  unfold drop_temps. induction n as [|n IH]; cbn [times].
  - eapply ED_post; [apply ED_ret|]. cbn beta. intros G k a p q (_ & ->). reflexivity.
  - eapply (EE_then 0 0); [eapply (EE_then 0 0); [apply EE_emit; reflexivity|apply EE_emit; reflexivity|reflexivity|]|exact IH|reflexivity|].
    + intros G k b p q a p1 H1 H2. exact (ex_intro (fun p1 => at_ (g_bc G) p (INone OpSwap) p1 /\ at_ (g_bc G) p1 (INone OpPop) q) p1 (conj H1 H2)).
    + cbn beta. intros G k _ p q u p2 (p1 & H1 & H2) H3. cbn [drops]. eauto.
Qed.
Lemma EE_operator P C op : EE P C 0 (visit_operator op) (fun G _ _ p q => operator_code G op p q).
Proof. unfold operator_code. destruct op; try (apply EE_emit; reflexivity). apply ED_panic. Qed.
End Fits.
