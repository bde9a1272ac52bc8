(** What the compiler's elementary actions do to its state, seen from the code they emit. *)
From Verif.Model Require Import Compiler.
From Verif.Spec Require Import Encoding.
From Verif.Proofs Require Import CodeP AssemblerP WellFormedP WellFormedPrimP CaptureP StackP.
#[local] Open Scope string_scope.
#[local] Open Scope list_scope.
#[local] Open Scope nat_scope.

(** The parts of the state. *)
Definition top (s : cstate) : context := hd (context_new KScript) (cs_stack s).
Definition outer (s : cstate) : list context := tl (cs_stack s).
Definition data (s : cstate) : list byte := asm_data (cx_asm (top s)).
Definition pos (s : cstate) : nat := List.length (data s).
Definition consts (s : cstate) : list const := asm_consts (cx_asm (top s)).
Definition ups (s : cstate) : list upvalue_desc := cx_upvalues (top s).
Definition scopes (s : cstate) : list scope := ss_scopes (cx_scopes (top s)).
Definition slot_count (s : cstate) : nat := ss_slot_count (cx_scopes (top s)).
Definition kind (s : cstate) : compiler_kind := cx_kind (top s).
Definition temps (s : cstate) : nat := cx_temps (top s).
Definition head (s : cstate) : scope := hd (Scope 0 KBlock None [] [] (CallContext 0 []) 0) (scopes s).
Definition is_loop (sc : scope) : bool := scope_kind_eqb (sc_kind sc) KLoop.
Definition loops (l : list scope) : list (list nat) := map sc_exits (filter is_loop l).
Definition all_vars (l : list scope) : list scope_var := flat_map sc_vars l.
Definition cvars (c : context) : list scope_var := all_vars (ss_scopes (cx_scopes c)).
Definition kind_names (k : compiler_kind) : list string :=
  match k with KFunction (Some t) | KMethod (Some t) => [ta_name t] | _ => [] end.

(** Invariants. *)
Fixpoint numbered (vs : list scope_var) : Prop :=
  match vs with [] => True | v :: r => sv_slot v = List.length r /\ numbered r end.
Record ctx_wf (next : nat) (c : context) : Prop := {
  cw_numbered : numbered (cvars c);
  cw_slots : Forall (fun sc => sc_slots sc = List.length (sc_vars sc)) (ss_scopes (cx_scopes c));
  cw_count : List.length (cvars c) <= ss_slot_count (cx_scopes c);
  cw_consts : forall f, In (CFunction f) (asm_consts (cx_asm c)) -> fn_id f < next }.
Definition desc_in (p : context) (d : upvalue_desc) : Prop :=
  match d with
  | ParentLocal j _ => exists v, In v (cvars p) /\ sv_slot v = j /\ sv_captured v = true
  | Outer j _ => j < List.length (cx_upvalues p)
  end.
Fixpoint chained (l : list context) : Prop :=
  match l with
  | [] => True
  | c :: r => match r with [] => True | p :: _ => Forall (desc_in p) (cx_upvalues c) end /\ chained r
  end.
(** The addresses of pending jumps do not overlap. *)
Definition apart (l : list nat) : Prop := forall x y, In x l -> In y l -> x = y \/ x + 2 <= y \/ y + 2 <= x.
Definition cross (l m : list nat) : Prop := forall x y, In x l -> In y m -> x + 2 <= y \/ y + 2 <= x.
Lemma cross_nil l : cross l []. Proof. intros x y _ []. Qed.
Definition exits_apart (l : list scope) : Prop :=
  (forall e, In e (loops l) -> apart e) /\ (forall sc, In sc l -> apart (cc_exits (sc_call sc))) /\
  (forall e, In e (loops l) -> forall sc, In sc l -> cross e (cc_exits (sc_call sc))).
Lemma apart_nil : apart []. Proof. intros x y []. Qed.
Lemma apart_snoc l x : apart l -> (forall y, In y l -> y + 2 <= x) -> apart (l ++ [x]).
Proof.
  intros A B a b. rewrite !in_app_iff. cbn [In]. intros [Ha|[<-|[]]] [Hb|[<-|[]]]; auto.
Qed.
(** Scripts, modules and functions alike. *)
Definition any_kind (k : compiler_kind) : Prop := True.
Record wf (s : cstate) : Prop := {
  wf_stack : cs_stack s <> [];
  wf_scopes : scopes s <> [];
  wf_kind : any_kind (kind s);
  wf_loops : forall l x, In l (loops (scopes s)) -> In x l -> x + 2 <= pos s;
  wf_calls : forall sc x, In sc (scopes s) -> In x (cc_exits (sc_call sc)) -> x + 2 <= pos s;
  wf_depth : forall sc, In sc (scopes s) -> cc_depth (sc_call sc) = 0 -> cc_exits (sc_call sc) = [];
  wf_all : Forall (ctx_wf (cs_next_id s)) (cs_stack s);
  wf_chained : chained (cs_stack s);
  wf_apart : exits_apart (scopes s) }.

(** Progress. *)
Definition var_le (C : list string) (v v' : scope_var) : Prop :=
  sv_name v' = sv_name v /\ sv_slot v' = sv_slot v /\ (sv_captured v = true -> sv_captured v' = true) /\
  (sv_captured v' = true -> sv_captured v = true \/ In (sv_name v) C).
Definition shape (sc sc' : scope) : Prop :=
  sc_depth sc' = sc_depth sc /\ sc_kind sc' = sc_kind sc /\ sc_entry sc' = sc_entry sc.
Definition scope_le (C : list string) (sc sc' : scope) : Prop :=
  shape sc sc' /\ sc_call sc' = sc_call sc /\ Forall2 (var_le C) (sc_vars sc) (sc_vars sc').
Definition call_le (p : nat) (c c' : call_context) : Prop :=
  cc_depth c' = cc_depth c /\ exists new, cc_exits c' = cc_exits c ++ new /\ Forall (fun x => p < x) new.
Definition head_le (D C : list string) (p : nat) (sc sc' : scope) : Prop :=
  shape sc sc' /\ call_le p (sc_call sc) (sc_call sc') /\
  exists new old, sc_vars sc' = new ++ old /\ map sv_name new = D /\
    Forall (fun v => sv_captured v = true -> In (sv_name v) C) new /\ Forall2 (var_le C) (sc_vars sc) old.
Definition loops_le (p : nat) (l l' : list (list nat)) : Prop :=
  match l, l' with
  | [], [] => True
  | x :: r, x' :: r' => (exists new, x' = x ++ new /\ Forall (fun y => p < y) new) /\ r' = r
  | _, _ => False
  end.
Record outer_le (N : list string) (c c' : context) : Prop := {
  ol_kind : cx_kind c' = cx_kind c;
  ol_asm : cx_asm c' = cx_asm c;
  ol_temps : cx_temps c' = cx_temps c;
  ol_ups : prefix (cx_upvalues c) (cx_upvalues c');
  ol_slots : ss_slot_count (cx_scopes c') = ss_slot_count (cx_scopes c);
  ol_loops : loops (ss_scopes (cx_scopes c')) = loops (ss_scopes (cx_scopes c));
  ol_scopes : Forall2 (scope_le N) (ss_scopes (cx_scopes c)) (ss_scopes (cx_scopes c')) }.
Record mono (D C N : list string) (s s' : cstate) : Prop := {
  m_kind : kind s' = kind s;
  m_temps : temps s' = temps s;
  m_consts : prefix (consts s) (consts s');
  m_ups : prefix (ups s) (ups s');
  m_slots : slot_count s <= slot_count s';
  m_head : head_le D C (pos s) (head s) (head s');
  m_tail : Forall2 (scope_le C) (tl (scopes s)) (tl (scopes s'));
  m_loops : loops_le (pos s) (loops (scopes s)) (loops (scopes s'));
  m_pos : pos s <= pos s';
  m_outer : Forall2 (outer_le N) (outer s) (outer s') }.

(** A compiler action: keeps the invariants, only adds, leaves the code below [b] alone, uses [n] ids. *)
Definition below (b : nat) (s s' : cstate) : Prop := forall i, i < b -> nth_error (data s') i = nth_error (data s) i.
Definition T {A} (b : nat) (D C N : list string) (n : nat) (m : M A) (Q : A -> Prop) : Prop :=
  forall s a s', wf s -> b <= pos s -> incl (kind_names (kind s)) N -> m s = Ok (a, s') ->
    wf s' /\ mono D C N s s' /\ below b s s' /\ cs_next_id s' = cs_next_id s + n /\ Q a.

(** ** The order *)
Lemma var_le_refl C v : var_le C v v.
Proof. unfold var_le. auto. Qed.
Lemma var_le_trans C u v w : var_le C u v -> var_le C v w -> var_le C u w.
Proof.
  intros (A1 & A2 & A3 & A4) (B1 & B2 & B3 & B4). unfold var_le. repeat split; [congruence|congruence|auto|].
  intros H. destruct (B4 H) as [H'|H']; auto. right. congruence.
Qed.
Lemma vars_le_refl C l : Forall2 (var_le C) l l.
Proof. induction l; constructor; auto using var_le_refl. Qed.
Lemma vars_le_trans C a b : Forall2 (var_le C) a b -> forall c, Forall2 (var_le C) b c -> Forall2 (var_le C) a c.
Proof. induction 1; intros c H2; inversion H2; subst; constructor; eauto using var_le_trans. Qed.
Lemma vars_le_incl C C' a b : incl C C' -> Forall2 (var_le C) a b -> Forall2 (var_le C') a b.
Proof. intros H. induction 1 as [|x y a b (A1 & A2 & A3 & A4) _ IH]; constructor; auto. repeat split; auto. intros K. destruct (A4 K); auto. Qed.
Lemma shape_refl sc : shape sc sc. Proof. unfold shape. auto. Qed.
Lemma shape_trans a b c : shape a b -> shape b c -> shape a c.
Proof. unfold shape. intros (?&?&?) (?&?&?). repeat split; congruence. Qed.
Lemma scope_le_refl C sc : scope_le C sc sc.
Proof. unfold scope_le. auto using shape_refl, vars_le_refl. Qed.
Lemma scope_le_trans C a b c : scope_le C a b -> scope_le C b c -> scope_le C a c.
Proof. intros (A1 & A2 & A3) (B1 & B2 & B3). repeat split; try (eapply shape_trans; eassumption); [congruence|eauto using vars_le_trans]. Qed.
Lemma scope_le_incl C C' a b : incl C C' -> scope_le C a b -> scope_le C' a b.
Proof. intros H (A1 & A2 & A3). split; [auto|split; [auto|]]. eapply vars_le_incl; eauto. Qed.
Lemma scopes_le_refl C l : Forall2 (scope_le C) l l.
Proof. induction l; constructor; auto using scope_le_refl. Qed.
Lemma scopes_le_trans C a b : Forall2 (scope_le C) a b -> forall c, Forall2 (scope_le C) b c -> Forall2 (scope_le C) a c.
Proof. induction 1; intros c H2; inversion H2; subst; constructor; eauto using scope_le_trans. Qed.
Lemma scopes_le_incl C C' a b : incl C C' -> Forall2 (scope_le C) a b -> Forall2 (scope_le C') a b.
Proof. intros H. induction 1; constructor; eauto using scope_le_incl. Qed.
Lemma outer_le_refl N c : outer_le N c c.
Proof. split; auto using prefix_refl, scopes_le_refl. Qed.
Lemma outer_le_trans N a b c : outer_le N a b -> outer_le N b c -> outer_le N a c.
Proof. intros [] []. split; try congruence; eauto using prefix_trans, scopes_le_trans. Qed.
Lemma outer_le_incl N N' a b : incl N N' -> outer_le N a b -> outer_le N' a b.
Proof. intros H []. split; auto. eapply scopes_le_incl; eauto. Qed.
Lemma outers_le_refl N l : Forall2 (outer_le N) l l.
Proof. induction l; constructor; auto using outer_le_refl. Qed.
Lemma outers_le_trans N a b : Forall2 (outer_le N) a b -> forall c, Forall2 (outer_le N) b c -> Forall2 (outer_le N) a c.
Proof. induction 1; intros c H2; inversion H2; subst; constructor; eauto using outer_le_trans. Qed.
Lemma outers_le_incl N N' a b : incl N N' -> Forall2 (outer_le N) a b -> Forall2 (outer_le N') a b.
Proof. intros H. induction 1; constructor; eauto using outer_le_incl. Qed.
Lemma call_le_refl p c : call_le p c c.
Proof. split; auto. exists []. rewrite app_nil_r. auto. Qed.
Lemma call_le_trans p p' a b c : p <= p' -> call_le p a b -> call_le p' b c -> call_le p a c.
Proof.
  intros L (A1 & n1 & A2 & A3) (B1 & n2 & B2 & B3). split; [congruence|]. exists (n1 ++ n2). rewrite B2, A2, app_assoc. split; auto.
  apply Forall_app. split; auto. eapply Forall_impl; [|exact B3]. intros; cbn in *; lia.
Qed.
Lemma loops_le_refl p l : loops_le p l l.
Proof. destruct l; cbn; auto. split; auto. exists []. rewrite app_nil_r. auto. Qed.
Lemma loops_le_trans p p' a b c : p <= p' -> loops_le p a b -> loops_le p' b c -> loops_le p a c.
Proof.
  intros L. destruct a, b, c; cbn; try tauto. intros ((n1 & -> & F1) & ->) ((n2 & -> & F2) & ->). split; auto.
  exists (n1 ++ n2). rewrite app_assoc. split; auto. apply Forall_app. split; auto. eapply Forall_impl; [|exact F2]. intros; cbn in *; lia.
Qed.
Lemma Forall2_app_split {A B} (R : A -> B -> Prop) a1 a2 b : Forall2 R (a1 ++ a2) b -> exists b1 b2, b = b1 ++ b2 /\ Forall2 R a1 b1 /\ Forall2 R a2 b2.
Proof.
  revert b. induction a1 as [|x a1 IH]; intros b H; cbn in H; [exists [], b; auto|].
  inversion H; subst. destruct (IH _ H4) as (b1 & b2 & -> & H5 & H6). exists (y :: b1), b2. auto.
Qed.
Lemma vars_le_names C a b : Forall2 (var_le C) a b -> map sv_name b = map sv_name a.
Proof. induction 1 as [|x y a b (H & _) _ IH]; cbn; congruence. Qed.
Lemma head_le_refl C p sc : head_le [] C p sc sc.
Proof. split; [apply shape_refl|split; [apply call_le_refl|]]. exists [], (sc_vars sc). auto using vars_le_refl. Qed.
Lemma head_le_trans D1 D2 C p p' a b c : p <= p' -> head_le D1 C p a b -> head_le D2 C p' b c -> head_le (D2 ++ D1) C p a c.
Proof.
  intros L (A1 & A2 & n1 & o1 & A3 & A4 & A5 & A6) (B1 & B2 & n2 & o2 & B3 & B4 & B5 & B6).
  split; [eapply shape_trans; eauto|split; [eapply call_le_trans; eauto|]].
  rewrite A3 in B6. destruct (Forall2_app_split _ _ _ _ B6) as (m1 & m2 & -> & F1 & F2).
  exists (n2 ++ m1), m2. rewrite B3, app_assoc. split; [auto|]. rewrite map_app, B4, (vars_le_names _ _ _ F1), A4. split; [auto|]. split.
  - apply Forall_app. split; auto. clear - A5 F1. induction F1 as [|x y a b (H1 & H2 & H3 & H4) _ IH]; constructor; inversion A5; subst; auto.
    intros K. rewrite H1. destruct (H4 K); auto.
  - eapply vars_le_trans; eauto.
Qed.
Lemma head_le_incl D C C' p a b : incl C C' -> head_le D C p a b -> head_le D C' p a b.
Proof.
  intros H (A1 & A2 & n1 & o1 & A3 & A4 & A5 & A6). split; [auto|split; [auto|]]. exists n1, o1. repeat split; auto.
  - eapply Forall_impl; [|exact A5]. cbn. auto.
  - eapply vars_le_incl; eauto.
Qed.
Lemma mono_refl C N s : mono [] C N s s.
Proof. split; auto using prefix_refl, head_le_refl, scopes_le_refl, loops_le_refl, outers_le_refl. Qed.
Lemma mono_trans D1 D2 C N s1 s2 s3 : mono D1 C N s1 s2 -> mono D2 C N s2 s3 -> mono (D2 ++ D1) C N s1 s3.
Proof.
  intros [] []. split; try congruence; try lia; eauto using prefix_trans, head_le_trans, scopes_le_trans, loops_le_trans, outers_le_trans.
Qed.
Lemma mono_trans0 D C N s1 s2 s3 : mono D C N s1 s2 -> mono [] C N s2 s3 -> mono D C N s1 s3.
Proof. intros A B. exact (mono_trans _ _ _ _ _ _ _ A B). Qed.
Lemma mono_incl D C C' N N' s s' : incl C C' -> incl N N' -> mono D C N s s' -> mono D C' N' s s'.
Proof. intros H1 H2 []. split; auto; eauto using head_le_incl, scopes_le_incl, outers_le_incl. Qed.

(** ** Composing actions *)
Lemma T_bind {A B} b D1 D2 C N n1 n2 (m : M A) (f : A -> M B) Q R :
  T b D1 C N n1 m Q -> (forall a, Q a -> T b D2 C N n2 (f a) R) -> T b (D2 ++ D1) C N (n1 + n2) (bind m f) R.
Proof.
  intros H1 H2 s x s' W B0 K E. apply bind_ok in E. destruct E as (a & s1 & E1 & E2).
  destruct (H1 s a s1 W B0 K E1) as (W1 & M1 & L1 & N1 & Q1).
  destruct (H2 a Q1 s1 x s' W1) as (W2 & M2 & L2 & N2 & Q2); auto.
  { pose proof (m_pos _ _ _ _ _ M1). lia. } { rewrite (m_kind _ _ _ _ _ M1). exact K. }
  split; [auto|]. split; [eapply mono_trans; eauto|]. split; [intros i Hi; rewrite L2, L1; auto|]. split; [lia|auto].
Qed.
Lemma T_seq {A B} b D C N n1 n2 n (m : M A) (f : A -> M B) Q R :
  T b [] C N n1 m Q -> (forall a, Q a -> T b D C N n2 (f a) R) -> n = n1 + n2 -> T b D C N n (bind m f) R.
Proof. intros H1 H2 ->. rewrite <- (app_nil_r D). eapply T_bind; eauto. Qed.
Lemma T_ret {A} b C N (a : A) (Q : A -> Prop) : Q a -> T b [] C N 0 (ret a) Q.
Proof. intros H s x s' W _ _ E. injection E as <- <-. split; [exact W|]. split; [apply mono_refl|]. split; [intros i _; reflexivity|]. split; [lia|exact H]. Qed.
Lemma T_fail {A} b D C N n e (Q : A -> Prop) : T b D C N n (fail e) Q.
Proof. intros s x s' _ _ _ E. discriminate. Qed.
Lemma T_panic {A} b D C N n (Q : A -> Prop) : T b D C N n panic Q.
Proof. intros s x s' _ _ _ E. discriminate. Qed.
Lemma T_post {A} b D C N n (m : M A) (Q Q' : A -> Prop) : T b D C N n m Q -> (forall a, Q a -> Q' a) -> T b D C N n m Q'.
Proof. intros H I s a s' W B K E. destruct (H s a s' W B K E) as (?&?&?&?&?). repeat (split; [assumption|]). auto. Qed.
Lemma T_incl {A} b D C C' N n (m : M A) Q : incl C C' -> T b D C N n m Q -> T b D C' N n m Q.
Proof. intros H1 H s a s' W B K E. destruct (H s a s' W B K E) as (X1&X2&?&?&?). split; [exact X1|]. split; [eapply mono_incl; [exact H1|apply incl_refl|exact X2]|]. auto. Qed.
Lemma T_eq {A} b D C N n n' (m : M A) Q : n = n' -> T b D C N n m Q -> T b D C N n' m Q.
Proof. intros ->. auto. Qed.
Lemma T_each {A} b C N (f : A -> M unit) (g : A -> nat) l (Q : unit -> Prop) : (forall x, In x l -> T b [] C N (g x) (f x) (fun _ => True)) -> Q tt ->
  T b [] C N (list_sum (map g l)) (each f l) Q.
Proof.
  intros H HQ. induction l as [|x r IH]; cbn [each map list_sum fold_right].
  - apply T_ret. auto.
  - eapply T_seq; [apply H; left; auto| |reflexivity]. intros _ _. apply IH. intros y Hy. apply H. right. auto.
Qed.
Lemma T_each0 {A} b C N (f : A -> M unit) l : (forall x, In x l -> T b [] C N 0 (f x) (fun _ => True)) -> T b [] C N 0 (each f l) (fun _ => True).
Proof.
  intros H. induction l as [|x r IH]; cbn [each].
  - apply T_ret. auto.
  - eapply T_seq; [apply H; left; auto| |reflexivity]. intros _ _. apply IH. intros y Hy. apply H. right. auto.
Qed.
Lemma T_times b C N k m : T b [] C N 0 m (fun _ => True) -> T b [] C N 0 (times k m) (fun _ => True).
Proof. intros H. induction k; cbn [times]; [apply T_ret; auto|]. eapply T_seq; [exact H|intros _ _; exact IHk|reflexivity]. Qed.

(** ** Emitting code *)
Lemma state_eq s c r n : s = CState (c :: r) n -> top s = c /\ outer s = r.
Proof. intros ->. auto. Qed.
Lemma forall_le (P Q : context -> Prop) l : (forall c, P c -> Q c) -> Forall P l -> Forall Q l.
Proof. intros H. apply Forall_impl. exact H. Qed.
Lemma ctx_wf_le n n' c : n <= n' -> ctx_wf n c -> ctx_wf n' c.
Proof. intros L []. split; auto. intros f H. specialize (cw_consts0 f H). lia. Qed.

(** The state after the assembler has changed. *)
Lemma asm_wf c r n asm : wf (CState (c :: r) n) -> List.length (asm_data (cx_asm c)) <= List.length (asm_data asm) ->
  (forall f, In (CFunction f) (asm_consts asm) -> In (CFunction f) (asm_consts (cx_asm c)) \/ fn_id f < n) ->
  wf (CState (set_asm asm c :: r) n).
Proof.
  intros [A1 A2 A3 A4 A5 A6 A7 A8 A9] L F. unfold scopes, kind, pos, data, top in *. cbn [cs_stack hd cs_next_id set_asm cx_scopes cx_asm cx_kind] in *. split; unfold scopes, kind, pos, data, top; cbn [cs_stack hd cs_next_id set_asm cx_scopes cx_asm cx_kind].
  - discriminate.
  - exact A2.
  - exact A3.
  - intros l x H1 H2. specialize (A4 l x H1 H2). lia.
  - intros l x H1 H2. specialize (A5 l x H1 H2). lia.
  - exact A6.
  - inversion A7 as [|? ? B1 B2]; subst. constructor; auto. destruct B1. split; auto.
    intros f Hf. destruct (F f Hf) as [H|H]; auto.
  - exact A8.
  - exact A9.
Qed.
Lemma asm_mono C N c r n asm : List.length (asm_data (cx_asm c)) <= List.length (asm_data asm) -> prefix (asm_consts (cx_asm c)) (asm_consts asm) ->
  mono [] C N (CState (c :: r) n) (CState (set_asm asm c :: r) n).
Proof.
  intros L P. split; try reflexivity; auto using prefix_refl.
  - apply head_le_refl.
  - apply scopes_le_refl.
  - apply loops_le_refl.
  - apply outers_le_refl.
Qed.
Definition appends (i : instr) (s s' : cstate) : Prop := data s' = data s ++ encode_instr i.
Lemma T_asm {A} b C N (f : assembler -> outcome (A * assembler)) (Q : A -> Prop) :
  (forall asm a asm' next, f asm = Ok (a, asm') -> b <= List.length (asm_data asm) ->
     List.length (asm_data asm) <= List.length (asm_data asm') /\ prefix (asm_consts asm) (asm_consts asm') /\
     (forall g, In (CFunction g) (asm_consts asm') -> In (CFunction g) (asm_consts asm) \/ fn_id g < next) /\
     (forall i, i < b -> nth_error (asm_data asm') i = nth_error (asm_data asm) i) /\ Q a) ->
  T b [] C N 0 (on_asm f) Q.
Proof.
  intros H s a s' W L _ E. apply on_asm_ok in E. destruct E as (c & r & n & asm' & -> & E & ->).
  destruct (H _ _ _ n E L) as (H1 & H2 & H3 & H4 & H5).
  split; [apply asm_wf; auto|]. split; [apply asm_mono; auto|]. split; [exact H4|]. split; [cbn; lia|exact H5].
Qed.
Lemma append_keeps (d e : list byte) b i : b <= List.length d -> i < b -> nth_error (d ++ e) i = nth_error d i.
Proof. intros. apply nth_error_app1. lia. Qed.
Lemma T_append b C N (f : assembler -> outcome (unit * assembler)) :
  (forall asm u asm', f asm = Ok (u, asm') -> exists e, asm_data asm' = asm_data asm ++ e /\ prefix (asm_consts asm) (asm_consts asm') /\
     (forall g, In (CFunction g) (asm_consts asm') -> In (CFunction g) (asm_consts asm))) ->
  T b [] C N 0 (on_asm f) (fun _ => True).
Proof.
  intros H. apply T_asm. intros asm a asm' next E L. destruct (H _ _ _ E) as (e & -> & H2 & H3).
  rewrite app_length. split; [lia|]. split; [auto|]. split; [auto|]. split; [|exact Logic.I]. intros i Hi. apply append_keeps with (b := b); auto.
Qed.
Lemma T_emit b C N o : T b [] C N 0 (emit o) (fun _ => True).
Proof. apply T_append. intros asm u asm' [= <- <-]. eexists. split; [apply emit0_data|]. split; [apply prefix_refl|auto]. Qed.
Lemma T_emit_u8 b C N o x : T b [] C N 0 (emit_u8 o x) (fun _ => True).
Proof. apply T_append. intros asm u asm' [= <- <-]. eexists. split; [apply emit1_data|]. split; [apply prefix_refl|auto]. Qed.
Lemma make_constant_only c a i a' g : make_constant c a = Ok (i, a') -> In (CFunction g) (asm_consts a') -> In (CFunction g) (asm_consts a) \/ c = CFunction g.
Proof.
  unfold make_constant. destruct (position _ _) as [p|].
  - destruct (255 <? p); [discriminate|]. intros [= <- <-]. auto.
  - cbn zeta. match goal with |- context [255 <? ?x] => destruct (255 <? x) end; [discriminate|]. intros [= <- <-]. cbn [asm_consts]. rewrite in_app_iff. cbn. intros [H|[H|[]]]; auto.
Qed.
Lemma make_constant_prefix c a i a' : make_constant c a = Ok (i, a') -> prefix (asm_consts a) (asm_consts a') /\ asm_data a' = asm_data a.
Proof.
  unfold make_constant. destruct (position _ _) as [p|].
  - destruct (255 <? p); [discriminate|]. intros [= <- <-]. auto using prefix_refl.
  - cbn zeta. match goal with |- context [255 <? ?x] => destruct (255 <? x) end; [discriminate|]. intros [= <- <-]. cbn. split; auto. eexists. reflexivity.
Qed.
Lemma T_emit_c b C N o k : (forall g, k <> CFunction g) -> T b [] C N 0 (emit_c o k) (fun _ => True).
Proof.
  intros HK. apply T_append. intros asm u asm' E. apply omap_ok in E. destruct E as (a1 & E & [= <- <-]). unfold emit_const in E. apply obind_ok in E.
  destruct E as ([i a2] & E & [= <-]). destruct (make_constant_prefix _ _ _ _ E) as (P & D). exists (encode_instr (IByte o i)). rewrite emit1_data, D.
  split; [auto|]. split; [exact P|]. intros g Hg. destruct (make_constant_only _ _ _ _ g E Hg); auto. exfalso. eapply HK; eauto.
Qed.
Lemma T_emit_lftl b C N f x : T b [] C N 0 (emit_lftl f x) (fun _ => True).
Proof.
  apply T_append. intros asm u asm' E. apply omap_ok in E. destruct E as (a1 & E & [= <- <-]). unfold emit_load_field_to_local in E. apply obind_ok in E.
  destruct E as ([i a2] & E & [= <-]). destruct (make_constant_prefix _ _ _ _ E) as (P & D). exists (encode_instr (ITwo OpLoadFieldToLocal i x)). cbn [put_u8 asm_data asm_consts]. rewrite <- !app_assoc, D.
  split; [auto|]. split; [exact P|]. intros g Hg. destruct (make_constant_only _ _ _ _ g E Hg); auto. discriminate.
Qed.
Lemma T_jump b C N o : T b [] C N 0 (jump o) (fun j => b < j).
Proof.
  apply T_asm. intros asm a asm' next [= <- <-] L. cbn [put_u8 put_i16 asm_data asm_consts]. rewrite !app_length. cbn [List.length]. split; [lia|]. split; [apply prefix_refl|].
  split; [auto|]. split; [|lia]. intros i Hi. rewrite nth_error_app1 by (rewrite app_length; lia). apply nth_error_app1. lia.
Qed.
Lemma T_here b C N : T b [] C N 0 here (fun p => b <= p).
Proof. apply T_asm. intros asm a asm' next [= <- <-] L. split; [lia|]. split; [apply prefix_refl|]. split; [auto|]. split; [reflexivity|exact L]. Qed.
Lemma T_jump_back b C N p : T b [] C N 0 (jump_back p) (fun _ => True).
Proof.
  apply T_append. intros asm u asm' [= <- <-]. unfold emit_jump_back, put_i16, put_u8. cbn [asm_data asm_consts]. rewrite <- app_assoc. eexists. split; [reflexivity|]. split; [apply prefix_refl|auto].
Qed.
Lemma nth_set_nth_other {A} (l : list A) i j x : i <> j -> nth_error (set_nth l j x) i = nth_error l i.
Proof. revert i j. induction l as [|y l IH]; intros [|i] [|j] H; cbn; auto; try lia. Qed.
Lemma patch_ok j asm asm' : patch_jump j asm = Ok asm' -> j + 2 <= List.length (asm_data asm) /\
  exists hi lo, i16_bytes (i16_of (Z.of_nat (List.length (asm_data asm) - j - 2))) = [hi; lo] /\
  asm' = MkAsm (asm_consts asm) (set_nth (set_nth (asm_data asm) j hi) (S j) lo).
Proof.
  unfold patch_jump, current_position. destruct (Nat.ltb_spec (List.length (asm_data asm)) (j + 2)); [discriminate|]. cbn zeta. unfold i16_bytes at 1.
  intros [= <-]. split; [lia|]. do 2 eexists. split; reflexivity.
Qed.
Lemma T_patch b C N j : b <= j -> T b [] C N 0 (patch j) (fun _ => True).
Proof.
  intros B. apply T_asm. intros asm u asm' next E L. apply omap_ok in E. destruct E as (a1 & E & [= <- <-]). apply patch_ok in E. destruct E as (L2 & hi & lo & _ & ->).
  cbn [asm_data asm_consts]. rewrite !set_nth_length. split; [lia|]. split; [apply prefix_refl|]. split; [auto|]. split; [|exact Logic.I].
  intros i Hi. rewrite !nth_set_nth_other by lia. reflexivity.
Qed.
Lemma T_push_bool b C N x : T b [] C N 0 (push_bool x) (fun _ => True).
Proof. apply T_emit. Qed.

(** ** Reading and changing scopes *)
Lemma T_get_context b C N : T b [] C N 0 get_context (fun _ => True).
Proof. intros s a s' W L _ E. unfold get_context in E. destruct (cs_stack s) eqn:Es; [discriminate|]. injection E as <- <-. split; [exact W|]. split; [apply mono_refl|]. split; [intros i _; reflexivity|]. split; [lia|exact Logic.I]. Qed.
Lemma T_get_kind b C N : T b [] C N 0 get_kind (fun _ => True).
Proof. unfold get_kind. eapply T_seq; [apply T_get_context|intros; apply T_ret; auto|reflexivity]. Qed.
Lemma T_get_temps b C N : T b [] C N 0 get_temps (fun _ => True).
Proof. unfold get_temps. eapply T_seq; [apply T_get_context|intros; apply T_ret; auto|reflexivity]. Qed.
Lemma T_read {A} b C N (f : scope_stack -> outcome (A * scope_stack)) :
  (forall ss a ss', f ss = Ok (a, ss') -> ss' = ss) -> T b [] C N 0 (on_scopes f) (fun _ => True).
Proof.
  intros H s a s' W L _ E. apply on_scopes_ok in E. destruct E as (c & r & n & ss' & -> & E & ->). apply H in E. subst ss'.
  replace (set_scopes (cx_scopes c) c) with c by (destruct c; reflexivity). split; [exact W|]. split; [apply mono_refl|]. split; [intros i _; reflexivity|]. split; [lia|exact Logic.I].
Qed.
Lemma T_local b C N x : T b [] C N 0 (m_local x) (fun _ => True).
Proof. apply T_read. intros ss a ss' [= <- <-]. reflexivity. Qed.
Lemma T_top_scope b C N : T b [] C N 0 m_top_scope (fun _ => True).
Proof. apply T_read. intros ss a ss' E. apply omap_ok in E. destruct E as (sc & _ & [= <- <-]). reflexivity. Qed.
Lemma T_entry_point b C N k : T b [] C N 0 (on_scopes (fun s => omap (fun p => (p, s)) (entry_point k s))) (fun _ => True).
Proof. apply T_read. intros ss a ss' E. apply omap_ok in E. destruct E as (sc & _ & [= <- <-]). reflexivity. Qed.
Lemma T_fresh b C N : T b [] C N 1 fresh_id (fun _ => True).
Proof.
  intros s a s' W L _ [= <- <-]. split; [|split; [|split; [|split; [cbn; lia|exact Logic.I]]]].
  - destruct W as [A1 A2 A3 A4 A5 A6 A7 A8 A9]. split; auto. cbn [cs_next_id cs_stack]. eapply forall_le; [|exact A7]. intros c. apply ctx_wf_le. lia.
  - split; try reflexivity; auto using prefix_refl; try apply prefix_refl. apply head_le_refl. apply scopes_le_refl. apply loops_le_refl. apply outers_le_refl.
  - intros i _. reflexivity.
Qed.

Lemma F2_length {A B} (R : A -> B -> Prop) a b : Forall2 R a b -> List.length a = List.length b.
Proof. induction 1; cbn; auto. Qed.
(** The state after the scopes of the innermost function have changed. *)
Lemma cvars_set c ss : cvars (set_scopes ss c) = all_vars (ss_scopes ss).
Proof. reflexivity. Qed.
Lemma numbered_le C a b : Forall2 (var_le C) a b -> numbered a -> numbered b.
Proof.
  induction 1 as [|x y a b (H1 & H2 & _) F IH]; cbn; auto. intros (A & B). split; auto. rewrite H2, A. eauto using F2_length.
Qed.
Lemma all_vars_le C l l' : Forall2 (scope_le C) l l' -> Forall2 (var_le C) (all_vars l) (all_vars l').
Proof. induction 1 as [|x y a b (_ & _ & H) _ IH]; cbn; [constructor|]. apply Forall2_app; auto. Qed.
Lemma slots_le C l l' : Forall2 (scope_le C) l l' -> List.length (all_vars l') = List.length (all_vars l).
Proof. intros H. apply all_vars_le in H. symmetry. eauto using F2_length. Qed.

Lemma loops_shape C l l' : Forall2 (scope_le C) l l' -> map sc_kind l' = map sc_kind l.
Proof. induction 1 as [|x y a b ((_ & H & _) & _) _ IH]; cbn; congruence. Qed.
Lemma chained_swap c c' r : cx_upvalues c' = cx_upvalues c -> chained (c :: r) -> chained (c' :: r).
Proof. intros H. destruct r; cbn; [auto|rewrite H; auto]. Qed.

(** Replacing the scopes of the innermost function. *)
Lemma scopes_wf c r n ss : wf (CState (c :: r) n) ->
  ss_scopes ss <> [] ->
  (forall l x, In l (loops (ss_scopes ss)) -> In x l -> x + 2 <= List.length (asm_data (cx_asm c))) ->
  (forall sc x, In sc (ss_scopes ss) -> In x (cc_exits (sc_call sc)) -> x + 2 <= List.length (asm_data (cx_asm c))) ->
  (forall sc, In sc (ss_scopes ss) -> cc_depth (sc_call sc) = 0 -> cc_exits (sc_call sc) = []) ->
  numbered (all_vars (ss_scopes ss)) -> Forall (fun sc => sc_slots sc = List.length (sc_vars sc)) (ss_scopes ss) ->
  List.length (all_vars (ss_scopes ss)) <= ss_slot_count ss -> exits_apart (ss_scopes ss) ->
  wf (CState (set_scopes ss c :: r) n).
Proof.
  intros [A1 A2 A3 A4 A5 A6 A7 A8 A9] H1 H2 H3 H4 H5 H6 H7 H8. split; auto; try discriminate.
  - inversion A7 as [|? ? B1 B2]; subst. cbn [cs_stack cs_next_id]. constructor; auto. destruct B1. split; auto.
Qed.
Lemma wf_top c r n : wf (CState (c :: r) n) -> ctx_wf n c.
Proof. intros [A1 A2 A3 A4 A5 A6 A7 A8 A9]. inversion A7; auto. Qed.
Lemma total_length l : Forall (fun sc => sc_slots sc = List.length (sc_vars sc)) l -> total_slots l = List.length (all_vars l).
Proof. induction 1 as [|x l H _ IH]; cbn; auto. unfold total_slots in IH. rewrite app_length, IH, H. reflexivity. Qed.

Lemma loops_same sc sc' l : sc_kind sc' = sc_kind sc -> sc_exits sc' = sc_exits sc -> loops (sc' :: l) = loops (sc :: l).
Proof. unfold loops, is_loop. cbn. intros -> H. destruct (scope_kind_eqb (sc_kind sc) KLoop); cbn; congruence. Qed.
Lemma apart_head sc sc' l : sc_kind sc' = sc_kind sc -> sc_exits sc' = sc_exits sc -> apart (cc_exits (sc_call sc')) -> (forall e, In e (loops (sc :: l)) -> cross e (cc_exits (sc_call sc'))) -> exits_apart (sc :: l) -> exits_apart (sc' :: l).
Proof.
  intros H1 H2 H3 H4 (A & B & X). unfold exits_apart. rewrite (loops_same sc sc') by auto. split; [exact A|]. split; [intros sc0 [<-|H]; [exact H3|apply B; right; exact H]|]. intros e He sc0 [<-|H]; [apply H4; exact He|]. apply X; [exact He|right; exact H].
Qed.
Lemma add_local_ok x st ss slot ss' : add_local x st ss = Ok (slot, ss') -> exists sc l, ss_scopes ss = sc :: l /\ slot = total_slots (ss_scopes ss) /\
  ss' = ScopeStack (Scope (sc_depth sc) (sc_kind sc) (sc_entry sc) (sc_exits sc) (ScopeVar x slot false st :: sc_vars sc) (sc_call sc) (S (sc_slots sc)) :: l)
         (Nat.max (S slot) (ss_slot_count ss)).
Proof.
  unfold add_local. destruct (ss_scopes ss) as [|sc l] eqn:E; [discriminate|]. cbn zeta. intros [= <- <-]. exists sc, l. rewrite Nat.sub_0_r. split; [auto|]. split; [auto|]. f_equal.
  match goal with |- (if ?a <? ?b then _ else _) = _ => destruct (Nat.ltb_spec a b); lia end.
Qed.
Lemma T_add_local b C N x st : T b [x] C N 0 (m_add_local x st) (fun _ => True).
Proof.
  intros s a s' W L _ E. apply on_scopes_ok in E. destruct E as (c & r & n & ss' & -> & E & ->). apply add_local_ok in E. destruct E as (sc & l & E & -> & ->).
  pose proof (wf_top _ _ _ W) as [B1 B2 B3 B4]. unfold cvars in B1, B3. rewrite E in B1, B2, B3.
  pose proof W as [A1 A2 A3 A4 A5 A6 A7 A8 A9]. unfold scopes, pos, data, top in A2, A4, A5, A6. cbn [cs_stack hd] in A2, A4, A5, A6. rewrite E in A4, A5, A6.
  assert (TS : total_slots (ss_scopes (cx_scopes c)) = List.length (sc_vars sc ++ all_vars l)).
  { rewrite E, total_length by exact B2. reflexivity. }
  split; [|split; [|split; [|split; [cbn; lia|exact Logic.I]]]].
  - apply scopes_wf; [exact W|discriminate|..]; cbn [ss_scopes ss_slot_count].
    + rewrite (loops_same sc) by reflexivity. exact A4.
    + intros sc' y [<-|H]; cbn [sc_call]; intros H2; [apply (A5 sc y); cbn; auto|apply (A5 sc' y); cbn; auto].
    + intros sc' [<-|H]; cbn [sc_call]; intros H2; [apply (A6 sc); cbn; auto|apply (A6 sc'); cbn; auto].
    + cbn [all_vars flat_map sc_vars app numbered sv_slot]. split; [exact TS|exact B1].
    + inversion B2; subst. constructor; auto. cbn. auto.
    + cbn [all_vars flat_map sc_vars app List.length]. change (flat_map sc_vars l) with (all_vars l). rewrite <- TS. lia.
    + unfold scopes, top in A9. cbn [cs_stack hd] in A9. rewrite E in A9. destruct A9 as (X1 & X2 & X3). apply (apart_head sc); [reflexivity|reflexivity|apply (X2 sc); left; auto| |split; auto]. intros e He. apply (X3 e He sc). left; auto.
  - assert (EH : head (CState (c :: r) n) = sc) by (unfold head, scopes, top; cbn; rewrite E; reflexivity).
    assert (ES : scopes (CState (c :: r) n) = sc :: l) by exact E.
    split; try reflexivity; try apply prefix_refl; try apply outers_le_refl.
    + unfold slot_count, top. cbn [cs_stack hd set_scopes cx_scopes ss_slot_count]. lia.
    + rewrite EH. unfold head, scopes, top. cbn [cs_stack hd set_scopes cx_scopes ss_scopes]. split; [repeat split|split; [apply call_le_refl|]]. cbn [sc_vars].
      eexists [_], (sc_vars sc). split; [reflexivity|]. split; [reflexivity|]. split; [|apply vars_le_refl]. constructor; [discriminate|constructor].
    + rewrite ES. apply scopes_le_refl.
    + rewrite ES. unfold scopes, top. cbn [cs_stack hd set_scopes cx_scopes ss_scopes]. match goal with |- loops_le _ ?a ?b => replace b with a by (symmetry; apply loops_same; reflexivity) end. apply loops_le_refl.
  - intros i _. reflexivity.
Qed.

Lemma update_var_le C x f vs : (forall v, In (sv_name v) C \/ sv_captured (f v) = sv_captured v) -> (forall v, sv_name (f v) = sv_name v /\ sv_slot (f v) = sv_slot v /\ (sv_captured v = true -> sv_captured (f v) = true)) ->
  Forall2 (var_le C) vs (update_var x f vs).
Proof.
  intros H1 H2. induction vs as [|v vs IH]; cbn; [constructor|]. destruct (String.eqb (sv_name v) x); constructor; auto using var_le_refl, vars_le_refl.
  destruct (H2 v) as (A & B & D). repeat split; auto. intros K. destruct (H1 v) as [|E]; auto. left. congruence.
Qed.
Lemma update_var_le_name C x vs : In x C -> Forall2 (var_le C) vs (update_var x set_captured vs).
Proof.
  intros H. induction vs as [|v vs IH]; cbn; [constructor|]. destruct (String.eqb_spec (sv_name v) x); constructor; auto using var_le_refl, vars_le_refl.
  repeat split; auto. intros _. right. congruence.
Qed.
Lemma update_scopes_le C x f l : (forall vs, Forall2 (var_le C) vs (update_var x f vs)) -> Forall2 (scope_le C) l (update_scopes x f l).
Proof.
  intros H. induction l as [|sc l IH]; cbn; [constructor|]. destruct (find_var x (sc_vars sc)); constructor; auto using scope_le_refl, scopes_le_refl.
  split; [repeat split|split; [reflexivity|apply H]].
Qed.
Lemma update_scopes_same {A} (g : scope -> A) x f l : (forall sc vs, g (set_vars sc vs) = g sc) -> map g (update_scopes x f l) = map g l.
Proof. intros H. induction l as [|sc l IH]; cbn; auto. destruct (find_var x (sc_vars sc)); cbn; rewrite ?H; congruence. Qed.
Lemma update_scopes_loops x f l : loops (update_scopes x f l) = loops l.
Proof.
  unfold loops. induction l as [|sc l IH]; cbn; auto. destruct (find_var x (sc_vars sc)); cbn; unfold is_loop in *; cbn; destruct (scope_kind_eqb (sc_kind sc) KLoop); cbn; congruence.
Qed.
Lemma update_scopes_slots x f l : Forall (fun sc => sc_slots sc = List.length (sc_vars sc)) l -> Forall (fun sc => sc_slots sc = List.length (sc_vars sc)) (update_scopes x f l).
Proof.
  assert (L : forall vs, List.length (update_var x f vs) = List.length vs) by (induction vs as [|v vs IH]; cbn; auto; destruct (String.eqb (sv_name v) x); cbn; auto).
  induction 1 as [|sc l H F IH]; cbn; [constructor|]. destruct (find_var x (sc_vars sc)); constructor; cbn; auto. rewrite L. exact H.
Qed.
Lemma scope_le_calls C l l' (P : call_context -> Prop) : Forall2 (scope_le C) l l' -> (forall sc, In sc l -> P (sc_call sc)) -> forall sc, In sc l' -> P (sc_call sc).
Proof. induction 1 as [|x y a b (_ & H & _) F IH]; cbn; intros K sc; [tauto|]. intros [<-|H2]; [rewrite H; apply K; auto|apply IH; auto]. Qed.

Lemma apart_le C l l' : Forall2 (scope_le C) l l' -> loops l' = loops l -> exits_apart l -> exits_apart l'.
Proof. intros F E (A & B & X). split; [rewrite E; exact A|]. split; [apply (scope_le_calls _ _ _ (fun cc => apart (cc_exits cc)) F); exact B|]. rewrite E. intros e He. apply (scope_le_calls _ _ _ (fun cc => cross e (cc_exits cc)) F). apply X. exact He. Qed.
Lemma heads_le C p d l l' : Forall2 (scope_le C) l l' -> head_le [] C p (hd d l) (hd d l').
Proof.
  intros F. inversion F as [|x y a b (X1 & X2 & X3) X4 Q1 Q2]; [apply head_le_refl|]. cbn [hd]. split; [exact X1|]. split; [rewrite X2; apply call_le_refl|]. exists [], (sc_vars y). auto.
Qed.
Lemma tails_le C l l' : Forall2 (scope_le C) l l' -> Forall2 (scope_le C) (tl l) (tl l').
Proof. intros F. inversion F; [constructor|auto]. Qed.
Lemma T_set_state b C N x st : T b [] C N 0 (m_set_state x st) (fun _ => True).
Proof.
  intros s a s' W L _ E. apply on_scopes_ok in E. destruct E as (c & r & n & ss' & -> & E & ->). injection E as <- <-.
  assert (SL : Forall2 (scope_le C) (ss_scopes (cx_scopes c)) (update_scopes x (set_state st) (ss_scopes (cx_scopes c)))).
  { apply update_scopes_le. intros vs. apply update_var_le; auto. }
  pose proof (wf_top _ _ _ W) as [B1 B2 B3 B4]. pose proof W as [A1 A2 A3 A4 A5 A6 A7 A8 A9]. unfold scopes, pos, data, top in A2, A4, A5, A6. cbn [cs_stack hd] in A2, A4, A5, A6.
  split; [|split; [|split; [|split; [cbn; lia|exact Logic.I]]]].
  - apply scopes_wf; auto; cbn [update_local ss_scopes ss_slot_count].
    + destruct (ss_scopes (cx_scopes c)); [contradiction|]. cbn. destruct (find_var x (sc_vars s)); discriminate.
    + rewrite update_scopes_loops. exact A4.
    + apply (scope_le_calls _ _ _ (fun cc => forall y, In y (cc_exits cc) -> y + 2 <= List.length (asm_data (cx_asm c))) SL) in A5 || idtac.
      intros sc y H1 H2. revert sc H1 y H2. apply (scope_le_calls _ _ _ (fun cc => forall y, In y (cc_exits cc) -> y + 2 <= List.length (asm_data (cx_asm c))) SL). intros; eauto.
    + apply (scope_le_calls _ _ _ (fun cc => cc_depth cc = 0 -> cc_exits cc = []) SL). auto.
    + eapply numbered_le; [apply all_vars_le; exact SL|exact B1].
    + apply update_scopes_slots. exact B2.
    + rewrite (slots_le _ _ _ SL). exact B3.
    + eapply apart_le; [exact SL|apply update_scopes_loops|exact A9].
  - split; try reflexivity; try apply prefix_refl; try apply outers_le_refl.
    + apply (heads_le _ _ _ _ _ SL).
    + apply (tails_le _ _ _ SL).
    + unfold scopes, top. cbn [cs_stack hd set_scopes cx_scopes ss_scopes update_local]. rewrite update_scopes_loops. apply loops_le_refl.
  - intros i _. reflexivity.
Qed.

(** ** Captured variables *)
Definition flag_of (v : scope_var) : string * bool := (sv_name v, sv_captured v).
Definition slevel (c : context) : level := (map flag_of (cvars c), cx_upvalues c).
Lemma lookup_app x a b : lookup x (a ++ b) = match lookup x a with Some (j, fl) => Some (j + List.length b, fl) | None => lookup x b end.
Proof.
  induction a as [|[y fl] a IH]; cbn; auto. destruct (String.eqb x y); auto. now rewrite app_length.
Qed.
Lemma lookup_vars x vs (b : list scope_var) : numbered (vs ++ b) ->
  lookup x (map flag_of vs) = match find_var x vs with Some v => Some (sv_slot v - List.length b, sv_captured v) | None => None end.
Proof.
  induction vs as [|v vs IH]; cbn; auto. intros (H1 & H2). unfold find_var in *. cbn. rewrite (String.eqb_sym (sv_name v) x).
  destruct (String.eqb x (sv_name v)); auto. rewrite H1, app_length, map_length. do 2 f_equal. lia.
Qed.
Lemma numbered_tail a b : numbered (a ++ b) -> numbered b.
Proof. induction a; cbn; tauto. Qed.
Lemma numbered_ge a b x v : numbered (a ++ b) -> find_var x a = Some v -> List.length b <= sv_slot v.
Proof.
  unfold find_var. induction a as [|u a IH]; cbn; [discriminate|]. intros (H1 & H2). destruct (String.eqb (sv_name u) x); [intros [= <-]; rewrite H1, app_length; lia|auto].
Qed.
Lemma lookup_local x l : numbered (all_vars l) ->
  lookup x (map flag_of (all_vars l)) = match find_local x l with Some v => Some (sv_slot v, sv_captured v) | None => None end.
Proof.
  induction l as [|sc l IH]; [reflexivity|]. cbn [all_vars flat_map find_local]. change (flat_map sc_vars l) with (all_vars l). intros H. rewrite map_app, lookup_app, (lookup_vars _ _ _ H), map_length.
  destruct (find_var x (sc_vars sc)) as [v|] eqn:E; [|apply IH; eapply numbered_tail; eauto]. do 2 f_equal. pose proof (numbered_ge _ _ _ _ H E). lia.
Qed.
Lemma find_update x vs v : find_var x vs = Some v -> In (set_captured v) (update_var x set_captured vs).
Proof. unfold find_var. induction vs as [|u vs IH]; cbn; [discriminate|]. destruct (String.eqb (sv_name u) x); cbn; [intros [= <-]; auto|auto]. Qed.
Lemma find_local_in x l v : find_local x l = Some v -> In (set_captured v) (all_vars (update_scopes x set_captured l)).
Proof.
  induction l as [|sc l IH]; cbn; [discriminate|]. destruct (find_var x (sc_vars sc)) as [u|] eqn:E; cbn; rewrite in_app_iff.
  - intros [= <-]. left. apply find_update. exact E.
  - auto.
Qed.
Lemma F2_in_l {A B} (R : A -> B -> Prop) a b x : Forall2 R a b -> In x a -> exists y, In y b /\ R x y.
Proof. induction 1; cbn; [tauto|]. intros [<-|H2]; [eauto|]. destruct (IHForall2 H2) as (z & ? & ?). eauto. Qed.
Lemma desc_in_le N p p' d : prefix (cx_upvalues p) (cx_upvalues p') -> Forall2 (scope_le N) (ss_scopes (cx_scopes p)) (ss_scopes (cx_scopes p')) -> desc_in p d -> desc_in p' d.
Proof.
  intros P F. destruct d as [j m|j m]; cbn.
  - intros (v & H1 & H2 & H3). apply all_vars_le in F. destruct (F2_in_l _ _ _ _ F H1) as (v' & H4 & _ & H6 & H7 & _). exists v'. split; [exact H4|]. split; [congruence|auto].
  - intros H. destruct P as (more & ->). rewrite app_length. lia.
Qed.
Lemma capture_wf n x p : ctx_wf n p -> ctx_wf n (set_scopes (update_local x set_captured (cx_scopes p)) p).
Proof.
  intros [B1 B2 B3 B4].
  assert (SL : Forall2 (scope_le [x]) (ss_scopes (cx_scopes p)) (update_scopes x set_captured (ss_scopes (cx_scopes p)))).
  { apply update_scopes_le. intros vs. apply update_var_le_name. left; auto. }
  split; auto; rewrite ?cvars_set; cbn [update_local ss_scopes ss_slot_count].
  - eapply numbered_le; [apply all_vars_le; exact SL|exact B1].
  - apply update_scopes_slots. exact B2.
  - rewrite (slots_le _ _ _ SL). exact B3.
Qed.
Lemma capture_le x p : outer_le [x] p (set_scopes (update_local x set_captured (cx_scopes p)) p).
Proof.
  split; try reflexivity; try apply prefix_refl; cbn [set_scopes cx_scopes update_local ss_scopes].
  - apply update_scopes_loops.
  - apply update_scopes_le. intros vs. apply update_var_le_name. left; auto.
Qed.
Lemma ups_wf n c c' : cx_asm c' = cx_asm c -> cx_scopes c' = cx_scopes c -> ctx_wf n c -> ctx_wf n c'.
Proof. intros H1 H2 [B1 B2 B3 B4]. split; unfold cvars; rewrite ?H1, ?H2; auto. Qed.
Record resolved (n : nat) (x : string) (cur : context) (out : list context) (i : nat) (cur' : context) (out' : list context) : Prop := {
  r_kind : cx_kind cur' = cx_kind cur; r_asm : cx_asm cur' = cx_asm cur; r_scopes : cx_scopes cur' = cx_scopes cur; r_temps : cx_temps cur' = cx_temps cur;
  r_ups : prefix (cx_upvalues cur) (cx_upvalues cur');
  r_outer : Forall2 (outer_le [x]) out out';
  r_wf : Forall (ctx_wf n) (cur' :: out');
  r_chained : chained (cur' :: out');
  r_index : i < List.length (cx_upvalues cur');
  r_reach : reach (cx_upvalues cur') (map slevel out') i x }.
Lemma add_upvalue_new d c i c' : add_upvalue d c = (i, c') -> cx_upvalues c' = cx_upvalues c \/ cx_upvalues c' = cx_upvalues c ++ [d].
Proof. unfold add_upvalue. destruct (position _ _); intros [= <- <-]; auto. Qed.
Lemma desc_all d cur cur' (P Q : upvalue_desc -> Prop) : cx_upvalues cur' = cx_upvalues cur \/ cx_upvalues cur' = cx_upvalues cur ++ [d] ->
  (forall x, P x -> Q x) -> Q d -> Forall P (cx_upvalues cur) -> Forall Q (cx_upvalues cur').
Proof.
  intros H PQ Qd F. assert (F2 : Forall Q (cx_upvalues cur)) by (eapply Forall_impl; eauto). destruct H as [->| ->]; auto. apply Forall_app. auto.
Qed.
Lemma resolve_step n x stack : forall i stack', resolve_upvalue x stack = Some (i, stack') -> Forall (ctx_wf n) stack -> chained stack ->
  exists cur out cur' out', stack = cur :: out /\ stack' = cur' :: out' /\ resolved n x cur out i cur' out'.
Proof.
  induction stack as [|cur outer IH]; intros i stack'; [discriminate|].
  cbn [resolve_upvalue]. destruct outer as [|parent rest]; [discriminate|]. intros E W Ch.
  inversion W as [|? ? W1 W2]; subst. cbn [chained] in Ch. destruct Ch as (Ch1 & Ch2).
  destruct (local x (cx_scopes parent)) as [v|] eqn:El.
  - clear IH. destruct (add_upvalue _ cur) as [idx cur'] eqn:Ea. injection E as <- <-.
    pose proof (add_upvalue_spec _ _ _ _ Ea) as (Hn & Hm & Hk & Ha & Hs & Ht).
    exists cur, (parent :: rest), cur', (set_scopes (update_local x set_captured (cx_scopes parent)) parent :: rest). split; [auto|]. split; [auto|].
    inversion W2 as [|? ? W3 W4]; subst. pose proof (capture_le x parent) as CL. pose proof (capture_wf n x parent W3) as CW. split; auto.
    + constructor; [exact CL|apply outers_le_refl].
    + constructor; [eapply ups_wf; eauto|]. constructor; auto.
    + split; [|eapply chained_swap; [|exact Ch2]; reflexivity].
      eapply desc_all; [eapply add_upvalue_new; exact Ea| | |exact Ch1].
      * intros d. apply desc_in_le with (N := [x]); apply CL.
      * cbn [desc_in]. exists (set_captured v). split; [|auto]. rewrite cvars_set. apply find_local_in. exact El.
    + apply nth_error_Some. rewrite Hn. discriminate.
    + cbn [map reach slevel]. rewrite Hn. rewrite cvars_set, lookup_local.
      * cbn [update_local ss_scopes]. pose proof (local_update x x set_captured (cx_scopes parent) (fun v => eq_refl)) as LU. rewrite String.eqb_refl, El in LU. cbn [option_map] in LU.
        unfold local in LU. cbn [update_local ss_scopes] in LU. rewrite LU. reflexivity.
      * apply CW.
  - destruct (resolve_upvalue x (parent :: rest)) as [[oi outer']|] eqn:Er; [|discriminate].
    destruct (IH _ _ eq_refl W2 Ch2) as (p & o & p' & o' & [= <- <-] & -> & [R1 R2 R3 R4 R5 R6 R7 R8 R9 R10]).
    destruct (add_upvalue _ cur) as [idx cur'] eqn:Ea. injection E as <- <-.
    pose proof (add_upvalue_spec _ _ _ _ Ea) as (Hn & Hm & Hk & Ha & Hs & Ht).
    exists cur, (parent :: rest), cur', (p' :: o'). split; [auto|]. split; [auto|]. split; auto.
    + constructor; [|exact R6]. split; auto; rewrite R3; auto using scopes_le_refl.
    + constructor; [eapply ups_wf; eauto|]. auto.
    + split; [|exact R8]. eapply desc_all; [eapply add_upvalue_new; exact Ea| | |exact Ch1].
      * intros d. apply desc_in_le with (N := [x]); auto. rewrite R3. apply scopes_le_refl.
      * exact R9.
    + apply nth_error_Some. rewrite Hn. discriminate.
    + cbn [map reach slevel]. cbn [map] in R10. rewrite Hn. split; [|exact R10]. unfold cvars. rewrite R3, lookup_local.
      * unfold local in El. rewrite El. reflexivity.
      * inversion W2 as [|? ? W3 W4]; subst. apply W3.
Qed.
Lemma resolve_hidden n x s : Forall (ctx_wf n) (outer s) -> resolve_upvalue x (cs_stack s) = None -> hidden x (map slevel (outer s)).
Proof.
  intros W H. rewrite resolve_none in H. unfold hidden. rewrite Forall_map. apply Forall_forall. intros c Hc. cbn [slevel fst]. unfold cvars. rewrite lookup_local.
  - unfold outer in Hc. destruct (cs_stack s) as [|c0 r] eqn:Es; [destruct Hc|]. cbn [tl] in Hc. apply In_nth_error in Hc. destruct Hc as (k & Hk). specialize (H (S k) c ltac:(lia) Hk). unfold local in H. rewrite H. reflexivity.
  - rewrite Forall_forall in W. apply W. exact Hc.
Qed.
Lemma T_resolve b C N x : In x N -> T b [] C N 0 (m_resolve_upvalue x) (fun _ => True).
Proof.
  intros HN s a s' W L _ E. unfold m_resolve_upvalue in E. destruct (resolve_upvalue x (cs_stack s)) as [[i st]|] eqn:Er; injection E as <- <-.
  - pose proof W as [A1 A2 A3 A4 A5 A6 A7 A8 A9]. destruct (resolve_step _ _ _ _ _ Er A7 A8) as (cur & out & cur' & out' & E1 & -> & [R1 R2 R3 R4 R5 R6 R7 R8 R9 R10]).
    destruct s as [st0 n]. cbn [cs_stack] in *. subst st0.
    assert (IN : incl [x] N) by (intros y [<-|[]]; auto).
    split; [|split; [|split; [|split; [cbn; lia|exact Logic.I]]]].
    + unfold scopes, kind, pos, data, top in *. cbn [cs_stack hd] in *. split; unfold scopes, kind, pos, data, top; cbn [cs_stack hd cs_next_id]; rewrite ?R1, ?R2, ?R3; auto; discriminate.
    + split; unfold scopes, kind, pos, data, consts, temps, head, scopes, slot_count, ups, top; cbn [cs_stack hd outer tl]; rewrite ?R1, ?R2, ?R3; auto using prefix_refl; try lia.
      * apply head_le_refl.
      * apply scopes_le_refl.
      * apply loops_le_refl.
      * eapply outers_le_incl; eauto.
    + intros j _. unfold data, top. cbn [cs_stack hd]. rewrite R2. reflexivity.
  - split; [exact W|]. split; [apply mono_refl|]. split; [intros j _; reflexivity|]. split; [lia|exact Logic.I].
Qed.

(** ** Chains of calls *)
Definition with_scopes (ss : scope_stack) (s : cstate) : cstate := CState (set_scopes ss (top s) :: outer s) (cs_next_id s).
Definition with_head (sc : scope) (s : cstate) : cstate := with_scopes (ScopeStack (sc :: tl (scopes s)) (slot_count s)) s.
Definition with_call (k : call_context) (s : cstate) : cstate := with_head (set_call k (head s)) s.
Definition with_temps (n : nat) (s : cstate) : cstate := CState (set_temps n (top s) :: outer s) (cs_next_id s).
Definition call_of (s : cstate) : call_context := sc_call (head s).
Lemma stack_eta s : wf s -> s = CState (top s :: outer s) (cs_next_id s).
Proof. intros [A1 _ _ _ _ _ _ _ _]. destruct s as [[|c r] n]; [contradiction|reflexivity]. Qed.
Lemma scopes_eta s : wf s -> scopes s = head s :: tl (scopes s).
Proof. intros [_ A2 _ _ _ _ _ _ _]. unfold head. destruct (scopes s); [contradiction|reflexivity]. Qed.
Lemma update_top_ok f s u s' : wf s -> m_update_top f s = Ok (u, s') -> s' = with_head (f (head s)) s.
Proof.
  intros W E. apply on_scopes_ok in E. destruct E as (c & r & n & ss' & -> & E & ->). apply omap_ok in E. destruct E as (ss & E & [= _ <-]). unfold update_top in E.
  unfold with_head, head, scopes, slot_count, top. cbn [cs_stack hd]. destruct (ss_scopes (cx_scopes c)) as [|sc l] eqn:Es; [discriminate|]. injection E as <-. unfold with_scopes, top. cbn [cs_stack hd tl outer cs_next_id]. reflexivity.
Qed.
Lemma top_scope_ok s sc s' : m_top_scope s = Ok (sc, s') -> s' = s /\ sc = head s.
Proof.
  intros E. apply on_scopes_ok in E. destruct E as (c & r & n & ss' & -> & E & ->). apply omap_ok in E. destruct E as (ss & E & [= -> <-]).
  split; [destruct c; reflexivity|]. unfold top_scope in E. unfold head, scopes, top. cbn [cs_stack hd]. destruct (ss_scopes (cx_scopes c)); [discriminate|]. injection E as <-. reflexivity.
Qed.
Lemma call_wf k s : wf s -> (forall x, In x (cc_exits k) -> x + 2 <= pos s) -> (cc_depth k = 0 -> cc_exits k = []) -> apart (cc_exits k) -> (forall e, In e (loops (scopes s)) -> cross e (cc_exits k)) -> wf (with_call k s).
Proof.
  intros W H1 H2 H3 H4. pose proof (scopes_eta s W) as ES. rewrite (stack_eta s W) in W. pose proof (wf_top _ _ _ W) as [B1 B2 B3 B4]. pose proof W as [A1 A2 A3 A4 A5 A6 A7 A8 A9]. unfold with_call, with_head, with_scopes.
  unfold scopes, pos, data, top in A2, A4, A5, A6. cbn [cs_stack hd] in A2, A4, A5, A6.
  change (ss_scopes (cx_scopes (hd (context_new KScript) (cs_stack s)))) with (scopes s) in *.
  unfold cvars in B1, B3. fold (scopes s) in B1, B2, B3. rewrite ES in B1, B2, B3, A4, A5, A6.
  apply scopes_wf; [exact W|discriminate|..]; cbn [ss_scopes ss_slot_count].
  - rewrite (loops_same (head s)) by reflexivity. exact A4.
  - intros sc x [<-|H] Hx; [apply H1; exact Hx|]. apply (A5 sc x); [right; exact H|exact Hx].
  - intros sc [<-|H] Hx; [apply H2; exact Hx|]. apply (A6 sc); [right; exact H|exact Hx].
  - exact B1.
  - inversion B2; subst. constructor; auto.
  - exact B3.
  - unfold scopes, top in A9. cbn [cs_stack hd] in A9. fold (scopes s) in A9. change (ss_scopes (cx_scopes (hd (context_new KScript) (cs_stack s)))) with (scopes s) in A9. rewrite ES in A9. apply (apart_head (head s)); [reflexivity|reflexivity|exact H3|rewrite <- ES; exact H4|exact A9].
Qed.
Lemma loops_call k s : wf s -> loops (scopes (with_call k s)) = loops (scopes s).
Proof. intros W. rewrite (scopes_eta s W). apply loops_same; reflexivity. Qed.
Lemma mono_call D C N k k' s s1 : wf s -> wf s1 -> mono D C N (with_call k s) s1 -> call_le (pos s) (call_of s) k' -> mono D C N s (with_call k' s1).
Proof.
  intros W W1 [M1 M2 M3 M4 M5 (MH1 & MH2 & MH3) M7 M8 M9 M10] K. rewrite (loops_call _ _ W) in M8. split; auto.
  - split; [exact MH1|]. split; [exact K|exact MH3].
  - rewrite (loops_call _ _ W1). exact M8.
Qed.
Lemma patches_spec b C N l : Forall (fun x => b <= x) l -> T b [] C N 0 (each patch l) (fun _ => True).
Proof. intros F. apply T_each0. intros x Hx. apply T_patch. rewrite Forall_forall in F. auto. Qed.
Lemma mono_wcall_pos k s : pos (with_call k s) = pos s. Proof. reflexivity. Qed.

Lemma call_bounds s x : wf s -> In x (cc_exits (call_of s)) -> x + 2 <= pos s.
Proof. intros W. apply (wf_calls s W). rewrite (scopes_eta s W). left; auto. Qed.
Lemma call_apart s : wf s -> apart (cc_exits (call_of s)).
Proof. intros W. apply (proj1 (proj2 (wf_apart s W))). rewrite (scopes_eta s W). left; auto. Qed.
Lemma call_cross s e : wf s -> In e (loops (scopes s)) -> cross e (cc_exits (call_of s)).
Proof. intros W He. apply (proj2 (proj2 (wf_apart s W)) e He). rewrite (scopes_eta s W). left; auto. Qed.
Lemma call_depth s : wf s -> cc_depth (call_of s) = 0 -> cc_exits (call_of s) = [].
Proof. intros W. apply (wf_depth s W). rewrite (scopes_eta s W). left; auto. Qed.
(** An action run inside a chain. *)
Definition Tc {A} (b : nat) (D C N : list string) (n : nat) (m : M A) : Prop :=
  forall s a s', wf s -> b <= pos s -> incl (kind_names (kind s)) N -> 0 < cc_depth (call_of s) -> m s = Ok (a, s') ->
    wf s' /\ mono D C N s s' /\ below b s s' /\ cs_next_id s' = cs_next_id s + n.
Lemma T_Tc {A} b D C N n (m : M A) Q : T b D C N n m Q -> Tc b D C N n m.
Proof. intros H s a s' W L K _ E. destruct (H s a s' W L K E) as (?&?&?&?&_). auto. Qed.
Lemma Tc_seq {A B} b D C N n1 n2 n (m : M A) (f : A -> M B) Q : T b [] C N n1 m Q -> (forall a, Q a -> Tc b D C N n2 (f a)) -> n = n1 + n2 -> Tc b D C N n (bind m f).
Proof.
  intros H1 H2 -> s x s' W L K CD E. apply bind_ok in E. destruct E as (a & s1 & E1 & E2). destruct (H1 _ _ _ W L K E1) as (W1 & M1 & L1 & N1 & Q1).
  destruct (H2 a Q1 s1 x s' W1) as (W2 & M2 & L2 & N2); auto.
  { pose proof (m_pos _ _ _ _ _ M1). lia. } { rewrite (m_kind _ _ _ _ _ M1). exact K. } { destruct (m_head _ _ _ _ _ M1) as (_ & (X & _) & _). unfold call_of. rewrite X. exact CD. }
  split; [auto|]. split; [|split; [intros i Hi; rewrite L2, L1; auto|lia]]. rewrite <- (app_nil_r D). eapply mono_trans; eauto.
Qed.
Lemma T_in_call b D C N n m : Tc b D C N n m -> T b D C N n (in_call m) (fun _ => True).
Proof.
  intros H s a s' W L K E. unfold in_call in E. apply bind_ok in E. destruct E as (u & s1 & E1 & E). apply bind_ok in E. destruct E as (u2 & s2 & E2 & E3).
  apply (update_top_ok _ _ _ _ W) in E1. subst s1. fold (with_call (CallContext (S (cc_depth (call_of s))) (cc_exits (call_of s))) s) in E2.
  assert (W1 : wf (with_call (CallContext (S (cc_depth (call_of s))) (cc_exits (call_of s))) s)).
  { apply call_wf; [exact W| |discriminate|apply call_apart; exact W|intros e He; apply call_cross; auto]. intros x. apply call_bounds. exact W. }
  destruct (H _ _ _ W1 L K (Nat.lt_0_succ _) E2) as (W2 & M2 & L2 & N2).
  destruct (m_head _ _ _ _ _ M2) as (_ & (CD & new & CE & CF) & _). change (sc_call (head s2)) with (call_of s2) in CD, CE. cbn [with_call with_head with_scopes head scopes top cs_stack hd set_scopes cx_scopes ss_scopes set_call sc_call cc_depth cc_exits] in CD, CE.
  rewrite mono_wcall_pos in CF.
  unfold exit_call in E3. apply bind_ok in E3. destruct E3 as (sc & s3 & E3 & E4). apply top_scope_ok in E3. destruct E3 as (-> & ->). fold (call_of s2) in E4. rewrite CD in E4.
  assert (LE : forall d, cc_depth (call_of s) = d -> call_le (pos s) (call_of s) (CallContext d (cc_exits (call_of s2)))) by (intros d <-; split; [auto|exists new; auto]).
  destruct (cc_depth (call_of s)) as [|d] eqn:Ed.
  - apply bind_ok in E4. destruct E4 as (u3 & s3 & E3 & E4). apply (update_top_ok _ _ _ _ W2) in E3. subst s3. fold (with_call (CallContext 0 []) s2) in E4.
    rewrite (call_depth s W Ed) in CE. cbn [app] in CE.
    assert (W3 : wf (with_call (CallContext 0 []) s2)) by (apply call_wf; [exact W2|intros x []|auto|apply apart_nil|intros; apply cross_nil]).
    assert (F : Forall (fun x => b <= x) (cc_exits (call_of s2))) by (rewrite CE; eapply Forall_impl; [|exact CF]; cbn; intros; lia).
    assert (M3 : mono D C N s (with_call (CallContext 0 []) s2)).
    { eapply mono_call; eauto. split; [auto|]. exists []. rewrite (call_depth s W Ed). auto. }
    assert (K3 : incl (kind_names (kind (with_call (CallContext 0 []) s2))) N) by (rewrite (m_kind _ _ _ _ _ M3); exact K).
    assert (P3 : b <= pos (with_call (CallContext 0 []) s2)) by (pose proof (m_pos _ _ _ _ _ M3); lia).
    destruct (patches_spec b C N _ F _ _ _ W3 P3 K3 E4) as (W4 & M4 & L4 & N4 & _).
    split; [exact W4|]. split; [eapply mono_trans0; eauto|]. split; [|split; [|exact Logic.I]].
    + intros i Hi. rewrite L4 by auto. rewrite <- L2 by auto. reflexivity.
    + rewrite N4. cbn [with_call with_head with_scopes cs_next_id]. rewrite N2. cbn [with_call with_head with_scopes cs_next_id]. lia.
  - apply (update_top_ok _ _ _ _ W2) in E4. subst s'. fold (with_call (CallContext (S d) (cc_exits (call_of s2))) s2).
    split; [apply call_wf; [exact W2|intros x; apply call_bounds; exact W2|discriminate|apply call_apart; exact W2|intros e He; apply call_cross; auto]|]. split; [eapply mono_call; eauto|]. split; [exact L2|]. split; [|exact Logic.I].
    cbn [with_call with_head with_scopes cs_next_id]. rewrite N2. reflexivity.
Qed.

Lemma get_temps_ok s n s' : get_temps s = Ok (n, s') -> s' = s /\ n = temps s.
Proof. intros E. apply bind_ok in E. destruct E as (c & s1 & E1 & [= <- <-]). unfold get_context in E1. destruct s as [[|c0 r] m]; [discriminate|]. injection E1 as <- <-. auto. Qed.
Lemma put_temps_ok n s u s' : put_temps n s = Ok (u, s') -> s' = with_temps n s.
Proof. intros E. apply bind_ok in E. destruct E as (c & s1 & E1 & E2). unfold get_context in E1. destruct s as [[|c0 r] m]; [discriminate|]. injection E1 as <- <-. injection E2 as <- <-. reflexivity. Qed.
Lemma temps_wf n s : wf s -> wf (with_temps n s).
Proof.
  intros W. rewrite (stack_eta s W) in W. destruct W as [A1 A2 A3 A4 A5 A6 A7 A8 A9]. cbn [cs_stack cs_next_id] in *. split; auto; cbn [with_temps cs_stack cs_next_id]; try discriminate.
  inversion A7 as [|? ? B1 B2]; subst. constructor; auto. destruct B1. split; auto.
Qed.
Lemma mono_temps D C N n m s s1 : mono D C N (with_temps n s) s1 -> mono D C N (with_temps m s) (with_temps m s1).
Proof. intros [M1 M2 M3 M4 M5 MH M7 M8 M9 M10]. split; auto. Qed.
Lemma with_temps_id s : wf s -> with_temps (temps s) s = s.
Proof. intros W. rewrite (stack_eta s W) at 3. unfold with_temps, temps. destruct (top s); reflexivity. Qed.
Lemma with_temps_twice n m s : with_temps n (with_temps m s) = with_temps n s.
Proof. reflexivity. Qed.

Lemma loops_cross p l l' L : loops_le p l l' -> (forall y, In y L -> y + 2 <= p) -> (forall e, In e l -> cross e L) -> forall e, In e l' -> cross e L.
Proof.
  intros H B X e He. destruct l as [|a l]; destruct l' as [|a' l']; cbn in H; try contradiction. destruct H as ((new & -> & F) & ->). destruct He as [<-|He]; [|apply X; right; exact He].
  intros x y Hx Hy. rewrite in_app_iff in Hx. destruct Hx as [Hx|Hx]; [apply (X a (or_introl eq_refl) x y Hx Hy)|]. rewrite Forall_forall in F. specialize (F x Hx). specialize (B y Hy). lia.
Qed.
Section Args.
Variable visit : expr -> M unit.
Definition isolated_states (s : cstate) (e : expr) (s' : cstate) (s2 s3 : cstate) : Prop :=
  s2 = with_temps (S (temps s)) (with_call (CallContext 0 []) s) /\ visit e s2 = Ok (tt, s3) /\ s' = with_call (call_of s) s3.
Lemma isolated_ok e s u s' : wf s -> visit_isolated visit e s = Ok (u, s') ->
  exists s2 s3, wf s2 /\ s2 = with_temps (S (temps s)) (with_call (CallContext 0 []) s) /\ visit e s2 = Ok (tt, s3) /\ (wf s3 -> s' = with_call (call_of s) s3).
Proof.
  intros W E. unfold visit_isolated in E. apply bind_ok in E. destruct E as (sc & s1 & E1 & E). apply top_scope_ok in E1. destruct E1 as (-> & ->).
  apply bind_ok in E. destruct E as (u1 & s1 & E1 & E). apply (update_top_ok _ _ _ _ W) in E1. fold (with_call (CallContext 0 []) s) in E1.
  apply bind_ok in E. destruct E as (n & s2 & E2 & E). apply get_temps_ok in E2. destruct E2 as (-> & ->).
  apply bind_ok in E. destruct E as (u2 & s2 & E2 & E). apply put_temps_ok in E2.
  apply bind_ok in E. destruct E as (u3 & s3 & E3 & E). exists s2, s3. subst s1. split; [|split; [exact E2|split; [destruct u3; exact E3|]]].
  - subst s2. apply temps_wf. apply call_wf; [exact W|intros x []|auto|apply apart_nil|intros; apply cross_nil].
  - intros W3. apply (update_top_ok _ _ _ _ W3) in E. exact E.
Qed.
Lemma isolated_spec b C N n e : T b [] C N n (visit e) (fun _ => True) -> forall s u s', wf s -> b <= pos s -> incl (kind_names (kind s)) N -> visit_isolated visit e s = Ok (u, s') ->
  wf s' /\ (forall t, mono [] C N (with_temps t s) (with_temps t s')) /\ temps s' = S (temps s) /\ below b s s' /\ cs_next_id s' = cs_next_id s + n.
Proof.
  intros H s u s' W L K E. destruct (isolated_ok _ _ _ _ W E) as (s2 & s3 & W2 & E2 & E3 & E4).
  assert (K2 : incl (kind_names (kind s2)) N) by (subst s2; exact K). assert (L2 : b <= pos s2) by (subst s2; exact L).
  destruct (H _ _ _ W2 L2 K2 E3) as (W3 & M3 & L3 & N3 & _). specialize (E4 W3). subst s'.
  destruct (m_head _ _ _ _ _ M3) as (_ & (CD & new & CE & CF) & _).
  assert (P3 : pos s <= pos s3) by (pose proof (m_pos _ _ _ _ _ M3); subst s2; exact H0).
  split; [|split; [|split; [|split]]].
  - apply call_wf; [exact W3| | |apply call_apart; exact W|].
    + intros x Hx. pose proof (call_bounds s x W Hx). lia.
    + apply call_depth. exact W.
    + subst s2. eapply loops_cross; [exact (m_loops _ _ _ _ _ M3)|intros y Hy; exact (call_bounds s y W Hy)|]. change (scopes (with_temps (S (temps s)) (with_call (CallContext 0 []) s))) with (scopes (with_call (CallContext 0 []) s)). rewrite (loops_call _ _ W). intros e0 He. apply call_cross; auto.
  - intros t. subst s2. apply (mono_temps _ _ _ _ t) in M3.
    assert (mono [] C N (with_call (CallContext 0 []) (with_temps t s)) (with_temps t s3)) as M4 by exact M3.
    apply (mono_call _ _ _ _ (call_of s)) in M4; [exact M4|apply temps_wf; exact W|apply temps_wf; exact W3|]. apply call_le_refl.
  - change (temps (with_call (call_of s) s3)) with (temps s3). rewrite (m_temps _ _ _ _ _ M3). subst s2. reflexivity.
  - intros i Hi. change (data (with_call (call_of s) s3)) with (data s3). rewrite L3 by exact Hi. subst s2. reflexivity.
  - change (cs_next_id (with_call (call_of s) s3)) with (cs_next_id s3). rewrite N3. subst s2. reflexivity.
Qed.
Lemma isolated_all b C N (g : expr -> nat) args : (forall e, In e args -> T b [] C N (g e) (visit e) (fun _ => True)) ->
  forall s u s', wf s -> b <= pos s -> incl (kind_names (kind s)) N -> each (visit_isolated visit) args s = Ok (u, s') ->
  wf s' /\ (forall t, mono [] C N (with_temps t s) (with_temps t s')) /\ below b s s' /\ cs_next_id s' = cs_next_id s + list_sum (map g args).
Proof.
  intros H. induction args as [|e r IH]; intros s u s' W L K E.
  - injection E as _ <-. split; [auto|]. split; [intros; apply mono_refl|]. split; [intros i _; auto|cbn; lia].
  - cbn [each] in E. apply bind_ok in E. destruct E as (u1 & s1 & E1 & E2).
    destruct (isolated_spec b C N (g e) e (H e (or_introl eq_refl)) _ _ _ W L K E1) as (W1 & M1 & T1 & L1 & N1).
    assert (MP : pos s <= pos s1) by (exact (m_pos _ _ _ _ _ (M1 0))). assert (MK : kind s1 = kind s) by (exact (m_kind _ _ _ _ _ (M1 0))).
    destruct (IH (fun e' He' => H e' (or_intror He')) s1 u s' W1) as (W2 & M2 & L2 & N2); [lia|rewrite MK; exact K|exact E2|].
    split; [auto|]. split; [intros t; eapply mono_trans0; eauto|]. split; [intros i Hi; rewrite L2, L1; auto|]. cbn [map list_sum fold_right]. rewrite N2, N1. unfold list_sum. lia.
Qed.
Lemma T_call_args b C N (g : expr -> nat) args : (forall e, In e args -> T b [] C N (g e) (visit e) (fun _ => True)) ->
  T b [] C N (list_sum (map g args)) (visit_call_args visit args) (fun _ => True).
Proof.
  intros H s a s' W L K E. unfold visit_call_args in E. apply bind_ok in E. destruct E as (n & s1 & E1 & E). apply get_temps_ok in E1. destruct E1 as (-> & ->).
  apply bind_ok in E. destruct E as (u1 & s1 & E1 & E). apply put_temps_ok in E. subst s'. destruct (isolated_all _ _ _ _ _ H _ _ _ W L K E1) as (W1 & M1 & L1 & N1).
  split; [apply temps_wf; auto|]. split; [rewrite <- (with_temps_id s W) at 1; apply M1|]. split; [exact L1|]. split; [exact N1|exact Logic.I].
Qed.
Lemma T_index b C N n1 n2 x i : T b [] C N n1 (visit x) (fun _ => True) -> T b [] C N n2 (visit i) (fun _ => True) ->
  T b [] C N (n1 + n2) (visit_index visit x i) (fun _ => True).
Proof.
  intros H1 H2. unfold visit_index. eapply T_seq; [exact H1| |reflexivity]. intros _ _ s a s' W L K E. apply bind_ok in E. destruct E as (u1 & s1 & E1 & E).
  destruct (isolated_spec b C N n2 i H2 _ _ _ W L K E1) as (W1 & M1 & T1 & L1 & N1).
  apply bind_ok in E. destruct E as (u2 & s2 & E2 & E). apply bind_ok in E2. destruct E2 as (n & s3 & E2 & E3). apply get_temps_ok in E2. destruct E2 as (-> & ->). apply put_temps_ok in E3.
  rewrite T1 in E3. cbn [Nat.sub] in E3. rewrite Nat.sub_0_r in E3.
  assert (M2 : mono [] C N s s2) by (subst s2; rewrite <- (with_temps_id s W) at 1; apply M1).
  assert (W2 : wf s2) by (subst s2; apply temps_wf; exact W1).
  destruct (T_emit b C N OpLoadIndex s2 a s' W2) as (W4 & M4 & L4 & N4 & _); [pose proof (m_pos _ _ _ _ _ M2); lia|rewrite (m_kind _ _ _ _ _ M2); exact K|exact E|].
  split; [exact W4|]. split; [eapply mono_trans0; eauto|]. split; [intros j Hj; rewrite L4 by exact Hj; subst s2; apply L1; exact Hj|]. split; [|exact Logic.I].
  rewrite N4. subst s2. change (cs_next_id (with_temps (temps s) s1)) with (cs_next_id s1). rewrite N1. lia.
Qed.
End Args.

(** ** Scopes *)
Definition pushed (k : scope_kind) (e : option nat) (s : cstate) : cstate := with_scopes (push_scope k e (cx_scopes (top s))) s.
Definition popped (s : cstate) : cstate := with_scopes (ScopeStack (tl (scopes s)) (slot_count s)) s.
Lemma push_scope_ok k e s u s' : m_push_scope k e s = Ok (u, s') -> s' = pushed k e s.
Proof. intros E. apply on_scopes_ok in E. destruct E as (c & r & n & ss' & -> & [= _ <-] & ->). reflexivity. Qed.
Lemma pop_scope_ok s sc s' : m_pop_scope s = Ok (sc, s') -> sc = head s /\ s' = popped s.
Proof.
  intros E. apply on_scopes_ok in E. destruct E as (c & r & n & ss' & -> & E & ->). unfold pop_scope in E. unfold popped, head, scopes, top, with_scopes. cbn [cs_stack hd].
  destruct (ss_scopes (cx_scopes c)) eqn:Es; [discriminate|]. injection E as <- <-. split; [auto|]. unfold slot_count, top. cbn [cs_stack hd outer tl cs_next_id]. reflexivity.
Qed.
Lemma pushed_wf k e s : wf s -> wf (pushed k e s).
Proof.
  intros W. rewrite (stack_eta s W) in W. pose proof (wf_top _ _ _ W) as [B1 B2 B3 B4]. pose proof W as [A1 A2 A3 A4 A5 A6 A7 A8 A9]. unfold pushed, with_scopes.
  apply scopes_wf; [exact W|discriminate|..]; cbn [push_scope ss_scopes ss_slot_count].
  - intros l x H1 H2. destruct k; cbn in H1.
    + exact (A4 l x H1 H2).
    + destruct H1 as [<-|H1]; [destruct H2|exact (A4 l x H1 H2)].
  - intros sc x [<-|H] Hx; [destruct Hx|]. exact (A5 sc x H Hx).
  - intros sc [<-|H] Hx; [auto|]. exact (A6 sc H Hx).
  - exact B1.
  - constructor; auto.
  - exact B3.
  - destruct A9 as (X1 & X2 & X3). split; [intros l H; destruct k; cbn in H; [exact (X1 l H)|destruct H as [<-|H]; [apply apart_nil|exact (X1 l H)]]|]. split; [intros sc [<-|H]; [apply apart_nil|exact (X2 sc H)]|]. intros l Hl sc [<-|H]; [apply cross_nil|]. destruct k; cbn in Hl; [exact (X3 l Hl sc H)|destruct Hl as [<-|Hl]; [intros x y []|exact (X3 l Hl sc H)]].
Qed.
Lemma F2_tl {A B} (R : A -> B -> Prop) a b : Forall2 R a b -> (a <> [] -> b <> []).
Proof. destruct 1; [auto|discriminate]. Qed.
Lemma pushed_loops k e s : loops (scopes (pushed k e s)) = match k with KLoop => [[]] | KBlock => [] end ++ loops (scopes s).
Proof. destruct k; reflexivity. Qed.
Lemma popped_spec D C N k e s0 s : wf s0 -> wf s -> mono D C N (pushed k e s0) s ->
  wf (popped s) /\ mono [] C N s0 (popped s) /\ (k = KLoop -> Forall (fun x => pos s0 < x) (sc_exits (head s))) /\ sc_kind (head s) = k.
Proof.
  intros W0 W M. pose proof (scopes_eta s W) as ES. pose proof (scopes_eta s0 W0) as ES0.
  assert (KH : sc_kind (head s) = k) by (destruct (m_head _ _ _ _ _ M) as ((_ & SK & _) & _); exact SK).
  assert (TL : Forall2 (scope_le C) (scopes s0) (tl (scopes s))) by exact (m_tail _ _ _ _ _ M).
  assert (LL : loops_le (pos s0) (match k with KLoop => [[]] | KBlock => [] end ++ loops (scopes s0)) (loops (scopes s))) by (rewrite <- (pushed_loops k e); exact (m_loops _ _ _ _ _ M)).
  split; [|split; [|split; [|exact KH]]].
  - pose proof W as W'. rewrite (stack_eta s W) in W'. pose proof (wf_top _ _ _ W') as [B1 B2 B3 B4]. pose proof W' as [A1 A2 A3 A4 A5 A6 A7 A8 A9].
    unfold cvars in B1, B3. fold (scopes s) in B1, B2, B3. unfold scopes, pos, data, top in A2, A4, A5, A6. cbn [cs_stack hd] in A2, A4, A5, A6.
    change (ss_scopes (cx_scopes (hd (context_new KScript) (cs_stack s)))) with (scopes s) in *.
    rewrite ES in B1, B2, B3, A4, A5, A6. cbn [all_vars flat_map] in B1, B3. change (flat_map sc_vars (tl (scopes s))) with (all_vars (tl (scopes s))) in *.
    unfold popped, with_scopes. apply scopes_wf; [exact W'|..]; cbn [ss_scopes ss_slot_count].
    + eapply F2_tl; [exact TL|]. apply W0.
    + intros l x H1 H2. apply (A4 l x); [|exact H2]. unfold loops in *. cbn [filter]. destruct (is_loop (head s)); [right; exact H1|exact H1].
    + intros sc x H Hx. apply (A5 sc x); [right; exact H|exact Hx].
    + intros sc H. apply A6. right. exact H.
    + eapply numbered_tail. exact B1.
    + inversion B2; subst. auto.
    + rewrite app_length in B3. unfold slot_count. lia.
    + unfold scopes, top in A9. cbn [cs_stack hd] in A9. fold (scopes s) in A9. change (ss_scopes (cx_scopes (hd (context_new KScript) (cs_stack s)))) with (scopes s) in A9. rewrite ES in A9. destruct A9 as (X1 & X2 & X3).
      assert (LT : forall l, In l (loops (tl (scopes s))) -> In l (loops (head s :: tl (scopes s)))) by (intros l H; unfold loops in *; cbn [filter]; destruct (is_loop (head s)); [right; exact H|exact H]).
      split; [intros l H; apply X1; apply LT; exact H|]. split; [intros sc H; apply X2; right; exact H|]. intros l H sc Hsc. apply X3; [apply LT; exact H|right; exact Hsc].
  - assert (LP : loops (scopes (popped s)) = tl (match k with KLoop => [] | KBlock => [[]] end ++ loops (scopes s))).
    { change (scopes (popped s)) with (tl (scopes s)). rewrite ES at 2. unfold loops at 2. cbn [filter]. unfold is_loop at 1. rewrite KH. destruct k; reflexivity. }
    destruct M as [M1 M2 M3 M4 M5 MH M7 M8 M9 M10]. split; auto.
    + change (head_le [] C (pos s0) (head s0) (hd (Scope 0 KBlock None [] [] (CallContext 0 []) 0) (tl (scopes s)))). apply heads_le. exact TL.
    + change (scopes (popped s)) with (tl (scopes s)). apply tails_le. exact TL.
    + rewrite LP. destruct k; cbn [app tl].
      * exact LL.
      * cbn [app] in LL. destruct (loops (scopes s)) as [|x r]; [destruct LL|]. cbn [loops_le] in LL. destruct LL as (_ & ->). cbn [tl]. apply loops_le_refl.
  - intros ->. cbn [app] in LL. rewrite ES in LL. unfold loops in LL at 2. cbn [filter] in LL. unfold is_loop in LL at 1. rewrite KH in LL. cbn [scope_kind_eqb map loops_le app] in LL. destruct LL as ((new & -> & F) & _). exact F.
Qed.
(** Actions that start inside a scope and leave it. *)
Definition TP {A} (b : nat) (D C N : list string) (k : scope_kind) (e : option nat) (n : nat) (m : M A) : Prop :=
  forall s0 s a s', wf s0 -> b <= pos s0 -> incl (kind_names (kind s0)) N -> wf s -> mono D C N (pushed k e s0) s -> m s = Ok (a, s') ->
    wf s' /\ mono [] C N s0 s' /\ below b s s' /\ cs_next_id s' = cs_next_id s + n.
Lemma T_push {A} b C N k e n (m : M A) : TP b [] C N k e n m -> T b [] C N n (bind (m_push_scope k e) (fun _ => m)) (fun _ => True).
Proof.
  intros H s a s' W L K E. apply bind_ok in E. destruct E as (u & s1 & E1 & E2). apply push_scope_ok in E1. subst s1.
  destruct (H s _ _ _ W L K (pushed_wf k e s W) (mono_refl _ _ _) E2) as (W2 & M2 & L2 & N2). split; [auto|]. split; [auto|]. split; [exact L2|]. split; [exact N2|exact Logic.I].
Qed.
Lemma TP_bind {A B} b D1 D2 C N k e n1 n2 n (m : M A) (f : A -> M B) Q : T b D2 C N n1 m Q -> (forall a, Q a -> TP b (D2 ++ D1) C N k e n2 (f a)) -> n = n1 + n2 ->
  TP b D1 C N k e n (bind m f).
Proof.
  intros H1 H2 -> s0 s x s' W0 L0 K0 W M E. apply bind_ok in E. destruct E as (a & s1 & E1 & E2).
  assert (L : b <= pos s) by (pose proof (m_pos _ _ _ _ _ M) as P; change (pos (pushed k e s0)) with (pos s0) in P; lia).
  assert (K : incl (kind_names (kind s)) N) by (rewrite (m_kind _ _ _ _ _ M); exact K0).
  destruct (H1 _ _ _ W L K E1) as (W1 & M1 & L1 & N1 & Q1).
  destruct (H2 a Q1 s0 s1 x s' W0 L0 K0 W1) as (W2 & M2 & L2 & N2); [eapply mono_trans; eauto|exact E2|].
  split; [auto|]. split; [auto|]. split; [intros i Hi; rewrite L2, L1; auto|lia].
Qed.
Lemma TP_pop {B} b D C N k e n (f : scope -> M B) Q : (forall sc, (k = KLoop -> Forall (fun x => b <= x) (sc_exits sc)) -> T b [] C N n (f sc) Q) ->
  TP b D C N k e n (bind m_pop_scope f).
Proof.
  intros H s0 s x s' W0 L0 K0 W M E. apply bind_ok in E. destruct E as (sc & s1 & E1 & E2). apply pop_scope_ok in E1. destruct E1 as (-> & ->).
  destruct (popped_spec _ _ _ _ _ _ _ W0 W M) as (W1 & M1 & F1 & _).
  assert (FB : k = KLoop -> Forall (fun x => b <= x) (sc_exits (head s))) by (intros HK; eapply Forall_impl; [|exact (F1 HK)]; cbn; intros; lia).
  assert (L : b <= pos (popped s)) by (pose proof (m_pos _ _ _ _ _ M1); lia).
  assert (K : incl (kind_names (kind (popped s))) N) by (rewrite (m_kind _ _ _ _ _ M1); exact K0).
  destruct (H (head s) FB _ _ _ W1 L K E2) as (W2 & M2 & L2 & N2 & _).
  split; [auto|]. split; [eapply mono_trans0; eauto|]. split; [exact L2|exact N2].
Qed.

(** ** Jumps out of loops and chains *)
Lemma jump_ok o s j s' : wf s -> jump o s = Ok (j, s') -> j = S (pos s) /\ pos s' = pos s + 3 /\ wf s' /\
  s' = CState (set_asm (MkAsm (consts s) (data s ++ [opcode_to_byte o; 0; 0])) (top s) :: outer s) (cs_next_id s).
Proof.
  intros W E. assert (W' : wf s') by (eapply (T_jump 0 [] (kind_names (kind s)) o s j s' W); [lia|apply incl_refl|exact E]).
  apply on_asm_ok in E. destruct E as (c & r & n & asm' & -> & E & ->). injection E as E1 E2. rewrite <- E1, <- E2. unfold pos, data, top, consts. cbn [cs_stack hd set_asm cx_asm put_u8 put_i16 asm_data].
  rewrite !app_length. cbn [List.length]. split; [lia|]. split; [rewrite <- Nat.add_assoc; reflexivity|]. split; [rewrite <- E2 in W'; exact W'|].
  cbn [outer cs_stack tl cs_next_id]. do 3 f_equal. unfold put_i16, put_u8. cbn [asm_consts asm_data]. f_equal. rewrite <- app_assoc. reflexivity.
Qed.
Lemma jumped_below b o s j s' : wf s -> jump o s = Ok (j, s') -> b <= pos s -> below b s s'.
Proof. intros W E L. destruct (T_jump b [] (kind_names (kind s)) o s j s' W L (incl_refl _) E) as (_ & _ & X & _). exact X. Qed.
Definition same_scope (sc sc' : scope) : Prop := shape sc sc' /\ sc_call sc' = sc_call sc /\ sc_vars sc' = sc_vars sc /\ sc_slots sc' = sc_slots sc.
Lemma same_scope_refl sc : same_scope sc sc. Proof. split; [apply shape_refl|auto]. Qed.
Lemma add_exit_spec p l : forall l', add_loop_exit p l = Some l' -> Forall2 same_scope l l' /\ loops l' = (hd [] (loops l) ++ [p]) :: tl (loops l) /\ loops l <> [].
Proof.
  induction l as [|sc l IH]; intros l'; [discriminate|]. cbn [add_loop_exit]. destruct (scope_kind_eqb (sc_kind sc) KLoop) eqn:E.
  - intros [= <-]. split; [constructor; [split; [repeat split|auto]|]; clear; induction l; constructor; auto using same_scope_refl|].
    unfold loops, is_loop. cbn [filter add_exit sc_kind]. rewrite E. cbn. split; [auto|discriminate].
  - destruct (add_loop_exit p l) as [l2|]; [|discriminate]. intros [= <-]. destruct (IH l2 eq_refl) as (F & E2 & NE). split; [constructor; auto using same_scope_refl|].
    unfold loops, is_loop in *. cbn [filter]. rewrite E. auto.
Qed.
Lemma same_scopes_le C l l' : Forall2 same_scope l l' -> Forall2 (scope_le C) l l'.
Proof. induction 1 as [|x y a b (H1 & H2 & H3 & _) _ IH]; constructor; auto. split; [auto|]. split; [auto|]. rewrite H3. apply vars_le_refl. Qed.
Lemma same_scopes_vars l l' : Forall2 same_scope l l' -> all_vars l' = all_vars l.
Proof. unfold all_vars. induction 1 as [|x y a b (H1 & H2 & H3 & _) _ IH]; cbn; congruence. Qed.
Lemma same_scopes_slots l l' : Forall2 same_scope l l' -> Forall (fun sc => sc_slots sc = List.length (sc_vars sc)) l -> Forall (fun sc => sc_slots sc = List.length (sc_vars sc)) l'.
Proof. induction 1 as [|x y a b (H1 & H2 & H3 & H4) _ IH]; intros F; inversion F; subst; constructor; auto. congruence. Qed.
Lemma break_ok s u s' : wf s -> visit_break s = Ok (u, s') -> exists s1 l, jump OpJump s = Ok (S (pos s), s1) /\
  add_loop_exit (S (pos s)) (scopes s) = Some l /\ s' = with_scopes (ScopeStack l (slot_count s)) s1 /\ wf s'.
Proof.
  intros W E. unfold visit_break in E. apply bind_ok in E. destruct E as (c0 & s0 & E0 & E).
  assert (s0 = s) as -> by (unfold get_context in E0; destruct (cs_stack s); [discriminate|injection E0 as _ <-; reflexivity]).
  destruct (in_context_of KLoop (cx_scopes c0)); [|discriminate]. apply bind_ok in E. destruct E as (j & s1 & E1 & E2). destruct (jump_ok _ _ _ _ W E1) as (-> & P1 & W1 & Es1).
  exists s1. apply on_scopes_ok in E2. destruct E2 as (c & r & n & ss' & Es & E2 & ->). apply omap_ok in E2. destruct E2 as (ss & E2 & [= _ <-]). unfold add_loop_exit_point in E2.
  rewrite Es in W1. assert (SS : ss_scopes (cx_scopes c) = scopes s /\ ss_slot_count (cx_scopes c) = slot_count s).
  { rewrite Es1 in Es. injection Es as <- _ _. auto. } destruct SS as (SS1 & SS2). rewrite SS1, SS2 in E2.
  destruct (add_loop_exit (S (pos s)) (scopes s)) as [l|] eqn:EL; [|discriminate]. injection E2 as <-. exists l. split; [exact E1|]. split; [auto|]. split; [rewrite Es; reflexivity|].
  destruct (add_exit_spec _ _ _ EL) as (F & EL2 & NE). pose proof (wf_top _ _ _ W1) as [B1 B2 B3 B4]. pose proof W1 as [A1 A2 A3 A4 A5 A6 A7 A8 A9].
  unfold cvars in B1, B3. rewrite SS1 in *. unfold scopes, pos, data, top in A2, A4, A5, A6. cbn [cs_stack hd] in A2, A4, A5, A6. rewrite SS1 in *.
  assert (P : List.length (asm_data (cx_asm c)) = pos s + 3) by (rewrite Es in P1; exact P1).
  apply scopes_wf; [exact W1|..]; cbn [ss_scopes ss_slot_count].
  - eapply F2_tl; eauto.
  - rewrite EL2. intros l1 x [<-|H1] H2.
    + rewrite in_app_iff in H2. destruct H2 as [H2|[<-|[]]].
      * destruct (loops (scopes s)) as [|l0 r0] eqn:E3; [contradiction|]. apply (A4 l0 x); [left; auto|exact H2].
      * unfold byte in *. lia.
    + apply (A4 l1 x); [|exact H2]. destruct (loops (scopes s)); [destruct H1|right; exact H1].
  - intros sc x H Hx. revert sc H x Hx. apply (scope_le_calls [] _ _ (fun cc => forall x, In x (cc_exits cc) -> x + 2 <= List.length (asm_data (cx_asm c))) (same_scopes_le _ _ _ F)). intros; eauto.
  - apply (scope_le_calls [] _ _ (fun cc => cc_depth cc = 0 -> cc_exits cc = []) (same_scopes_le _ _ _ F)). auto.
  - rewrite (same_scopes_vars _ _ F). exact B1.
  - eapply same_scopes_slots; eauto.
  - rewrite (same_scopes_vars _ _ F). rewrite <- SS2. exact B3.
  - pose proof (wf_apart s W) as (X1 & X2 & X3). split; [|split; [apply (scope_le_calls [] _ _ (fun cc => apart (cc_exits cc)) (same_scopes_le _ _ _ F)); exact X2|]].
    2:{ rewrite EL2. intros e He. apply (scope_le_calls [] _ _ (fun cc => cross e (cc_exits cc)) (same_scopes_le _ _ _ F)). intros sc Hsc. destruct He as [<-|He].
        - intros x y Hx Hy. rewrite in_app_iff in Hx. pose proof (wf_calls s W sc y Hsc Hy). destruct Hx as [Hx|[<-|[]]]; [|lia]. destruct (loops (scopes s)) as [|l0 r0] eqn:E3; [contradiction|]. apply (X3 l0 (or_introl eq_refl) sc Hsc x y); auto.
        - apply X3; [|exact Hsc]. destruct (loops (scopes s)); [destruct He|right; exact He]. }
    rewrite EL2. intros e [<-|H].
    + apply apart_snoc; [|intros y Hy]; (destruct (loops (scopes s)) as [|l0 r0] eqn:E3; [contradiction|]); [apply X1; left; auto|]. pose proof (wf_loops s W l0 y). rewrite E3 in H. specialize (H (or_introl eq_refl) Hy). lia.
    + apply X1. destruct (loops (scopes s)); [destruct H|right; exact H].
Qed.
Lemma T_break b C N : T b [] C N 0 visit_break (fun _ => True).
Proof.
  intros s a s' W L K E. destruct (break_ok _ _ _ W E) as (s1 & l & E1 & EL & -> & W2). destruct (jump_ok _ _ _ _ W E1) as (_ & P1 & W1 & Es1). destruct (add_exit_spec _ _ _ EL) as (F & EL2 & NE).
  split; [exact W2|]. split; [|split; [|split; [subst s1; cbn; lia|exact Logic.I]]].
  - apply (same_scopes_le C) in F. rewrite Es1. split; try reflexivity; try apply prefix_refl; try apply outers_le_refl.
    + apply heads_le. exact F.
    + apply tails_le. exact F.
    + unfold scopes at 2. cbn [with_scopes top cs_stack hd set_scopes cx_scopes ss_scopes]. rewrite EL2. destruct (loops (scopes s)); [contradiction|]. cbn. split; [|auto]. eexists. split; [reflexivity|]. repeat constructor.
    + change (pos s <= List.length (data s ++ [opcode_to_byte OpJump; 0; 0])). rewrite app_length. unfold pos. lia.
  - exact (jumped_below b _ _ _ _ W E1 L).
Qed.
Definition null_exit : M unit :=
  j <- jump OpJumpIfFalse ;;
  m_update_top (fun sc => set_call (CallContext (cc_depth (sc_call sc)) (cc_exits (sc_call sc) ++ [j])) sc).
Lemma null_exit_ok s u s' : wf s -> null_exit s = Ok (u, s') -> exists s1, jump OpJumpIfFalse s = Ok (S (pos s), s1) /\
  s' = with_call (CallContext (cc_depth (call_of s)) (cc_exits (call_of s) ++ [S (pos s)])) s1.
Proof.
  intros W E. apply bind_ok in E. destruct E as (j & s1 & E1 & E2). destruct (jump_ok _ _ _ _ W E1) as (-> & P1 & W1 & Es1). exists s1. split; [exact E1|].
  apply (update_top_ok _ _ _ _ W1) in E2. subst s'. unfold with_call. f_equal. rewrite Es1. reflexivity.
Qed.
(** Only inside a chain: a call context of depth 0 has no exits. *)
Lemma null_exit_spec b C N s u s' : wf s -> b <= pos s -> 0 < cc_depth (call_of s) -> null_exit s = Ok (u, s') ->
  wf s' /\ mono [] C N s s' /\ below b s s' /\ cs_next_id s' = cs_next_id s.
Proof.
  intros W L CD E. destruct (null_exit_ok _ _ _ W E) as (s1 & E1 & ->). destruct (jump_ok _ _ _ _ W E1) as (_ & P1 & W1 & Es1).
  split; [|split; [|split]].
  - apply call_wf; [exact W1| |cbn; lia|apply apart_snoc; [apply call_apart; exact W|intros y Hy; pose proof (call_bounds s y W Hy); lia]|intros e He x y Hx Hy; rewrite Es1 in He; change (In e (loops (scopes s))) in He; pose proof (wf_loops s W e x He Hx); cbn [cc_exits] in Hy; rewrite in_app_iff in Hy; destruct Hy as [Hy|[<-|[]]]; [exact (call_cross s e W He x y Hx Hy)|lia]]. cbn [cc_exits]. intros x Hx. rewrite in_app_iff in Hx. destruct Hx as [Hx|[<-|[]]]; [|lia]. pose proof (call_bounds s x W Hx). lia.
  - rewrite Es1. split; try reflexivity; try apply prefix_refl; try apply outers_le_refl.
    + split; [repeat split|]. split; [|exists [], (sc_vars (head s)); auto using vars_le_refl]. split; [reflexivity|]. eexists. split; [reflexivity|]. repeat constructor.
    + apply scopes_le_refl.
    + rewrite loops_call by (rewrite <- Es1; exact W1). apply loops_le_refl.
    + change (pos s <= List.length (data s ++ [opcode_to_byte OpJumpIfFalse; 0; 0])). rewrite app_length. unfold pos. lia.
  - exact (jumped_below b _ _ _ _ W E1 L).
  - rewrite Es1. reflexivity.
Qed.

(** ** Functions *)
Definition entered (k : compiler_kind) (s : cstate) : cstate := CState (context_new k :: cs_stack s) (cs_next_id s).
Definition left_fn (s : cstate) : cstate := CState (outer s) (cs_next_id s).
Lemma entered_wf k s : wf s -> wf (entered k s).
Proof.
  intros [A1 A2 A3 A4 A5 A6 A7 A8 A9]. split.
  - discriminate.
  - discriminate.
  - exact Logic.I.
  - intros l x [].
  - intros sc x [<-|[]] [].
  - intros sc [<-|[]] _. reflexivity.
  - constructor; [|exact A7]. split; [exact Logic.I|constructor; auto|apply le_n|intros f []].
  - cbn [entered cs_stack chained]. split; [|exact A8]. destruct (cs_stack s); constructor.
  - split; [intros e []|]. split; [intros sc [<-|[]]; apply apart_nil|intros e []].
Qed.
Lemma outer_head N c c' r r' n n' : outer_le N c c' -> outer_le N c c' -> Forall2 (outer_le N) r r' -> mono [] N N (CState (c :: r) n) (CState (c' :: r') n').
Proof.
  intros _ [O1 O2 O3 O4 O5 O6 O7] F. split; unfold pos, data, kind, temps, consts, slot_count, top; cbn [cs_stack hd]; rewrite ?O2; auto using prefix_refl; try lia.
  - apply heads_le. exact O7.
  - apply tails_le. exact O7.
  - unfold scopes, top. cbn [cs_stack hd]. rewrite O6. apply loops_le_refl.
Qed.
Lemma left_spec C1 N k s s2 : wf s -> wf s2 -> mono [] C1 N (entered k s) s2 -> wf (left_fn s2) /\ mono [] N N s (left_fn s2) /\ data (left_fn s2) = data s.
Proof.
  intros W W2 M. pose proof (m_outer _ _ _ _ _ M) as F. change (outer (entered k s)) with (cs_stack s) in F. unfold left_fn.
  pose proof (stack_eta s W) as ES. pose proof (stack_eta s2 W2) as ES2. pose proof W2 as [A1 A2 A3 A4 A5 A6 A7 A8 A9]. rewrite ES2 in A7, A8. cbn [cs_stack cs_next_id] in A7, A8.
  rewrite ES in F. cbn [cs_stack] in F. inversion F as [|c c' r r' O1 O2 Q1 Q2]; subst. rewrite <- Q2 in A7, A8.
  inversion A7 as [|? ? B1 B2]; subst. destruct A8 as (_ & A8).
  pose proof (outer_head _ _ _ _ _ (cs_next_id s) (cs_next_id s2) O1 O1 O2) as M2. rewrite <- ES in M2.
  split; [|split; [exact M2|unfold data, top; cbn [cs_stack hd]; rewrite (ol_asm _ _ _ O1); reflexivity]].
  destruct W as [X1 X2 X3 X4 X5 X6 X7 X8 X9]. pose proof (m_pos _ _ _ _ _ M2) as MP. split.
  - discriminate.
  - unfold scopes, top. cbn [cs_stack hd]. eapply F2_tl; [exact (ol_scopes _ _ _ O1)|]. exact X2.
  - rewrite (m_kind _ _ _ _ _ M2). exact X3.
  - unfold scopes, top. cbn [cs_stack hd]. rewrite (ol_loops _ _ _ O1). intros l x H1 H2. pose proof (X4 l x H1 H2). lia.
  - intros sc x H Hx. revert sc H x Hx. apply (scope_le_calls N _ _ (fun cc => forall x, In x (cc_exits cc) -> x + 2 <= pos (CState (c' :: r') (cs_next_id s2))) (ol_scopes _ _ _ O1)). intros sc H x Hx. pose proof (X5 sc x H Hx). lia.
  - apply (scope_le_calls N _ _ (fun cc => cc_depth cc = 0 -> cc_exits cc = []) (ol_scopes _ _ _ O1)). exact X6.
  - exact B2.
  - exact A8.
  - eapply apart_le; [exact (ol_scopes _ _ _ O1)|exact (ol_loops _ _ _ O1)|exact X9].
Qed.
Lemma pop_context_ok s c s' : wf s -> pop_context s = Ok (c, s') -> c = top s /\ s' = left_fn s.
Proof. intros W. unfold pop_context. rewrite (stack_eta s W) at 1. cbn [cs_stack cs_next_id]. intros [= <- <-]. auto. Qed.
Lemma T_function b C1 N1 C N n k m : T 0 [] C1 N1 n m (fun _ : unit => True) -> incl N1 C -> incl N1 N -> incl (kind_names k) N1 ->
  T b [] C N n (bind (push_context k) (fun _ => bind m (fun _ => pop_context))) (fun _ => True).
Proof.
  intros H I1 I2 I3 s c s' W L K E. apply bind_ok in E. destruct E as (u & s1 & E1 & E). injection E1 as _ <-. apply bind_ok in E. destruct E as (u2 & s2 & E2 & E).
  fold (entered k s) in E2. pose proof (entered_wf k s W) as W1. destruct (H _ _ _ W1 (Nat.le_0_l _) I3 E2) as (W2 & M2 & L2 & N2 & _).
  apply (pop_context_ok _ _ _ W2) in E. destruct E as (-> & ->). destruct (left_spec _ _ _ _ _ W W2 M2) as (W3 & M3 & D3).
  split; [exact W3|]. split; [eapply mono_incl; [exact I1|exact I2|exact M3]|]. split; [intros i _; rewrite D3; reflexivity|]. split; [exact N2|exact Logic.I].
Qed.

Definition Tlt {A} (id b : nat) (D C N : list string) (n : nat) (m : M A) : Prop :=
  forall s a s', id < cs_next_id s -> wf s -> b <= pos s -> incl (kind_names (kind s)) N -> m s = Ok (a, s') ->
    wf s' /\ mono D C N s s' /\ below b s s' /\ cs_next_id s' = cs_next_id s + n.
Lemma T_Tlt {A} id b D C N n (m : M A) Q : T b D C N n m Q -> Tlt id b D C N n m.
Proof. intros H s a s' _ W L K E. destruct (H s a s' W L K E) as (?&?&?&?&_). auto. Qed.
Lemma Tlt_bind {A B} id b C N n1 n2 n (m : M A) (f : A -> M B) : Tlt id b [] C N n1 m -> (forall a, Tlt id b [] C N n2 (f a)) -> n = n1 + n2 -> Tlt id b [] C N n (bind m f).
Proof.
  intros H1 H2 -> s x s' I W L K E. apply bind_ok in E. destruct E as (a & s1 & E1 & E2). destruct (H1 _ _ _ I W L K E1) as (W1 & M1 & L1 & N1).
  destruct (H2 a s1 x s') as (W2 & M2 & L2 & N2); auto.
  { lia. } { pose proof (m_pos _ _ _ _ _ M1). lia. } { rewrite (m_kind _ _ _ _ _ M1). exact K. }
  split; [auto|]. split; [eapply mono_trans0; eauto|]. split; [intros i Hi; rewrite L2, L1; auto|lia].
Qed.
Lemma T_fresh_bind {B} b C N n (f : nat -> M B) : (forall id, Tlt id b [] C N n (f id)) -> T b [] C N (1 + n) (bind fresh_id f) (fun _ => True).
Proof.
  intros H s x s' W L K E. apply bind_ok in E. destruct E as (id & s1 & E1 & E2). destruct (T_fresh b C N s id s1 W L K E1) as (W1 & M1 & L1 & N1 & _).
  assert (id < cs_next_id s1) by (injection E1 as <- <-; cbn; lia).
  destruct (H id s1 x s') as (W2 & M2 & L2 & N2); auto.
  { pose proof (m_pos _ _ _ _ _ M1). lia. } { rewrite (m_kind _ _ _ _ _ M1). exact K. }
  split; [auto|]. split; [eapply mono_trans0; eauto|]. split; [intros i Hi; rewrite L2, L1; auto|]. split; [lia|exact Logic.I].
Qed.
Lemma T_asm_id {A} id b C N (f : assembler -> outcome (A * assembler)) :
  (forall asm a asm', f asm = Ok (a, asm') -> exists e, asm_data asm' = asm_data asm ++ e /\ prefix (asm_consts asm) (asm_consts asm') /\
     (forall g, In (CFunction g) (asm_consts asm') -> In (CFunction g) (asm_consts asm) \/ fn_id g = id)) ->
  Tlt id b [] C N 0 (on_asm f).
Proof.
  intros H s a s' I W L _ E. apply on_asm_ok in E. destruct E as (c & r & n & asm' & -> & E & ->). destruct (H _ _ _ E) as (e & E1 & E2 & E3).
  assert (LE : List.length (asm_data (cx_asm c)) <= List.length (asm_data asm')) by (rewrite E1, app_length; lia).
  split; [apply asm_wf; auto; intros g Hg; destruct (E3 g Hg) as [X|X]; [auto|right; cbn in I; lia]|]. split; [apply asm_mono; auto|]. split; [|cbn; lia].
  intros i Hi. unfold data, top. cbn [cs_stack hd set_asm cx_asm]. rewrite E1. apply append_keeps with (b := b); auto.
Qed.
Lemma Tlt_compiled name id c b C N : Tlt id b [] C N 0 (emit_compiled name id c).
Proof.
  unfold emit_compiled. destruct (cx_upvalues c) as [|d ds].
  - apply T_asm_id. intros asm u asm' E. apply omap_ok in E. destruct E as (a1 & E & [= <- <-]). unfold emit_const in E. apply obind_ok in E.
    destruct E as ([i a2] & E & [= <-]). destruct (make_constant_prefix _ _ _ _ E) as (P & D). exists (encode_instr (IByte OpPushConst i)). rewrite emit1_data, D.
    split; [auto|]. split; [exact P|]. intros g Hg. destruct (make_constant_only _ _ _ _ g E Hg) as [|H]; auto. right. injection H as <-. reflexivity.
  - apply T_asm_id. intros asm u asm' E. apply omap_ok in E. destruct E as (a1 & E & [= <- <-]). unfold emit_closure in E. apply obind_ok in E.
    destruct E as ([i a2] & E & E2). destruct (255 <? _); [discriminate|]. injection E2 as <-. destruct (make_constant_prefix _ _ _ _ E) as (P & D). cbn [put_u8 asm_data asm_consts] in *. rewrite D, <- !app_assoc.
    eexists. split; [reflexivity|]. split; [exact P|]. intros g Hg. destruct (make_constant_only _ _ _ _ g E Hg) as [|H]; auto. right. injection H as <-. reflexivity.
Qed.
