(** An accepted program declares no function twice in one block. *)
From Coq Require Import Lia.
From Verif.Model Require Import Compiler.
From Verif.Spec Require Import StaticSpec StaticTop.
From Verif.Proofs Require Import CodecP ScopeP CaptureP ExprInd WellFormedP StaticP StaticVisitP.

(** * Names and states of the variables of every scope of every function *)
Definition sv := (string * var_state)%type.
Definition st_var (v : scope_var) : sv := (sv_name v, sv_state v).
Definition st_ctx (c : context) : list (list sv) := map (fun sc => map st_var (sc_vars sc)) (ss_scopes (cx_scopes c)).
Definition states (s : cstate) : list (list (list sv)) := map st_ctx (cs_stack s).

(** A declaration of a function or class may become initialised. *)
Definition init_le (a b : sv) : Prop :=
  fst b = fst a /\ (snd b = snd a \/ (snd a = SFunction false /\ snd b = SFunction true) \/ (snd a = SClass false /\ snd b = SClass true)).
Definition is_local (a : sv) : Prop := match snd a with SLocal _ _ => True | _ => False end.
Definition grows (l l' : list (list sv)) : Prop :=
  match l, l' with
  | top :: scs, top' :: scs' =>
      (exists D top1, top' = D ++ top1 /\ Forall is_local D /\ Forall2 init_le top top1) /\ Forall2 (Forall2 init_le) scs scs'
  | [], [] => True
  | _, _ => False
  end.
(** The same, with anything added to the innermost scope. *)
Definition inner (l l' : list (list sv)) : Prop :=
  match l, l' with
  | top :: scs, top' :: scs' => Forall2 (Forall2 init_le) scs scs'
  | [], [] => True
  | _, _ => False
  end.
Definition moves (R : list (list sv) -> list (list sv) -> Prop) {A} (m : M A) : Prop :=
  forall s a s', m s = Ok (a, s') -> forall l o, states s = l :: o -> exists l', states s' = l' :: o /\ R l l'.
Definition still {A} (m : M A) : Prop := forall s a s', m s = Ok (a, s') -> states s' = states s.

Lemma init_refl a : init_le a a. Proof. split; auto. Qed.
Lemma init_trans a b c : init_le a b -> init_le b c -> init_le a c.
Proof.
  intros [E1 H1] [E2 H2]. split; [congruence|]. destruct a as [n sa], b as [m sb], c as [k sc]; cbn [snd] in *.
  destruct H1 as [->|[[-> ->]|[-> ->]]], H2 as [->|[[H ->]|[H ->]]]; auto; discriminate.
Qed.
Lemma F2_refl {A} (R : A -> A -> Prop) l : (forall a, R a a) -> Forall2 R l l.
Proof. intros H. induction l; auto. Qed.
Lemma F2_trans {A} (R : A -> A -> Prop) l1 : (forall a b c, R a b -> R b c -> R a c) ->
  forall l2 l3, Forall2 R l1 l2 -> Forall2 R l2 l3 -> Forall2 R l1 l3.
Proof. intros H. induction l1; intros l2 l3 H1 H2; inversion H1; subst; inversion H2; subst; constructor; eauto. Qed.
Lemma grows_refl l : grows l l.
Proof.
  destruct l as [|a l]; cbn; [exact I|]. split; [exists [], a|]; auto using F2_refl, init_refl.
Qed.
Lemma grows_trans a b c : grows a b -> grows b c -> grows a c.
Proof.
  destruct a as [|a la], b as [|b lb], c as [|c lc]; cbn; try tauto.
  intros [(D1 & t1 & -> & L1 & F1) G1] [(D2 & t2 & -> & L2 & F2) G2]. split.
  - apply Forall2_app_inv_l in F2 as (x & y & Fx & Fy & ->). exists (D2 ++ x), y. split; [now rewrite app_assoc|].
    split; [|eauto using F2_trans, init_trans]. apply Forall_app. split; [exact L2|].
    clear -L1 Fx. induction Fx as [|p q ? ? Hpq ? IH]; [constructor|]. inversion L1; subst. constructor; [|auto].
    destruct Hpq as [_ [E|[[E _]|[E _]]]]; unfold is_local in *; rewrite E in *; auto; contradiction.
  - eapply F2_trans; eauto. eauto using F2_trans, init_trans.
Qed.
Lemma inner_trans a b c : inner a b -> inner b c -> inner a c.
Proof.
  destruct a as [|a la], b as [|b lb], c as [|c lc]; cbn; try tauto. intros. eapply F2_trans; eauto. eauto using F2_trans, init_trans.
Qed.
Lemma grows_inner a b : grows a b -> inner a b.
Proof. destruct a, b; cbn; tauto. Qed.

Lemma mv_inner {A} (m : M A) : moves grows m -> moves inner m.
Proof. intros H s a s' E l o S. destruct (H _ _ _ E _ _ S) as (l' & ? & ?). eauto using grows_inner. Qed.
Lemma mv_still {A} (m : M A) : still m -> moves grows m.
Proof. intros H s a s' E l o S. exists l. split; [rewrite (H _ _ _ E); exact S|apply grows_refl]. Qed.
Lemma mv_bind {A B} (m : M A) (f : A -> M B) : moves grows m -> (forall a, moves grows (f a)) -> moves grows (bind m f).
Proof.
  intros Hm Hf s b s' H l o S. apply bind_ok in H as (a & s1 & H1 & H2). destruct (Hm _ _ _ H1 _ _ S) as (l1 & S1 & G1).
  destruct (Hf _ _ _ _ H2 _ _ S1) as (l2 & S2 & G2). eauto using grows_trans.
Qed.
Lemma mv_bind_inner {A B} (m : M A) (f : A -> M B) : moves inner m -> (forall a, moves inner (f a)) -> moves inner (bind m f).
Proof.
  intros Hm Hf s b s' H l o S. apply bind_ok in H as (a & s1 & H1 & H2). destruct (Hm _ _ _ H1 _ _ S) as (l1 & S1 & G1).
  destruct (Hf _ _ _ _ H2 _ _ S1) as (l2 & S2 & G2). eauto using inner_trans.
Qed.
Lemma mv_each {A} (f : A -> M unit) l : (forall x, In x l -> moves grows (f x)) -> moves grows (each f l).
Proof.
  induction l as [|x l IH]; cbn [each]; intros H; [apply mv_still; intros s a s' E; now injection E as _ <-|].
  apply mv_bind; [apply H; now left|]. intros. apply IH. intros. apply H. now right.
Qed.
Lemma mv_each_inner {A} (f : A -> M unit) l : (forall x, In x l -> moves inner (f x)) -> moves inner (each f l).
Proof.
  induction l as [|x l IH]; cbn [each]; intros H; [apply mv_inner, mv_still; intros s a s' E; now injection E as _ <-|].
  apply mv_bind_inner; [apply H; now left|]. intros. apply IH. intros. apply H. now right.
Qed.

(** * Primitives *)
Create HintDb still discriminated.
Lemma st_bind {A B} (m : M A) (f : A -> M B) : still m -> (forall a, still (f a)) -> still (bind m f).
Proof. intros Hm Hf s b s' H. apply bind_ok in H as (a & s1 & H1 & H2). rewrite (Hf _ _ _ _ H2). eauto. Qed.
Lemma st_ret {A} (a : A) : still (ret a). Proof. intros s b s' H. now injection H as _ <-. Qed.
Lemma st_fail {A} e : still (@fail A e). Proof. intros s b s' H. discriminate. Qed.
Lemma st_panic {A} : still (@panic A). Proof. intros s b s' H. discriminate. Qed.
Lemma st_each {A} (f : A -> M unit) l : (forall x, still (f x)) -> still (each f l).
Proof. intros Hf. induction l; cbn [each]; [apply st_ret|]. apply st_bind; auto. Qed.
Lemma st_times n m : still m -> still (times n m).
Proof. intros Hf. induction n; cbn [times]; [apply st_ret|]. apply st_bind; auto. Qed.
Lemma st_on_asm {A} (f : assembler -> outcome (A * assembler)) : still (on_asm f).
Proof.
  intros s a s'. unfold on_asm, bind, get_context, lift, set_context, ret, states.
  destruct (cs_stack s) as [|c o] eqn:E; [discriminate|].
  destruct (f (cx_asm c)) as [[x r]| | |]; try discriminate. rewrite E. intros H. injection H as <- <-. reflexivity.
Qed.
Lemma st_on_scopes {A} (f : scope_stack -> outcome (A * scope_stack)) :
  (forall ss a ss', f ss = Ok (a, ss') ->
     map (fun sc => map st_var (sc_vars sc)) (ss_scopes ss') = map (fun sc => map st_var (sc_vars sc)) (ss_scopes ss)) ->
  still (on_scopes f).
Proof.
  intros Hf s a s' H. apply on_scopes_inv in H as (c & o & r & E & F & ->). unfold states. rewrite E.
  cbn [cs_stack map]. unfold st_ctx at 1. cbn [set_scopes cx_scopes]. now rewrite (Hf _ _ _ F).
Qed.
Lemma st_emit o : still (emit o). Proof. apply st_on_asm. Qed.
Lemma st_emit_u8 o b : still (emit_u8 o b). Proof. apply st_on_asm. Qed.
Lemma st_emit_c o k : still (emit_c o k). Proof. apply st_on_asm. Qed.
Lemma st_emit_lftl f b : still (emit_lftl f b). Proof. apply st_on_asm. Qed.
Lemma st_emit_clo k u : still (emit_clo k u). Proof. apply st_on_asm. Qed.
Lemma st_jump o : still (jump o). Proof. apply st_on_asm. Qed.
Lemma st_patch p : still (patch p). Proof. apply st_on_asm. Qed.
Lemma st_jump_back p : still (jump_back p). Proof. apply st_on_asm. Qed.
Lemma st_here : still here. Proof. apply st_on_asm. Qed.
Lemma st_push_bool b : still (push_bool b). Proof. apply st_emit. Qed.
Lemma st_local x : still (m_local x).
Proof. intros s l s' H. apply local_inv in H as [-> _]. reflexivity. Qed.
Lemma st_top_scope : still m_top_scope.
Proof.
  apply st_on_scopes. intros ss a ss'. destruct (top_scope ss); try discriminate. intros H. now injection H as _ <-.
Qed.
Lemma st_update_top f : (forall sc, sc_vars (f sc) = sc_vars sc) -> still (m_update_top f).
Proof.
  intros Hf. apply st_on_scopes. intros [scs n] a ss'. unfold update_top. cbn [ss_scopes].
  destruct scs as [|sc scs]; [discriminate|]. intros H. injection H as _ <-. cbn [ss_scopes map]. now rewrite Hf.
Qed.
Lemma st_set_call c : still (m_update_top (set_call c)).
Proof. now apply st_update_top. Qed.
Lemma st_loop_exit j : still (on_scopes (fun s => omap (fun s' => (tt, s')) (add_loop_exit_point j s))).
Proof.
  apply st_on_scopes. intros [scs n] a ss'. unfold add_loop_exit_point. cbn [ss_scopes ss_slot_count].
  destruct (add_loop_exit j scs) as [l|] eqn:E; [|discriminate]. intros H. injection H as _ <-. cbn [ss_scopes].
  revert l E. induction scs as [|sc scs IH]; cbn [add_loop_exit]; [discriminate|]. intros l.
  destruct (scope_kind_eqb (sc_kind sc) KLoop); [intros E; injection E as <-; reflexivity|].
  destruct (add_loop_exit j scs) as [r|]; [|discriminate]. intros E. injection E as <-. cbn [map]. now rewrite (IH r).
Qed.
Lemma st_entry k : still (on_scopes (fun s => omap (fun p => (p, s)) (entry_point k s))).
Proof.
  apply st_on_scopes. intros ss a ss'. destruct (entry_point k ss); try discriminate. intros H. now injection H as _ <-.
Qed.
Lemma st_get_context : still get_context.
Proof. intros s a s'. unfold get_context. destruct (cs_stack s); [discriminate|]. intros H. now injection H as _ <-. Qed.
Lemma st_get_kind : still get_kind.
Proof. apply st_bind; [apply st_get_context|intros; apply st_ret]. Qed.
Lemma st_get_temps : still get_temps.
Proof. apply st_bind; [apply st_get_context|intros; apply st_ret]. Qed.
Lemma st_put_temps n : still (put_temps n).
Proof.
  intros s a s'. unfold put_temps, bind, get_context, set_context, states. destruct (cs_stack s) as [|c o] eqn:E; [discriminate|].
  rewrite E. intros H. now injection H as _ <-.
Qed.
Lemma st_fresh : still fresh_id.
Proof. intros s a s' H. now injection H as _ <-. Qed.
Lemma st_update_scopes x f l : (forall v, st_var (f v) = st_var v) ->
  map (fun sc => map st_var (sc_vars sc)) (update_scopes x f l) = map (fun sc => map st_var (sc_vars sc)) l.
Proof.
  intros Hf. induction l as [|sc l IH]; cbn [update_scopes map]; [reflexivity|].
  destruct (find_var x (sc_vars sc)); cbn [map set_vars sc_vars]; [|now rewrite IH]. f_equal.
  induction (sc_vars sc) as [|v vs IH']; cbn [update_var map]; [reflexivity|].
  destruct (String.eqb (sv_name v) x); cbn [map]; congruence.
Qed.
Lemma resolve_states x st : forall i st', resolve_upvalue x st = Some (i, st') -> map st_ctx st' = map st_ctx st.
Proof.
  induction st as [|cur outer IH]; cbn [resolve_upvalue]; [discriminate|].
  destruct outer as [|parent rest]; [discriminate|]. intros i st'.
  destruct (local x (cx_scopes parent)) as [v|] eqn:E.
  - destruct (add_upvalue _ cur) as [j cur'] eqn:A. intros H. injection H as <- <-.
    apply add_upvalue_spec in A as (_ & _ & K & _ & S & _). cbn [map]. unfold st_ctx at 1 2. cbn [set_scopes cx_scopes].
    rewrite S. cbn [update_local ss_scopes]. rewrite st_update_scopes by reflexivity. reflexivity.
  - destruct (resolve_upvalue x (parent :: rest)) as [[j outer']|] eqn:R; [|discriminate].
    destruct (add_upvalue _ cur) as [k cur'] eqn:A. intros H. injection H as <- <-.
    apply add_upvalue_spec in A as (_ & _ & K & _ & S & _). specialize (IH _ _ eq_refl).
    cbn [map] in *. rewrite IH. unfold st_ctx at 1 3. now rewrite S.
Qed.
Lemma st_resolve x : still (m_resolve_upvalue x).
Proof.
  intros s a s'. unfold m_resolve_upvalue. destruct (resolve_upvalue x (cs_stack s)) as [[i st]|] eqn:E; intros H; injection H as <- <-.
  - unfold states. cbn [cs_stack]. eapply resolve_states; eauto.
  - reflexivity.
Qed.
#[export] Hint Resolve st_ret st_fail st_panic st_emit st_emit_u8 st_emit_c st_emit_lftl st_emit_clo st_jump st_patch st_jump_back st_here
  st_push_bool st_local st_top_scope st_set_call st_loop_exit st_entry st_get_context st_get_kind st_get_temps st_put_temps st_fresh
  st_resolve : still.
#[export] Hint Extern 1 (still (m_update_top _)) => apply st_update_top; reflexivity : still.
Ltac stt := cbv beta iota; first
  [ solve [auto with still]
  | match goal with
    | |- still (match ?x with _ => _ end) => destruct x; stt
    | |- still (bind _ _) => apply st_bind; [stt | intros; stt]
    | |- still (each _ _) => apply st_each; intros; stt
    | |- still (times _ _) => apply st_times; stt
    end ].
Lemma st_ident x : still (visit_ident x). Proof. unfold visit_ident. stt. Qed.
#[export] Hint Resolve st_ident : still.
Lemma st_int z : still (visit_int z). Proof. unfold visit_int. stt. Qed.
Lemma st_float z : still (visit_float z). Proof. unfold visit_float. stt. Qed.
Lemma st_local_type t n : still (visit_local_type t n). Proof. unfold visit_local_type. stt. Qed.
Lemma st_close_vars vs : still (close_vars vs). Proof. unfold close_vars. stt. Qed.
#[export] Hint Resolve st_close_vars : still.
Lemma st_close : still visit_close_upvalues. Proof. unfold visit_close_upvalues. stt. Qed.
Lemma st_return : still visit_return. Proof. unfold visit_return. stt. Qed.
Lemma st_enter : still enter_call. Proof. now apply st_update_top. Qed.
Lemma st_exit : still exit_call. Proof. unfold exit_call. stt. Qed.
Lemma st_drop n : still (drop_temps n). Proof. unfold drop_temps. stt. Qed.
Lemma st_compiled x i c : still (emit_compiled x i c). Proof. unfold emit_compiled. cbv zeta. stt. Qed.
Lemma st_fields l : still (emit_fields_to_locals l). Proof. unfold emit_fields_to_locals. stt. Qed.
Lemma st_operator o : still (visit_operator o). Proof. unfold visit_operator. stt. Qed.
Lemma st_unique a : still (assert_unique_params a). Proof. unfold assert_unique_params. stt. Qed.
Lemma st_super_call es t : still (assert_super_call es t). Proof. unfold assert_super_call. stt. Qed.
#[export] Hint Resolve st_int st_float st_local_type st_close st_return st_enter st_exit st_drop st_compiled st_fields st_operator
  st_unique st_super_call : still.

Lemma top_states s l o : states s = l :: o -> exists c o', cs_stack s = c :: o' /\ st_ctx c = l /\ map st_ctx o' = o.
Proof. unfold states. destruct (cs_stack s) as [|c o']; [discriminate|]. intros E. injection E as <- <-. eauto. Qed.

Lemma add_states x st s a s' l o : m_add_local x st s = Ok (a, s') -> states s = l :: o ->
  exists top scs, l = top :: scs /\ states s' = (((x, st) :: top) :: scs) :: o.
Proof.
  intros H S. apply on_scopes_inv in H as (c & o' & r & E & F & ->). unfold states in *. rewrite E in S. injection S as <- <-.
  unfold add_local in F. unfold st_ctx at 1. destruct (ss_scopes (cx_scopes c)) as [|sc scs]; [discriminate|]. injection F as <- <-.
  cbn [map]. eauto.
Qed.
Lemma mv_add x m i : moves grows (m_add_local x (SLocal m i)).
Proof.
  intros s a s' H l o S. destruct (add_states _ _ _ _ _ _ _ H S) as (top & scs & -> & S'). eexists. split; [exact S'|].
  split; [exists [(x, SLocal m i)], top|]; repeat split; auto using F2_refl, init_refl. constructor; [exact I|constructor].
Qed.
Lemma mv_add_inner x st : moves inner (m_add_local x st).
Proof.
  intros s a s' H l o S. destruct (add_states _ _ _ _ _ _ _ H S) as (top & scs & -> & S'). eexists. split; [exact S'|].
  cbn. auto using F2_refl, init_refl.
Qed.
Lemma push_states k e s a s' l o : m_push_scope k e s = Ok (a, s') -> states s = l :: o -> states s' = ([] :: l) :: o.
Proof.
  intros H S. apply on_scopes_inv in H as (c & o' & r & E & F & ->). injection F as _ <-.
  unfold states in *. rewrite E in S. injection S as <- <-. reflexivity.
Qed.
Lemma pop_states s a s' top l o : m_pop_scope s = Ok (a, s') -> states s = (top :: l) :: o -> states s' = l :: o.
Proof.
  intros H S. apply on_scopes_inv in H as (c & o' & r & E & F & ->). unfold states in *. rewrite E in S. injection S as S <-.
  unfold pop_scope, st_ctx in *. destruct (ss_scopes (cx_scopes c)) as [|sc scs]; [discriminate|]. injection F as <- <-. injection S as _ <-. reflexivity.
Qed.
Lemma grows_of_F2 l l' : Forall2 (Forall2 init_le) l l' -> grows l l'.
Proof. destruct 1 as [|top top' scs scs' H HS]; [exact I|]. split; [exists [], top'|]; auto. Qed.

(** Initialising the variable a name refers to. *)
Fixpoint find_sv (x : string) (l : list sv) : option var_state :=
  match l with [] => None | (y, st) :: r => if String.eqb y x then Some st else find_sv x r end.
Lemma find_sv_app x a b : find_sv x (a ++ b) = match find_sv x a with Some st => Some st | None => find_sv x b end.
Proof. induction a as [|[y st] a IH]; cbn [app find_sv]; [reflexivity|]. now destruct (String.eqb y x). Qed.
Lemma find_var_sv x vs : find_sv x (map st_var vs) = option_map sv_state (find_var x vs).
Proof.
  unfold find_var. induction vs as [|v vs IH]; cbn [map find_sv find]; [reflexivity|]. unfold st_var at 1. now destruct (String.eqb (sv_name v) x).
Qed.
Definition may_init (a b : var_state) : Prop :=
  (a = SFunction false /\ b = SFunction true) \/ (a = SClass false /\ b = SClass true).
Lemma update_var_le x st vs v : find_var x vs = Some v -> may_init (sv_state v) st ->
  Forall2 init_le (map st_var vs) (map st_var (update_var x (set_state st) vs)) /\
  find_sv x (map st_var (update_var x (set_state st) vs)) = Some st.
Proof.
  unfold find_var. intros H HM. revert H. induction vs as [|w vs IH]; cbn [find update_var map]; [discriminate|].
  destruct (String.eqb (sv_name w) x) eqn:E.
  - intros H. injection H as ->. split.
    + constructor; [|apply F2_refl, init_refl]. split; [reflexivity|]. unfold st_var, set_state. cbn. destruct HM as [[-> ->]|[-> ->]]; auto.
    + cbn [map find_sv]. unfold st_var at 1, set_state at 1. cbn [sv_name sv_state]. now rewrite E.
  - intros H. destruct (IH H) as [A B]. split; [constructor; [apply init_refl|exact A]|].
    cbn [map find_sv]. unfold st_var at 1. now rewrite E.
Qed.
Definition top_state (x : string) (l : list (list sv)) : option var_state :=
  match l with top :: _ => find_sv x top | [] => None end.
Lemma set_state_moves x st s a s' v l o : m_set_state x st s = Ok (a, s') -> m_local x s = Ok (Some v, s) ->
  may_init (sv_state v) st -> states s = l :: o ->
  exists l', states s' = l' :: o /\ Forall2 (Forall2 init_le) l l' /\
    (top_state x l <> None -> top_state x l = Some (sv_state v) /\ top_state x l' = Some st).
Proof.
  intros H HL HM S. apply local_inv in HL as (_ & c & o' & E & L). apply on_scopes_inv in H as (c' & o'' & r & E' & F & ->).
  rewrite E in E'. injection E' as <- <-. injection F as _ <-. unfold states in *. rewrite E in S. injection S as <- <-.
  exists (st_ctx (set_scopes (update_local x (set_state st) (cx_scopes c)) c)). split; [reflexivity|].
  unfold st_ctx, local in *. cbn [set_scopes cx_scopes update_local ss_scopes].
  revert L. generalize (ss_scopes (cx_scopes c)). intros scs L. symmetry in L. destruct scs as [|sc scs]; [discriminate|].
  cbn [find_local update_scopes map top_state] in *. destruct (find_var x (sc_vars sc)) as [w|] eqn:E1.
  - injection L as ->. destruct (update_var_le _ _ _ _ E1 HM) as [A B]. cbn [map set_vars sc_vars top_state]. split.
    + constructor; [exact A|]. apply F2_refl. intros. apply F2_refl, init_refl.
    + intros _. rewrite find_var_sv, E1. auto.
  - split; [|rewrite find_var_sv, E1; cbn; congruence]. constructor; [apply F2_refl, init_refl|]. clear E1 E sc.
    induction scs as [|sc scs IH]; [discriminate|]. cbn [find_local update_scopes map] in *.
    destruct (find_var x (sc_vars sc)) as [w|] eqn:E1; cbn [map].
    + injection L as ->. constructor; [apply (update_var_le _ _ _ _ E1 HM)|]. apply F2_refl. intros. apply F2_refl, init_refl.
    + constructor; [apply F2_refl, init_refl|auto].
Qed.

(** Something done in a scope of its own. *)
Lemma inner_push l : inner ([] :: l) ([] :: l).
Proof. cbn. auto using F2_refl, init_refl. Qed.
Lemma pop_moves s a s' l l1 o : m_pop_scope s = Ok (a, s') -> states s = l1 :: o -> inner ([] :: l) l1 ->
  exists l', states s' = l' :: o /\ grows l l'.
Proof.
  intros H S G. destruct l1 as [|top l1]; [destruct G|]. eapply pop_states in H; [|exact S]. eauto using grows_of_F2.
Qed.
Lemma function_moves k (m : M unit) : moves inner m -> still (push_context k ;;; m ;;; pop_context).
Proof.
  intros Hm s c s' H. apply bind_ok in H as (u & s1 & H1 & H). apply bind_ok in H as (a & s2 & H2 & H3).
  injection H1 as _ <-.
  destruct (Hm _ _ _ H2 (st_ctx (context_new k)) (states s) eq_refl) as (l' & S' & _).
  unfold pop_context in H3. unfold states in S'. destruct (cs_stack s2) as [|c2 o2]; [discriminate|]. injection H3 as _ <-.
  now injection S' as _ S'.
Qed.

Create HintDb mv discriminated.
Ltac mvg IH := cbv beta; lazymatch goal with
  | |- moves grows (visit _) => apply IH; esz
  | |- moves grows (m_add_local _ _) => apply mv_add
  | |- moves grows (bind _ _) => apply mv_bind; [mvg IH | intros; mvg IH]
  | |- moves grows (match ?x with _ => _ end) => first [(apply mv_still; solve [stt]) | (destruct x; mvg IH)]
  | |- _ => first [assumption | (apply mv_still; solve [stt]) | solve [auto with mv] | (apply mv_each; intros; mvg IH)]
  end.
Ltac mvi IH := first [ assumption | apply mv_add_inner | (apply mv_inner; mvg IH) ].
Ltac adv IH H S :=
  cbv beta iota in H;
  lazymatch type of H with
  | bind _ _ _ = Ok _ => let H1 := fresh "H1" in let x := fresh "x" in let s1 := fresh "s" in
      apply bind_ok in H as (x & s1 & H1 & H); adv IH H1 S; adv IH H S
  | fail _ _ = _ => discriminate H
  | panic _ = _ => discriminate H
  | m_push_scope _ _ _ = _ =>
      eapply push_states in H; [|exact S]; clear S; rename H into S;
      match type of S with _ = ([] :: ?l) :: _ => let G := fresh "GI" in pose proof (inner_push l) as G end
  | m_pop_scope _ = _ =>
      match goal with GI : inner _ _, G : grows _ _ |- _ =>
        let l := fresh "l" in let S' := fresh "S" in let G' := fresh "G" in
        destruct (pop_moves _ _ _ _ _ _ H S GI) as (l & S' & G'); clear H S GI; rename S' into S;
        apply (grows_trans _ _ _ G) in G'; clear G end
  | ?m _ = Ok _ =>
      let Q := fresh "Q" in let l := fresh "l" in let S' := fresh "S" in let G' := fresh "G" in
      lazymatch goal with
      | GI : inner _ _ |- _ =>
          assert (Q : moves inner m) by (mvi IH); destruct (Q _ _ _ H _ _ S) as (l & S' & G'); clear H S Q; rename S' into S;
          apply (inner_trans _ _ _ GI) in G'; clear GI
      | G : grows _ _ |- _ =>
          assert (Q : moves grows m) by (mvg IH); destruct (Q _ _ _ H _ _ S) as (l & S' & G'); clear H S Q; rename S' into S;
          apply (grows_trans _ _ _ G) in G'; clear G
      end
  end.
Ltac start := let s := fresh "s" in let a := fresh "a" in let s' := fresh "s'" in let H := fresh "H" in let l := fresh "l" in
  let o := fresh "o" in let S := fresh "S" in
  intros s a s' H l o S; pose proof (grows_refl l).
Ltac stop S := match goal with G : grows ?l ?l' |- _ => exists l'; split; [exact S|exact G] end.

Lemma mv_scan e : moves inner (scan_expr e).
Proof.
  assert (Q : still (@ret unit tt)) by apply st_ret.
  induction e; cbn [scan_expr]; try (apply mv_inner, mv_still, Q); [| |exact IHe];
    apply mv_bind_inner; [apply mv_add_inner|intros; apply mv_inner, mv_still, Q|apply mv_add_inner|intros; apply mv_inner, mv_still, Q].
Qed.
Lemma mv_scan_items es t : moves inner (scan_item_decls es t).
Proof. apply mv_each_inner. intros. apply mv_scan. Qed.
Lemma mv_add_locals l : moves grows (add_locals l).
Proof. induction l; cbn [add_locals]; [apply mv_still, st_ret|]. apply mv_bind; [apply mv_add|]. intros. apply mv_bind; [exact IHl|]. intros. apply mv_still, st_ret. Qed.
Lemma mv_args b args : moves grows (visit_args b args).
Proof. unfold visit_args. assert (IH := I). destruct b; mvg IH. Qed.
#[export] Hint Resolve mv_add_locals mv_args : mv.

Definition mvis (x : expr) : Prop := moves grows (visit x).
Lemma mv_block_body es t : (forall x, In x es -> mvis x) -> (forall x, t = Some x -> mvis x) -> moves grows (visit_block_body visit es t).
Proof.
  intros H1 H2. unfold visit_block_body. apply mv_bind.
  - apply mv_each. intros x Hx. apply mv_bind; [exact (H1 x Hx)|]. intros. apply mv_still, st_emit.
  - intros _. destruct t as [x|]; [exact (H2 x eq_refl)|apply mv_still, st_emit].
Qed.
Lemma mv_block b es t : (forall x, In x es -> mvis x) -> (forall x, t = Some x -> mvis x) -> moves grows (visit_block visit b es t).
Proof.
  intros H1 H2. pose proof (mv_block_body es t H1 H2). pose proof (mv_scan_items es t). unfold visit_block.
  assert (IH := I). intros s a s' H3 l o S. pose proof (grows_refl l). adv IH H3 S. stop S.
Qed.
Lemma mv_fn_block kd args es t body : moves grows body -> moves grows (visit_fn_block kd args es t body).
Proof.
  intros H1. pose proof (mv_scan_items es t). unfold visit_fn_block.
  assert (Q2 : still (match kd with
   | FkConstructor _ => l <- m_local SELF ;; match l with None => panic | Some v => emit OpPop ;;; emit_u8 OpLoadLocal (u8_of (sv_slot v)) ;;; emit OpReturn end
   | _ => visit_return end)) by stt.
  assert (IH := I). intros s a s' H3 l o S. pose proof (grows_refl l). adv IH H3 S. stop S.
Qed.

Definition body_mv (b : expr) : Prop :=
  mvis b /\ forall es t, b = EBlock es t -> (forall x, In x es -> mvis x) /\ (forall x, t = Some x -> mvis x).
Lemma st_compile_fn args rt kd b : body_mv b -> still (compile_fn visit args rt kd b).
Proof.
  intros [HV HB]. unfold compile_fn. apply st_bind; [destruct kd, rt; stt|intros _].
  apply function_moves, mv_inner. pose proof (mv_fn_block kd args [] (Some b) (visit b) HV) as HN.
  destruct b; try exact HN. destruct (HB _ _ eq_refl) as [H1 H2]. apply mv_fn_block, mv_block_body; auto.
Qed.
Lemma st_method x args rt b kd : body_mv b -> still (visit_method visit x args rt b kd).
Proof. intros HB. pose proof (st_compile_fn args rt kd b HB). unfold visit_method. stt. Qed.
Lemma st_op_decl op args rt b m : body_mv b -> still (visit_op_decl visit op args rt b m).
Proof. intros HB. pose proof (st_compile_fn args rt (if m then FkMethod else FkFunction) b HB). unfold visit_op_decl. stt. Qed.
Lemma st_anonymous args rt b : body_mv b -> still (visit_anonymous_fn visit args rt b).
Proof. intros HB. pose proof (st_compile_fn args rt FkFunction b HB). unfold visit_anonymous_fn. stt. Qed.
(** The name of a function declaration is found uninitialised and left initialised. *)
Lemma fn_decl_moves x args rt b s a s' l o : body_mv b -> visit_fn_decl visit x args rt b s = Ok (a, s') -> states s = l :: o ->
  exists l', states s' = l' :: o /\ grows l l' /\
    (top_state x l <> None -> top_state x l = Some (SFunction false) /\ top_state x l' = Some (SFunction true)).
Proof.
  intros HB H S. pose proof (st_compile_fn args rt FkFunction b HB) as HC. unfold visit_fn_decl in H.
  apply bind_ok in H as (x1 & s1 & H1 & H). apply st_unique in H1.
  apply bind_ok in H as (x2 & s2 & H2 & H). apply HC in H2.
  apply bind_ok in H as (x3 & s3 & H3 & H). apply st_fresh in H3.
  apply bind_ok in H as (v & s4 & HL & H). pose proof HL as HL'. apply local_inv in HL' as (-> & _).
  destruct v as [v|]; [|discriminate]. destruct (sv_state v) as [|[]|] eqn:ES; try discriminate.
  apply bind_ok in H as (x5 & s5 & H5 & H).
  destruct (set_state_moves _ _ _ _ _ _ l o H5 HL) as (l' & S' & F & T); [left; auto|congruence|].
  assert (E : states s' = states s5).
  { apply bind_ok in H as (x6 & s6 & H6 & H). apply st_compiled in H6. apply st_emit_u8 in H. congruence. }
  exists l'. split; [congruence|]. split; [apply grows_of_F2, F|]. rewrite ES in T. exact T.
Qed.
Lemma still_eq s s' l o : states s' = states s -> states s = l :: o -> states s' = l :: o.
Proof. congruence. Qed.
Definition item_mv (item : expr) : Prop :=
  match item with EFnDecl _ _ _ b | EOpDecl _ _ _ b => body_mv b | _ => True end.
Lemma st_class_item slot ck item : item_mv item -> still (visit_class_item visit slot ck item).
Proof.
  intros HI. destruct item; cbn [visit_class_item item_mv] in *; try stt.
  - unfold visit_class_fn. pose proof (st_method name args return_ item (if String.eqb name NEW then FkConstructor ck else FkMethod) HI).
    pose proof (st_method name args return_ item FkStaticMethod HI). stt.
  - unfold visit_class_op. pose proof (st_op_decl op args return_ item true HI). stt.
Qed.

(** What lookups see. *)
Fixpoint find_svs (x : string) (l : list (list sv)) : option var_state :=
  match l with [] => None | top :: r => match find_sv x top with Some st => Some st | None => find_svs x r end end.
Lemma find_svs_ctx x c : find_svs x (st_ctx c) = option_map sv_state (local x (cx_scopes c)).
Proof.
  unfold st_ctx, local. induction (ss_scopes (cx_scopes c)) as [|sc l IH]; cbn [map find_svs find_local]; [reflexivity|].
  rewrite find_var_sv, IH. now destruct (find_var x (sc_vars sc)).
Qed.
Lemma local_states x s v s' l o : m_local x s = Ok (Some v, s') -> states s = l :: o -> find_svs x l = Some (sv_state v).
Proof.
  intros H S. apply local_inv in H as (_ & c & o' & E & L). unfold states in S. rewrite E in S. injection S as <- _.
  now rewrite find_svs_ctx, <- L.
Qed.
Lemma set_state_found x st s a s' v l o : m_set_state x st s = Ok (a, s') -> m_local x s = Ok (Some v, s) -> states s' = l :: o ->
  find_svs x l = Some st.
Proof.
  intros H HL S. apply local_inv in HL as (_ & c & o' & E & L). apply on_scopes_inv in H as (c' & o'' & r & E' & F & ->).
  rewrite E in E'. injection E' as <- <-. injection F as _ <-. unfold states in S. injection S as <- _.
  rewrite find_svs_ctx. cbn [set_scopes cx_scopes]. rewrite local_update by reflexivity. rewrite String.eqb_refl, <- L. reflexivity.
Qed.
Definition st_le (a b : option var_state) : Prop :=
  match a, b with
  | None, None => True
  | Some x, Some y => y = x \/ may_init x y
  | _, _ => False
  end.
Lemma find_sv_le x l l' : Forall2 init_le l l' -> st_le (find_sv x l) (find_sv x l').
Proof.
  induction 1 as [|[n a] [m b] l l' [E H] HF IH]; cbn [find_sv]; [exact I|]. cbn [fst snd] in *. subst m.
  destruct (String.eqb n x); [|exact IH]. cbn [st_le]; unfold may_init; tauto.
Qed.
Lemma view_states_none x s c k d vs scs o l o' : view s = (c, VS k d vs :: scs) :: o -> states s = l :: o' ->
  exists top l', l = top :: l' /\ (mutability x vs = None -> find_sv x top = None).
Proof.
  unfold view, states. destruct (cs_stack s) as [|cx st]; [discriminate|]. intros V S. injection V as _ V _. injection S as <- _.
  unfold st_ctx. destruct (ss_scopes (cx_scopes cx)) as [|sc l]; [discriminate|]. injection V as _ _ <- _. cbn [map].
  do 2 eexists. split; [reflexivity|]. rewrite find_var_mutability, find_var_sv. now destruct (find_var x (sc_vars sc)).
Qed.
Lemma mentions_mutability x E : mentions x (map fst E) = false -> mutability x E = None.
Proof.
  induction E as [|[y m] E IH]; cbn [map fst mentions existsb mutability]; [reflexivity|]. unfold mentions in *.
  rewrite String.eqb_sym. destruct (String.eqb y x); [discriminate|]. exact IH.
Qed.
(** A class whose name is found as a class finds it uninitialised and leaves it initialised. *)
Lemma class_moves x items base s a s' l o : (forall b, base = Some b -> mvis b) -> (forall i, In i items -> item_mv i) ->
  visit_class visit x items base s = Ok (a, s') -> states s = l :: o ->
  exists l', states s' = l' :: o /\ grows l l' /\ (forall c k vs scs o', view s = (c, VS k (List.length scs) vs :: scs) :: o' ->
     mentions x (class_scope (EClassDecl x items base)) = false ->
     forall i, top_state x l = Some (SClass i) -> i = false /\ top_state x l' = Some (SClass true)).
Proof.
  intros HB HI H S. unfold visit_class in H.
  assert (HM : moves grows (match base with Some b => visit b | None => visit_ident ANY_CLASS end)).
  { destruct base; [apply HB; reflexivity|apply mv_still, st_ident]. }
  assert (HE : forall slot ck, still (each (visit_class_item visit slot ck) items)).
  { intros slot ck. clear -HI. induction items as [|i l IH]; cbn [each]; [apply st_ret|].
    apply st_bind; [apply st_class_item, HI; now left|]. intros _. apply IH. intros; apply HI; now right. }
  apply bind_ok in H as (x1 & s1 & H1 & H). pose proof H1 as P1. eapply push_states in H1; [|exact S].
  apply bind_ok in H as (x2 & s2 & H2 & H). pose proof H2 as P2. destruct (HM _ _ _ H2 _ _ H1) as (l2 & S2 & G2).
  destruct l2 as [|top2 l2]; [destruct G2|]. destruct G2 as [_ F2].
  apply bind_ok in H as (x3 & s3 & H3 & H). pose proof H3 as P3.
  destruct (add_states _ _ _ _ _ _ _ H3 S2) as (top & scs & E & S3). injection E as <- <-.
  apply bind_ok in H as (x4 & s4 & H4 & H). pose proof H4 as P4. apply st_emit_u8 in H4.
  assert (S4 : states s4 = ((("super", state_initialized true) :: top2) :: l2) :: o) by (unfold SUPER in *; congruence). clear H4 S3.
  apply bind_ok in H as (v & s5 & HL & H). pose proof HL as HL'. apply local_inv in HL' as (-> & _).
  destruct v as [v|]; [|discriminate]. apply bind_ok in H as (x6 & s6 & H6 & H).
  pose proof (local_states _ _ _ _ _ _ HL S4) as FS.
  assert (R : exists l6, states s6 = l6 :: o /\ Forall2 (Forall2 init_le) ((("super", state_initialized true) :: top2) :: l2) l6 /\ (forall i, sv_state v = SClass i -> i = false /\ find_svs x l6 = Some (SClass true))).
  { destruct (sv_state v) as [| |[]] eqn:ES; try discriminate H6.
    - injection H6 as _ <-. eexists. split; [exact S4|]. split; [apply F2_refl; intros; apply F2_refl, init_refl|]. discriminate.
    - injection H6 as _ <-. eexists. split; [exact S4|]. split; [apply F2_refl; intros; apply F2_refl, init_refl|]. discriminate.
    - destruct (set_state_moves _ _ _ _ _ _ _ _ H6 HL (or_intror (conj ES eq_refl)) S4) as (l6 & S6 & F6 & _).
      exists l6. split; [exact S6|]. split; [exact F6|]. intros i E. injection E as <-. split; [reflexivity|].
      eapply set_state_found; eauto. }
  destruct R as (l6 & S6 & F6 & R).
  assert (S7 : exists s7 y, states s7 = l6 :: o /\ m_pop_scope s7 = Ok (y, s')).
  { apply bind_ok in H as (? & s7 & H7 & H). apply st_emit_c in H7.
    apply bind_ok in H as (? & s8 & H8 & H). apply st_emit_u8 in H8.
    apply bind_ok in H as (? & s9 & H9 & H). apply HE in H9.
    apply bind_ok in H as (? & s10 & H10 & H). apply st_close in H10.
    apply bind_ok in H as (y & s11 & H11 & H). injection H as _ ->. exists s10, y. split; [congruence|exact H11]. }
  destruct S7 as (s7 & y & S7 & HP). inversion F6 as [|? top6 ? l6' FT FR]; subst. eapply pop_states in HP; [|exact S7].
  exists l6'. split; [exact HP|]. split.
  { apply grows_of_F2. eapply F2_trans; [|exact F2|exact FR]. intros; eapply F2_trans; eauto using init_trans. }
  intros c k vs scs o' V NM i TI.
  (* names of the class scope *)
  eapply view_push in P1; [|exact V].
  assert (P2' : view s2 = (c, VS KBlock (List.length (VS k (List.length scs) vs :: scs)) (last_decls base ++ []) ::
                              VS k (List.length scs) vs :: scs) :: o').
  { destruct base as [b|]; [apply (visit_sees b _ _ _ _ _ _ _ _ P2 P1)|].
    apply q_ident in P2. rewrite P2. exact P1. }
  eapply view_add in P3; [|exact P2']. apply q_emit_u8 in P4. rewrite P3 in P4.
  destruct (view_states_none x _ _ _ _ _ _ _ _ _ P4 S4) as (top & l' & E & HN). injection E as <- <-.
  cbn [class_scope] in NM. assert (NT : find_sv x (("super", state_initialized true) :: top2) = None).
  { apply HN. rewrite app_nil_r. apply mentions_mutability. exact NM. }
  cbn [find_svs] in FS. rewrite NT in FS.
  pose proof (find_sv_le x _ _ FT) as LT. rewrite NT in LT. destruct (find_sv x top6) eqn:E6; [destruct LT|].
  destruct l as [|t0 l0]; [discriminate TI|]. inversion F2 as [|? t2 ? l2' FT2 FR2]; subst.
  cbn [top_state] in TI. pose proof (find_sv_le x _ _ FT2) as LE. rewrite TI in LE. cbn [find_svs] in FS.
  destruct (find_sv x t2) as [st2|] eqn:E2; [|destruct LE]. injection FS as FS.
  assert (exists j, st2 = SClass j /\ (i = true -> j = true)) as (j & -> & Hj).
  { destruct LE as [->|[[D _]|[D ->]]]; eauto. discriminate. }
  destruct (R j (eq_sym FS)) as [-> R']. split; [destruct i; [now discriminate (Hj eq_refl)|reflexivity]|].
  cbn [find_svs] in R'. rewrite E6 in R'. inversion FR as [|? t6 ? l6'' FT6 FR6]; subst. cbn [find_svs top_state] in *.
  pose proof (find_sv_le x _ _ FT6) as L6. rewrite E2 in L6. destruct (find_sv x t6); [exact R'|destruct L6].
Qed.

Ltac mseq HX := lazymatch goal with
  | |- moves grows (bind _ _) => apply mv_bind; [first [exact HX | (apply mv_still; solve [stt])] | intros ?; mseq HX]
  | |- _ => first [exact HX | (apply mv_still; stt)] end.
Lemma mv_assign_slot l a n m op rhs : mvis rhs -> moves grows (assign_slot visit l a n m op rhs).
Proof. intros HR. unfold assign_slot. assert (IH := I). unfold mvis in HR. destruct m; [|apply mv_still, st_fail]. destruct op; mseq HR. Qed.
Lemma mv_assign_ident op x rhs : mvis rhs -> moves grows (assign_ident visit op x rhs).
Proof.
  intros HR. unfold assign_ident. apply mv_bind; [apply mv_still, st_local|]. intros [v|]; [now apply mv_assign_slot|].
  apply mv_bind; [apply mv_still, st_resolve|]. intros [i|]; [|apply mv_still, st_fail].
  apply mv_bind; [apply mv_still, st_get_context|]. intros c. destruct (nth_error _ _); [now apply mv_assign_slot|apply mv_still, st_panic].
Qed.
Lemma mv_isolated x : mvis x -> moves grows (visit_isolated visit x).
Proof. intros HX. unfold mvis in HX. unfold visit_isolated. assert (IH := I). mseq HX. Qed.
Lemma mv_call_args l : (forall x, In x l -> mvis x) -> moves grows (visit_call_args visit l).
Proof.
  intros HX. unfold visit_call_args. apply mv_bind; [apply mv_still, st_get_temps|]. intros n. apply mv_bind; [|intros; apply mv_still, st_put_temps].
  apply mv_each. intros x Hx. apply mv_isolated, HX, Hx.
Qed.
Lemma mv_in_call m : moves grows m -> moves grows (in_call m).
Proof. intros H. unfold in_call. apply mv_bind; [apply mv_still, st_enter|intros _]. apply mv_bind; [exact H|intros _; apply mv_still, st_exit]. Qed.

Theorem visit_moves : forall e, mvis e.
Proof.
  induction e as [e IH] using expr_size_ind. unfold mvis in *.
  assert (IB : forall b, esize b < esize e -> body_mv b).
  { intros b L. split; [apply IH, L|]. intros es t ->. split; intros; apply IH; subst; esz. }
  destruct e; cbn [visit]; try (apply mv_in_call).
  - mvg IH.
  - mvg IH.
  - mvg IH.
  - mvg IH.
  - mvg IH.
  - mvg IH.
  - mvg IH.
  - apply mv_still, st_anonymous, IB. esz.
  - unfold visit_object. apply mv_bind; [mvg IH|intros _]. apply mv_each. intros [k x] Hx. assert (esize x < esize (ELitObject items)) by esz.
    apply mv_bind; [mvg IH|intros _]. apply mv_bind; [apply IH; assumption|intros _]. mvg IH.
  - unfold visit_list. mvg IH.
  - unfold visit_null_propagate. mvg IH.
  - unfold visit_error_propagate. mvg IH.
  - unfold visit_field_access. mvg IH.
  - unfold visit_super_access. mvg IH.
  - unfold visit_fn_call. apply mv_bind; [mvg IH|intros _]. apply mv_bind; [apply mv_call_args; intros; apply IH; esz|intros _; mvg IH].
  - unfold visit_super_call. apply mv_bind; [mvg IH|intros [v|]]; [|mvg IH]. apply mv_bind; [mvg IH|intros _].
    apply mv_bind; [apply mv_call_args; intros; apply IH; esz|intros _; mvg IH].
  - unfold visit_index. apply mv_bind; [mvg IH|intros _]. apply mv_bind; [apply mv_isolated; apply IH; esz|intros _; mvg IH].
  - unfold visit_is. mvg IH.
  - unfold visit_prefix. mvg IH.
  - unfold visit_binary, visit_logical. destruct op; mvg IH.
  - unfold visit_assignment. destruct e1; try apply mv_still, st_fail.
    + apply mv_assign_ident, IH; esz.
    + unfold assign_field. mvg IH.
    + unfold assign_index. mvg IH.
  - unfold visit_var_decl. mvg IH.
  - intros s a s' H l o S. destruct (fn_decl_moves _ _ _ _ _ _ _ _ _ (IB e ltac:(esz)) H S) as (l' & ? & ? & _). eauto.
  - apply mv_still, st_op_decl, IB. esz.
  - intros s a s' H l o S.
    assert (HB : forall b, base = Some b -> mvis b) by (intros b ->; apply IH; esz).
    assert (HI : forall i, In i items -> item_mv i) by (intros i Hi; destruct i; cbn [item_mv]; auto; apply IB; esz).
    destruct (class_moves _ _ _ _ _ _ _ _ HB HI H S) as (l' & ? & ? & _). eauto.
  - unfold visit_import. mvg IH.
  - unfold visit_export. mvg IH.
  - unfold visit_if. mvg IH.
  - unfold visit_while. destruct e2; try apply mv_still, st_fail.
    assert (HB := mv_block true expressions trailing (fun x Hx => IH x ltac:(esz)) (fun x Hx => IH x ltac:(subst; esz))).
    intros s a s' H l o S. pose proof (grows_refl l). adv IH H S. stop S.
  - unfold visit_for.
    assert (HI : moves grows (visit_iterator_loop visit variable e1 e2)).
    { unfold visit_iterator_loop. intros s a s' H l o S. pose proof (grows_refl l). adv IH H S. stop S. }
    assert (HR : forall b lo hi, esize lo < esize (EFor variable e1 e2) -> esize hi < esize (EFor variable e1 e2) ->
                  moves grows (visit_range_loop visit b variable lo hi e2)).
    { intros b lo hi L1 L2. pose proof (IH lo L1). pose proof (IH hi L2). unfold visit_range_loop.
      intros s a s' H1 l o S. pose proof (grows_refl l). adv IH H1 S. stop S. }
    destruct e1; try exact HI. destruct op; try exact HI; apply HR; esz.
  - unfold visit_loop. destruct e; try apply mv_still, st_fail.
    assert (HB := mv_block true expressions trailing (fun x Hx => IH x ltac:(esz)) (fun x Hx => IH x ltac:(subst; esz))).
    intros s a s' H l o S. pose proof (grows_refl l). adv IH H S. stop S.
  - apply mv_block; intros; apply IH; subst; esz.
  - unfold visit_break. mvg IH.
  - unfold visit_continue. mvg IH.
  - unfold visit_return_expr. mvg IH.
Qed.
