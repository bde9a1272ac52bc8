(** The compiler tracks scopes exactly as the static rules say: an accepted program obeys them. *)
From Coq Require Import Lia.
From Verif.Model Require Import Compiler.
From Verif.Spec Require Import StaticSpec StaticTop.
From Verif.Proofs Require Import CodecP ScopeP CaptureP ExprInd WellFormedP.

(** * What the rules see of a compiler state *)
Record vscope := VS { vs_kind : scope_kind; vs_depth : nat; vs_vars : env }.
Definition vctx := (compiler_kind * list vscope)%type.
Definition view_var (v : scope_var) : string * bool := (sv_name v, sv_is_mutable v).
Definition view_scope (sc : scope) : vscope := VS (sc_kind sc) (sc_depth sc) (map view_var (sc_vars sc)).
Definition view_ctx (c : context) : vctx := (cx_kind c, map view_scope (ss_scopes (cx_scopes c))).
Definition view (s : cstate) : list vctx := map view_ctx (cs_stack s).

Definition vpush (k : scope_kind) (V : list vctx) : list vctx :=
  match V with [] => [] | (c, scs) :: o => (c, VS k (List.length scs) [] :: scs) :: o end.
Definition vpop (V : list vctx) : list vctx :=
  match V with [] => [] | (c, scs) :: o => (c, tl scs) :: o end.
Definition ext (D : env) (V : list vctx) : list vctx :=
  match V with (c, VS k d vs :: scs) :: o => (c, VS k d (D ++ vs) :: scs) :: o | _ => V end.

(** * Operations that leave the view alone *)
Definition quiet {A} (m : M A) : Prop := forall s a s', m s = Ok (a, s') -> view s' = view s.
Create HintDb quiet discriminated.

Lemma q_bind {A B} (m : M A) (f : A -> M B) : quiet m -> (forall a, quiet (f a)) -> quiet (bind m f).
Proof. intros Hm Hf s b s' H. apply bind_ok in H as (a & s1 & H1 & H2). rewrite (Hf _ _ _ _ H2). eauto. Qed.
Lemma q_ret {A} (a : A) : quiet (ret a).
Proof. intros s b s' H. now injection H as _ <-. Qed.
Lemma q_fail {A} e : quiet (@fail A e).
Proof. intros s b s' H. discriminate. Qed.
Lemma q_panic {A} : quiet (@panic A).
Proof. intros s b s' H. discriminate. Qed.
Lemma q_each {A} (f : A -> M unit) l : (forall x, quiet (f x)) -> quiet (each f l).
Proof. intros Hf. induction l; cbn [each]; [apply q_ret|]. apply q_bind; auto. Qed.
Lemma q_times n m : quiet m -> quiet (times n m).
Proof. intros Hf. induction n; cbn [times]; [apply q_ret|]. apply q_bind; auto. Qed.

Lemma on_asm_view {A} (f : assembler -> outcome (A * assembler)) : quiet (on_asm f).
Proof.
  intros s a s'. unfold on_asm, bind, get_context, lift, set_context, ret, view.
  destruct (cs_stack s) as [|c o] eqn:E; [discriminate|].
  destruct (f (cx_asm c)) as [[x r]| | |]; try discriminate. rewrite E. intros H. injection H as <- <-. reflexivity.
Qed.
Lemma on_scopes_inv {A} (f : scope_stack -> outcome (A * scope_stack)) s a s' : on_scopes f s = Ok (a, s') ->
  exists c o r, cs_stack s = c :: o /\ f (cx_scopes c) = Ok (a, r) /\ s' = CState (set_scopes r c :: o) (cs_next_id s).
Proof.
  unfold on_scopes, bind, get_context, lift, set_context, ret.
  destruct (cs_stack s) as [|c o] eqn:E; [discriminate|].
  destruct (f (cx_scopes c)) as [[x r]| | |] eqn:F; try discriminate. rewrite E. cbn [fst snd].
  intros H. injection H as <- <-. exists c, o, r. auto.
Qed.
Lemma on_scopes_view {A} (f : scope_stack -> outcome (A * scope_stack)) :
  (forall ss a ss', f ss = Ok (a, ss') -> map view_scope (ss_scopes ss') = map view_scope (ss_scopes ss)) ->
  quiet (on_scopes f).
Proof.
  intros Hf s a s' H. apply on_scopes_inv in H as (c & o & r & E & F & ->). unfold view. rewrite E.
  cbn [cs_stack map]. unfold view_ctx at 1. cbn [set_scopes cx_kind cx_scopes]. now rewrite (Hf _ _ _ F).
Qed.

Lemma q_emit o : quiet (emit o). Proof. apply on_asm_view. Qed.
Lemma q_emit_u8 o b : quiet (emit_u8 o b). Proof. apply on_asm_view. Qed.
Lemma q_emit_c o k : quiet (emit_c o k). Proof. apply on_asm_view. Qed.
Lemma q_emit_lftl f b : quiet (emit_lftl f b). Proof. apply on_asm_view. Qed.
Lemma q_emit_clo k u : quiet (emit_clo k u). Proof. apply on_asm_view. Qed.
Lemma q_jump o : quiet (jump o). Proof. apply on_asm_view. Qed.
Lemma q_patch p : quiet (patch p). Proof. apply on_asm_view. Qed.
Lemma q_jump_back p : quiet (jump_back p). Proof. apply on_asm_view. Qed.
Lemma q_here : quiet here. Proof. apply on_asm_view. Qed.
Lemma q_push_bool b : quiet (push_bool b). Proof. apply q_emit. Qed.
Lemma q_local x : quiet (m_local x).
Proof. apply on_scopes_view. intros ss a ss' H. now injection H as _ <-. Qed.
Lemma q_top_scope : quiet m_top_scope.
Proof.
  apply on_scopes_view. intros ss a ss'. destruct (top_scope ss); try discriminate. intros H. now injection H as _ <-.
Qed.
Lemma q_update_top f : (forall sc, view_scope (f sc) = view_scope sc) -> quiet (m_update_top f).
Proof.
  intros Hf. apply on_scopes_view. intros [scs n] a ss'. unfold update_top. cbn [ss_scopes].
  destruct scs as [|sc scs]; [discriminate|]. intros H. injection H as _ <-. cbn [ss_scopes map]. now rewrite Hf.
Qed.
Lemma q_set_call c : quiet (m_update_top (set_call c)).
Proof. now apply q_update_top. Qed.
Lemma q_loop_exit j : quiet (on_scopes (fun s => omap (fun s' => (tt, s')) (add_loop_exit_point j s))).
Proof.
  apply on_scopes_view. intros [scs n] a ss'. unfold add_loop_exit_point. cbn [ss_scopes ss_slot_count].
  destruct (add_loop_exit j scs) as [l|] eqn:E; [|discriminate]. intros H. injection H as _ <-. cbn [ss_scopes].
  revert l E. induction scs as [|sc scs IH]; cbn [add_loop_exit]; [discriminate|]. intros l.
  destruct (scope_kind_eqb (sc_kind sc) KLoop); [intros E; injection E as <-; reflexivity|].
  destruct (add_loop_exit j scs) as [r|]; [|discriminate]. intros E. injection E as <-. cbn [map]. now rewrite (IH r).
Qed.
Lemma q_entry k : quiet (on_scopes (fun s => omap (fun p => (p, s)) (entry_point k s))).
Proof.
  apply on_scopes_view. intros ss a ss'. destruct (entry_point k ss); try discriminate. intros H. now injection H as _ <-.
Qed.
Lemma q_get_context : quiet get_context.
Proof. intros s a s'. unfold get_context. destruct (cs_stack s); [discriminate|]. intros H. now injection H as _ <-. Qed.
Lemma q_get_kind : quiet get_kind.
Proof. apply q_bind; [apply q_get_context|intros; apply q_ret]. Qed.
Lemma q_get_temps : quiet get_temps.
Proof. apply q_bind; [apply q_get_context|intros; apply q_ret]. Qed.
Lemma q_put_temps n : quiet (put_temps n).
Proof.
  intros s a s'. unfold put_temps, bind, get_context, set_context, view. destruct (cs_stack s) as [|c o] eqn:E; [discriminate|].
  rewrite E. intros H. now injection H as _ <-.
Qed.
Lemma q_fresh : quiet fresh_id.
Proof. intros s a s' H. now injection H as _ <-. Qed.

Lemma view_update_var x f vs :
  (forall v, find_var x vs = Some v -> view_var (f v) = view_var v) -> map view_var (update_var x f vs) = map view_var vs.
Proof.
  unfold find_var. induction vs as [|v vs IH]; cbn [update_var find map]; [reflexivity|].
  destruct (String.eqb (sv_name v) x); intros H; cbn [map]; [now rewrite (H v)|]. now rewrite IH.
Qed.
Lemma view_update_scopes x f l :
  (forall v, find_local x l = Some v -> view_var (f v) = view_var v) -> map view_scope (update_scopes x f l) = map view_scope l.
Proof.
  induction l as [|sc l IH]; cbn [update_scopes find_local map]; [reflexivity|].
  destruct (find_var x (sc_vars sc)) eqn:E; intros H; cbn [map].
  - unfold view_scope at 1. cbn [set_vars sc_kind sc_depth sc_vars]. rewrite view_update_var; [reflexivity|].
    intros v Hv. apply H. congruence.
  - now rewrite IH.
Qed.
Lemma resolve_view x st : forall i st', resolve_upvalue x st = Some (i, st') -> map view_ctx st' = map view_ctx st.
Proof.
  induction st as [|cur outer IH]; cbn [resolve_upvalue]; [discriminate|].
  destruct outer as [|parent rest]; [discriminate|]. intros i st'.
  destruct (local x (cx_scopes parent)) as [v|] eqn:E.
  - destruct (add_upvalue _ cur) as [j cur'] eqn:A. intros H. injection H as <- <-.
    apply add_upvalue_spec in A as (_ & _ & K & _ & S & _). cbn [map]. unfold view_ctx at 1 2. cbn [set_scopes cx_kind cx_scopes].
    rewrite K, S. cbn [update_local ss_scopes]. rewrite view_update_scopes by reflexivity. reflexivity.
  - destruct (resolve_upvalue x (parent :: rest)) as [[j outer']|] eqn:R; [|discriminate].
    destruct (add_upvalue _ cur) as [k cur'] eqn:A. intros H. injection H as <- <-.
    apply add_upvalue_spec in A as (_ & _ & K & _ & S & _). specialize (IH _ _ eq_refl).
    cbn [map] in *. rewrite IH. unfold view_ctx at 1 3. now rewrite K, S.
Qed.
Lemma q_resolve x : quiet (m_resolve_upvalue x).
Proof.
  intros s a s'. unfold m_resolve_upvalue. destruct (resolve_upvalue x (cs_stack s)) as [[i st]|] eqn:E; intros H; injection H as <- <-.
  - unfold view. cbn [cs_stack]. eapply resolve_view; eauto.
  - reflexivity.
Qed.

#[export] Hint Resolve q_ret q_fail q_panic q_emit q_emit_u8 q_emit_c q_emit_lftl q_emit_clo q_jump q_patch q_jump_back q_here
  q_push_bool q_local q_top_scope q_set_call q_loop_exit q_entry q_get_context q_get_kind q_get_temps q_put_temps q_fresh
  q_resolve : quiet.
Ltac qt := cbv beta iota; first
  [ solve [auto with quiet]
  | match goal with
    | |- quiet (match ?x with _ => _ end) => destruct x; qt
    | |- quiet (bind _ _) => apply q_bind; [qt | intros; qt]
    | |- quiet (each _ _) => apply q_each; intros; qt
    | |- quiet (times _ _) => apply q_times; qt
    end ].
Lemma q_ident x : quiet (visit_ident x). Proof. unfold visit_ident. qt. Qed.
#[export] Hint Resolve q_ident : quiet.
Lemma q_int z : quiet (visit_int z). Proof. unfold visit_int. qt. Qed.
Lemma q_float z : quiet (visit_float z). Proof. unfold visit_float. qt. Qed.
Lemma q_local_type t n : quiet (visit_local_type t n). Proof. unfold visit_local_type. qt. Qed.
Lemma q_close_vars vs : quiet (close_vars vs). Proof. unfold close_vars. qt. Qed.
#[export] Hint Resolve q_close_vars : quiet.
Lemma q_close : quiet visit_close_upvalues. Proof. unfold visit_close_upvalues. qt. Qed.
Lemma q_return : quiet visit_return. Proof. unfold visit_return. qt. Qed.
Lemma q_enter : quiet enter_call. Proof. now apply q_update_top. Qed.
Lemma q_exit : quiet exit_call. Proof. unfold exit_call. qt. Qed.
Lemma q_drop n : quiet (drop_temps n). Proof. unfold drop_temps. qt. Qed.
Lemma q_compiled x i c : quiet (emit_compiled x i c). Proof. unfold emit_compiled. cbv zeta. qt. Qed.
Lemma q_fields l : quiet (emit_fields_to_locals l). Proof. unfold emit_fields_to_locals. qt. Qed.
Lemma q_operator o : quiet (visit_operator o). Proof. unfold visit_operator. qt. Qed.
Lemma q_unique a : quiet (assert_unique_params a). Proof. unfold assert_unique_params. qt. Qed.
Lemma q_super_call es t : quiet (assert_super_call es t). Proof. unfold assert_super_call. qt. Qed.
#[export] Hint Resolve q_int q_float q_local_type q_close q_return q_enter q_exit q_drop q_compiled q_fields q_operator
  q_unique q_super_call : quiet.
#[export] Hint Extern 1 (quiet (m_update_top _)) => apply q_update_top; reflexivity : quiet.

(** * Operations on scopes *)
Definition mutable_state (st : var_state) : bool := match st with SLocal m _ => m | _ => false end.
Definition rest (scs : list vscope) (o : list vctx) : env :=
  flat_map vs_vars scs ++ flat_map (fun c => flat_map vs_vars (snd c)) o.
Lemma rest_scope k d vs scs o : rest (VS k d vs :: scs) o = vs ++ rest scs o.
Proof. unfold rest. cbn [flat_map vs_vars]. now rewrite app_assoc. Qed.
Lemma rest_ctx k scs o : rest [] ((k, scs) :: o) = rest scs o.
Proof. reflexivity. Qed.

Lemma view_push k e s a s' : m_push_scope k e s = Ok (a, s') ->
  forall c scs o, view s = (c, scs) :: o -> view s' = (c, VS k (List.length scs) [] :: scs) :: o.
Proof.
  intros H c scs o HV. apply on_scopes_inv in H as (x & y & r & E & F & ->). injection F as _ <-.
  unfold view in *. rewrite E in HV. injection HV as <- <- <-. cbn [cs_stack map]. unfold view_ctx at 1.
  cbn [set_scopes cx_kind cx_scopes push_scope ss_scopes map]. now rewrite map_length.
Qed.
Lemma view_pop s a s' : m_pop_scope s = Ok (a, s') ->
  forall c sc scs o, view s = (c, sc :: scs) :: o -> view s' = (c, scs) :: o.
Proof.
  intros H c sc scs o HV. apply on_scopes_inv in H as (x & y & r & E & F & ->).
  unfold view in *. rewrite E in HV. injection HV as <- HS <-. unfold pop_scope in F.
  destruct (ss_scopes (cx_scopes x)) as [|z w]; [discriminate|]. injection F as <- <-. injection HS as _ <-. reflexivity.
Qed.
Lemma view_add x st s a s' : m_add_local x st s = Ok (a, s') ->
  forall c k d vs scs o, view s = (c, VS k d vs :: scs) :: o -> view s' = (c, VS k d ((x, mutable_state st) :: vs) :: scs) :: o.
Proof.
  intros H c k d vs scs o HV. apply on_scopes_inv in H as (cx & y & r & E & F & ->).
  unfold view in *. rewrite E in HV. injection HV as <- HS <-. unfold add_local in F.
  destruct (ss_scopes (cx_scopes cx)) as [|z w]; [discriminate|]. injection F as <- <-. injection HS as <- <- <- <-. reflexivity.
Qed.
Lemma local_inv x s l s' : m_local x s = Ok (l, s') ->
  s' = s /\ exists c o, cs_stack s = c :: o /\ l = local x (cx_scopes c).
Proof.
  intros H. apply on_scopes_inv in H as (c & o & r & E & F & ->). injection F as <- <-. split; [|eauto].
  destruct s as [st n]. cbn in *. subst st. now destruct c.
Qed.
Lemma view_set_state x st s a s' v : m_set_state x st s = Ok (a, s') -> m_local x s = Ok (Some v, s) ->
  sv_is_mutable v = mutable_state st -> view s' = view s.
Proof.
  intros H HL HM. apply local_inv in HL as (_ & c & o & E & L). apply on_scopes_inv in H as (c' & o' & r & E' & F & ->).
  rewrite E in E'. injection E' as <- <-. injection F as _ <-. unfold view. rewrite E. cbn [cs_stack map].
  unfold view_ctx at 1. cbn [set_scopes cx_kind cx_scopes update_local ss_scopes].
  rewrite view_update_scopes; [reflexivity|]. intros w Hw. unfold local in L. rewrite Hw in L. injection L as ->.
  unfold view_var, set_state, sv_is_mutable in *. cbn [sv_name sv_state]. rewrite HM. reflexivity.
Qed.
Lemma kind_inv s k s' : get_kind s = Ok (k, s') -> s' = s /\ forall c scs o, view s = (c, scs) :: o -> k = c.
Proof.
  unfold get_kind, bind, get_context, ret, view. destruct (cs_stack s); [discriminate|]. intros H. injection H as <- <-.
  split; [reflexivity|]. intros c0 scs o E. injection E as <- _ _. reflexivity.
Qed.
Lemma top_inv s sc s' : m_top_scope s = Ok (sc, s') ->
  forall c k d vs scs o, view s = (c, VS k d vs :: scs) :: o -> sc_depth sc = d.
Proof.
  intros H c k d vs scs o HV. apply on_scopes_inv in H as (cx & y & r & E & F & ->).
  unfold view in *. rewrite E in HV. injection HV as <- HS <-. unfold top_scope in F.
  destruct (ss_scopes (cx_scopes cx)) as [|z w]; [discriminate|]. injection F as <- <-. now injection HS as _ <- _ _.
Qed.
Lemma push_context_inv k s a s' : push_context k s = Ok (a, s') -> view s' = (k, [VS KBlock 0 []]) :: view s.
Proof. intros H. injection H as _ <-. reflexivity. Qed.
Lemma pop_context_inv s a s' : pop_context s = Ok (a, s') -> forall c o, view s = c :: o -> view s' = o.
Proof.
  unfold pop_context, view. destruct (cs_stack s); [discriminate|]. intros H. injection H as _ <-. intros c0 o E. now injection E as _ <-.
Qed.

(** Names seen by the compiler and by the rules. *)
Lemma mutability_app x D E : mutability x (D ++ E) = match mutability x D with Some m => Some m | None => mutability x E end.
Proof. induction D as [|[y m] D IH]; cbn [app mutability]; [reflexivity|]. now destruct (String.eqb y x). Qed.
Lemma find_var_mutability x vs : mutability x (map view_var vs) = option_map sv_is_mutable (find_var x vs).
Proof.
  unfold find_var. induction vs as [|v vs IH]; cbn [map view_var mutability find]; [reflexivity|].
  unfold view_var at 1. now destruct (String.eqb (sv_name v) x).
Qed.
Lemma find_local_mutability x l :
  mutability x (flat_map vs_vars (map view_scope l)) = option_map sv_is_mutable (find_local x l).
Proof.
  induction l as [|sc l IH]; cbn [map flat_map find_local]; [reflexivity|].
  rewrite mutability_app. unfold view_scope at 1. cbn [vs_vars]. rewrite find_var_mutability, IH.
  now destruct (find_var x (sc_vars sc)).
Qed.
Definition env_of (V : list vctx) : env := flat_map (fun c => flat_map vs_vars (snd c)) V.
Lemma mutability_ctx x c o :
  mutability x (env_of (map view_ctx (c :: o))) =
  match local x (cx_scopes c) with Some v => Some (sv_is_mutable v) | None => mutability x (env_of (map view_ctx o)) end.
Proof.
  unfold env_of. cbn [map flat_map]. rewrite mutability_app. unfold view_ctx at 1. cbn [snd]. rewrite find_local_mutability.
  unfold local. now destruct (find_local x _).
Qed.
Lemma resolve_mutability x st : forall i cur o, resolve_upvalue x st = Some (i, cur :: o) ->
  exists d, nth_error (cx_upvalues cur) i = Some d /\
            mutability x (env_of (map view_ctx (tl st))) = Some (upvalue_is_mutable d).
Proof.
  induction st as [|c outer IH]; cbn [resolve_upvalue]; [discriminate|].
  destruct outer as [|parent r]; [discriminate|]. intros i cur o. cbn [tl]. rewrite mutability_ctx.
  destruct (local x (cx_scopes parent)) as [v|] eqn:E.
  - destruct (add_upvalue _ c) as [j cur'] eqn:A. intros H. injection H as <- <- <-.
    apply add_upvalue_spec in A as (N & _). eauto.
  - destruct (resolve_upvalue x (parent :: r)) as [[j outer']|] eqn:R; [|discriminate].
    destruct outer' as [|p' o'].
    { apply resolve_view in R. discriminate. }
    specialize (IH _ _ _ eq_refl) as (d & N & HM). cbn [tl] in HM.
    destruct (add_upvalue _ c) as [k cur'] eqn:A. intros H. injection H as <- <- <-.
    apply add_upvalue_spec in A as (N' & _). rewrite N in N'. exists (Outer j (upvalue_is_mutable d)). split; [exact N'|].
    rewrite HM. now destruct d.
Qed.

(** * Places *)
Definition level_of (k : compiler_kind) (n : nat) : level :=
  match k with
  | KScript | KModule => match n with 0 => Root | 1 => Top | _ => Nested end
  | _ => Nested
  end.
Definition is_loop_kind (k : scope_kind) : bool := scope_kind_eqb k KLoop.
Definition pl (c : compiler_kind) (l : list scope_kind) : place :=
  Place (existsb is_loop_kind l) (owner_of c) (level_of c (List.length l - 1)).
Lemma pl_block c k l : pl c (KBlock :: k :: l) = inside (pl c (k :: l)).
Proof.
  unfold pl, inside. cbn [existsb is_loop_kind scope_kind_eqb orb in_loop pl_owner pl_level List.length]. f_equal.
  rewrite !Nat.sub_succ, !Nat.sub_0_r. destruct c; cbn; auto; destruct l as [|? [|? ?]]; reflexivity.
Qed.
Lemma pl_loop c k l : pl c (KLoop :: k :: l) = looping (pl c (k :: l)).
Proof.
  unfold pl, looping. cbn [existsb is_loop_kind scope_kind_eqb orb in_loop pl_owner pl_level List.length]. f_equal.
  rewrite !Nat.sub_succ, !Nat.sub_0_r. destruct c; cbn; auto; destruct l as [|? [|? ?]]; reflexivity.
Qed.
