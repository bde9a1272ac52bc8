(** What statements, blocks and function bodies leave in the finished bytecode. *)
From Verif.Model Require Import Compiler Assembler.
From Verif.Spec Require Import Encoding SupportSpec.
From Verif.Proofs Require Import ExprInd ReachP CodeP CodecP AssemblerP PoolP WellFormedP WellFormedPrimP CaptureP StackP EmitP VisitMonoP FitsP JumpsP ScopesP DeclsP FnCodeP.
#[local] Open Scope string_scope.
#[local] Open Scope list_scope.
#[local] Open Scope nat_scope.

Lemma adds_all_cons e l : adds_all (e :: l) = adds_all l ++ adds e.
Proof. unfold adds_all. cbn [rev]. rewrite flat_map_app. cbn. rewrite app_nil_r. reflexivity. Qed.
Lemma drop_extend vs G n : List.length vs = n -> drop n (extend vs G) = G.
Proof. intros <-. destruct G. unfold drop, extend. cbn. rewrite skipn_app, skipn_all, Nat.sub_diag. reflexivity. Qed.
Lemma asm_scopes {A} (f : assembler -> outcome (A * assembler)) s a s' : on_asm f s = Ok (a, s') -> scopes s' = scopes s.
Proof. intros E. apply on_asm_with in E. destruct E as (asm & _ & ->). reflexivity. Qed.
Lemma resolve_scopes x s a s' : wf s -> m_resolve_upvalue x s = Ok (a, s') -> scopes s' = scopes s.
Proof.
  intros W E. unfold m_resolve_upvalue in E. destruct (resolve_upvalue x (cs_stack s)) as [[i st]|] eqn:Er; injection E as <- <-; [|reflexivity].
  destruct (resolve_step _ _ _ _ _ Er (wf_all _ W) (wf_chained _ W)) as (cur & out & cur' & out' & E1 & -> & R).
  unfold scopes, top. rewrite E1. cbn [cs_stack hd]. rewrite (r_scopes _ _ _ _ _ _ _ R). reflexivity.
Qed.
Lemma ident_scopes x s u s' : wf s -> visit_ident x s = Ok (u, s') -> scopes s' = scopes s.
Proof.
  intros W E. unfold visit_ident in E. apply bind_ok in E. destruct E as (l & s1 & E1 & E). apply local_ok in E1. destruct E1 as (-> & ->).
  destruct (find_local x (scopes s)) as [v|]; [destruct (sv_is_initialized v); [|discriminate]; exact (asm_scopes _ _ _ _ E)|].
  apply bind_ok in E. destruct E as (r & s1 & E1 & E). apply (resolve_scopes _ _ _ _ W) in E1. rewrite <- E1. destruct r; exact (asm_scopes _ _ _ _ E).
Qed.
Lemma return_scopes s u s' : wf s -> visit_return s = Ok (u, s') -> scopes s' = scopes s.
Proof.
  intros W E. unfold visit_return in E. apply bind_ok in E. destruct E as (k & s1 & E1 & E). apply get_kind_ok in E1. destruct E1 as (-> & _).
  assert (TY : forall t, (visit_ident (ta_name t) ;;; emit (if ta_nullable t then OpAssertTypeOrNullAndReturn else OpAssertTypeAndReturn)) s = Ok (u, s') -> scopes s' = scopes s).
  { intros t X. apply bind_ok in X. destruct X as (u1 & s1 & E1 & X). rewrite <- (ident_scopes _ _ _ _ W E1). exact (asm_scopes _ _ _ _ X). }
  destruct k as [| |[t|]|[t|]|]; eauto using asm_scopes.
Qed.

Section BodyCode.
Variable lit : nat -> fn_bytecode.
Local Notation fits := (fits lit).
Local Notation static := (static lit).
Local Notation ED := (ED lit).
Local Notation EE := (EE lit).
Local Notation code := (code lit).
(** What the code of a statement needs to know about the variables and the loop around it. *)
Variable K : expr -> vars -> option loopinfo -> Prop.

Definition stmt_code (P : place) (C : list string) (e : expr) : Prop :=
  ED P (adds e) C (fns e) (visit e) (fun G k _ p q => K e (g_vars G) (g_loop G) -> item_code code (drop (List.length (adds e)) G) k e p q G).
Definition all_kept (l : list expr) (vs : vars) (lo : option loopinfo) : Prop := forall e d, In e l -> K e (skipn d vs) lo.

Lemma ED_body P C es t : (forall e, In e (statements es t) -> stmt_code P C e) ->
  ED P (adds_all (statements es t)) C (fns (EBlock es t)) (visit_block_body visit es t)
    (fun G k _ p q => all_kept (statements es t) (g_vars G) (g_loop G) -> items_code code t (drop (List.length (adds_all (statements es t))) G) k es p q G).
Proof.
  unfold visit_block_body. induction es as [|e es IH]; intros H.
  - destruct t as [e|].
    + eapply ED_ext with (m := visit e); [reflexivity|]. eapply ED_decls; [|eapply ED_num; [|eapply ED_post; [apply (H e); left; reflexivity|]]].
      * unfold adds_all, statements. cbn. rewrite app_nil_r. reflexivity.
      * cbn [fns map list_sum fold_right]. lia.
      * cbn beta. intros G k [] p q X HK. cbn [items_code]. unfold adds_all, statements. cbn [app rev flat_map]. rewrite app_nil_r. apply X. specialize (HK e 0 (or_introl eq_refl)). exact HK.
    + eapply ED_ext with (m := emit OpPushUnit); [reflexivity|]. eapply ED_post; [apply EE_emit; reflexivity|]. cbn beta. intros G k [] p q X HK. cbn. rewrite drop_0. auto.
  - assert (HI : forall e', In e' (statements es t) -> stmt_code P C e') by (intros e' He; apply H; right; exact He). specialize (IH HI). specialize (H e (or_introl eq_refl)).
    eapply ED_ext with (m := visit e ;;; emit OpPop ;;; each (fun e => visit e ;;; emit OpPop) es ;;; match t with Some e => visit e | None => emit OpPushUnit end).
    { intros s. cbn [each]. unfold bind. destruct (visit e s) as [[? ?]| | |]; [|reflexivity..]. destruct (emit OpPop c) as [[? ?]| | |]; reflexivity. }
    assert (X : ED P (adds_all (statements es t)) C (fns (EBlock es t)) (emit OpPop ;;; each (fun e => visit e ;;; emit OpPop) es ;;; match t with Some e => visit e | None => emit OpPushUnit end)
      (fun G k _ p q => exists p1, at_ (g_bc G) p (INone OpPop) p1 /\ (all_kept (statements es t) (g_vars G) (g_loop G) -> items_code code t (drop (List.length (adds_all (statements es t))) G) k es p1 q G))).
    { eapply (ED_then lit [] (adds_all (statements es t)) 0 (fns (EBlock es t))); [apply EE_emit; reflexivity|exact IH|reflexivity|apply app_nil_r|].
      cbn beta. intros G k b p q u p1 X1 X2. rewrite Nat.add_0_r in X2. eauto. }
    eapply (ED_then lit (adds e) (adds_all (statements es t)) (fns e) (fns (EBlock es t))); [exact H|exact X| |symmetry; apply adds_all_cons|].
    + cbn [fns map]. change (list_sum (fns e :: map fns es)) with (fns e + list_sum (map fns es)). lia.
    + cbn beta. intros G k b p q u p1 X1 (p2 & X2 & X3) HK. cbn [items_code]. change (statements (e :: es) t) with (e :: statements es t) in *. rewrite adds_all_cons, app_length, <- drop_drop.
      exists (drop (List.length (adds_all (statements es t))) G), p1, p2. split; [apply X1; exact (HK e _ (or_introl eq_refl))|]. split; [exact X2|]. apply X3. intros e' d He. apply HK. right. exact He.
Qed.

Definition block_names (es : list expr) (t : option expr) : list string := adds_all (statements es t) ++ rev (hoisted es t).
Lemma names_length es t : List.length (block_names es t) = List.length (adds_all (statements es t)) + List.length (hoisted es t).
Proof. unfold block_names. rewrite app_length, rev_length. reflexivity. Qed.
Lemma EE_block_code P C es t looping : moving [] C (fns (EBlock es t)) (visit_block visit looping es t) -> (forall e, In e (statements es t) -> stmt_code (stmt_of P) C e) ->
  EE P C (fns (EBlock es t)) (visit_block visit looping es t)
    (fun G k _ p q => (forall vs, map fst vs = block_names es t -> (forall x, In (x, true) vs -> In x C) -> all_kept (statements es t) (vs ++ g_vars G) (g_loop G)) -> block_code code looping (g_in G) k es t p q).
Proof.
  intros HM H. set (tl := if looping then emit OpPop else ret tt).
  assert (EX : forall s, bind (m_push_scope KBlock None) (fun _ => bind (scan_item_decls es t ;;; visit_block_body visit es t ;;; tl) (fun _ => bind visit_close_upvalues (fun _ => bind m_pop_scope (fun _ => ret tt)))) s = visit_block visit looping es t s).
  { intros s. unfold visit_block. fold tl. unfold bind. destruct (m_push_scope KBlock None s) as [[? s1]| | |]; [|reflexivity..]. destruct (scan_item_decls es t s1) as [[? s2]| | |]; [|reflexivity..].
    destruct (visit_block_body visit es t s2) as [[? s3]| | |]; [|reflexivity..]. destruct (tl s3) as [[? s4]| | |]; reflexivity. }
  eapply ED_ext; [exact EX|].
  assert (X1 : ED (stmt_of P) (adds_all (statements es t)) C (fns (EBlock es t)) (visit_block_body visit es t ;;; tl)
    (fun G k _ p q => exists p1, (all_kept (statements es t) (g_vars G) (g_loop G) -> items_code code t (drop (List.length (adds_all (statements es t))) G) k es p p1 G) /\ if looping then at_ (g_bc G) p1 (INone OpPop) q else p1 = q)).
  { eapply (ED_then lit (adds_all (statements es t)) [] (fns (EBlock es t)) 0) with (R2 := fun G _ _ p q => if looping then at_ (g_bc G) p (INone OpPop) q else p = q); [exact (ED_body _ _ _ _ H)| |lia|reflexivity|].
    - unfold tl. destruct looping; [apply EE_emit; reflexivity|]. eapply ED_post; [apply ED_ret|]. cbn beta. intros G k b p q (_ & <-). reflexivity.
    - cbn beta. cbn [List.length]. intros G k b p q u p1. rewrite drop_0. intros Y1 Y2. eauto. }
  assert (X2 : ED (stmt_of P) (block_names es t) C (fns (EBlock es t)) (scan_item_decls es t ;;; visit_block_body visit es t ;;; tl)
    (fun G k _ p q => exists p1, hoists (drop (List.length (block_names es t)) G) (hoisted es t) (drop (List.length (adds_all (statements es t))) G) /\
      (all_kept (statements es t) (g_vars G) (g_loop G) -> items_code code t (drop (List.length (adds_all (statements es t))) G) k es p p1 G) /\ if looping then at_ (g_bc G) p1 (INone OpPop) q else p1 = q)).
  { eapply (ED_then lit (rev (hoisted es t)) (adds_all (statements es t)) 0 (fns (EBlock es t))); [apply (ED_hoists lit _ C es t)|exact X1|reflexivity|reflexivity|].
    cbn beta. intros G k b p q u p1 (<- & Y1) (p2 & Y2 & Y3). rewrite drop_drop in Y1. rewrite names_length. rewrite Nat.add_0_r in Y2. eauto. }
  eapply ED_post; [eapply EE_block; [intros s u s' W E; rewrite EX in E; exact (HM _ _ _ W E)|exact X2]|].
  cbn beta. intros G k [] p q (vs & p1 & V1 & V2 & (p2 & Y1 & Y2 & Y3) & Y4) HK.
  assert (VL : List.length vs = List.length (block_names es t)) by (rewrite <- V1, map_length; reflexivity). rewrite (drop_extend vs (g_in G) _ VL) in Y1.
  exists vs, (drop (List.length (adds_all (statements es t))) (extend vs (g_in G))), p2, p1. split; [exact Y1|]. split; [apply Y2; exact (HK vs V1 V2)|]. split; [exact Y3|exact Y4].
Qed.

(** Function bodies. *)
Definition fn_inside (kept : list string) : place := Place false Fresh true true false kept.
Lemma lookup_none x (vs : vars) : ~ In x (map fst vs) -> lookup x vs = None.
Proof. induction vs as [|[y fl] vs IH]; [reflexivity|]. cbn. intros H. destruct (String.eqb_spec x y); [exfalso; auto|]. apply IH. auto. Qed.
Lemma rets_extend vs G p q : g_vars G = [] -> (forall t, g_fn G = Some (Returning (Some t)) -> ~ In (ta_name t) (map fst vs)) -> rets (extend vs G) p q -> rets G p q.
Proof.
  intros HV HT. unfold rets. cbn [extend g_fn g_bc]. destruct (g_fn G) as [[[t|]|]|]; auto. intros (p1 & H1 & H2). exists p1. split; [|exact H2]. specialize (HT t eq_refl). revert H1. unfold loads. cbn [extend g_vars g_ups g_outer g_bc]. rewrite HV, app_nil_r.
  rewrite (lookup_none _ _ HT); auto.
Qed.
Lemma lookup_last x fl (vs : vars) : ~ In x (map fst vs) -> lookup x (vs ++ [(x, fl)]) = Some (0, fl).
Proof. induction vs as [|[y f] vs IH]; cbn; [rewrite String.eqb_refl; reflexivity|]. intros H. destruct (String.eqb_spec x y); [exfalso; auto|]. apply IH. auto. Qed.
Lemma flagged_last n x (vs : vars) : flagged n (vs ++ [(x, false)]) = flagged (S n) vs.
Proof.
  induction vs as [|[y f] vs IH]; [reflexivity|]. cbn [app flagged]. rewrite IH, app_length. cbn [List.length]. replace (n + (List.length vs + 1)) with (S n + List.length vs) by lia. reflexivity.
Qed.
Lemma map_last (vs : vars) l x : map fst vs = l ++ [x] -> exists vs' f, vs = vs' ++ [(x, f)] /\ map fst vs' = l.
Proof.
  intros E. destruct vs as [|v vs] using rev_ind; [destruct l; discriminate|]. rewrite map_app in E. cbn [map] in E. apply app_inj_tail in E. destruct E as (E1 & E2).
  exists vs, (snd v). rewrite <- E2. destruct v. auto.
Qed.
(** How a function ends: with its value, or with the object it constructs. *)
Definition ending (fk : fn_kind) (G : ctx) (p q : nat) : Prop :=
  match fk with
  | FkConstructor _ => exists j fl p1 p2, lookup "self" (g_vars G) = Some (j, fl) /\ at_ (g_bc G) p (INone OpPop) p1 /\ at_ (g_bc G) p1 (IByte OpLoadLocal j) p2 /\ at_ (g_bc G) p2 (INone OpReturn) q
  | _ => rets G p q
  end.
Lemma end_scopes fk s u s' : wf s -> fn_end fk s = Ok (u, s') -> scopes s' = scopes s.
Proof.
  intros W E. destruct fk; cbn [fn_end] in E; try exact (return_scopes s u s' W E).
  apply bind_ok in E. destruct E as (l & s1 & E1 & E). apply local_ok in E1. destruct E1 as (-> & ->). destruct (find_local SELF (scopes s)) as [v|]; [|discriminate].
  apply bind_ok in E. destruct E as (u1 & s1 & E1 & E). apply bind_ok in E. destruct E as (u2 & s2 & E2 & E). rewrite (asm_scopes _ _ _ _ E), (asm_scopes _ _ _ _ E2), (asm_scopes _ _ _ _ E1). reflexivity.
Qed.
Lemma EE_end P C fk : EE P C 0 (fn_end fk) (fun G _ _ p q => (exists r, g_fn G = Some r) -> ending fk G p q).
Proof.
  destruct fk; cbn [fn_end ending]; try apply EE_return.
  eapply (EE_seq lit 0 0) with (R2 := fun a G _ _ p q => found G "self" a -> exists j fl p1 p2, lookup "self" (g_vars G) = Some (j, fl) /\ at_ (g_bc G) p (INone OpPop) p1 /\ at_ (g_bc G) p1 (IByte OpLoadLocal j) p2 /\ at_ (g_bc G) p2 (INone OpReturn) q);
    [apply EE_local|intros [v|]; [|apply ED_panic]|reflexivity|cbn beta; intros G k0 b p q a p1 (<- & H1) H2 _; exact (H2 H1)].
  eapply (EE_then lit 0 0) with (R2 := fun G _ _ p q => exists p1, at_ (g_bc G) p (IByte OpLoadLocal (u8_of (sv_slot v))) p1 /\ at_ (g_bc G) p1 (INone OpReturn) q); [apply EE_emit; reflexivity| |reflexivity|].
  - eapply (EE_then lit 0 0); [apply EE_emit_u8; reflexivity|apply EE_emit; reflexivity|reflexivity|]. cbn beta. intros G k0 b p q u p1 H1 H2. eauto.
  - cbn beta. intros G k0 b p q u p1 H1 (p2 & H2 & H3) ((fl & H4) & H5). rewrite H5 in H2. eauto 10.
Qed.
Definition fn_names (self : string) (args : list fn_arg) (es : list expr) (t : option expr) : list string := block_names es t ++ rev (self :: map fa_name args).
Lemma EE_fn_block kept C fk args self rest es t : let m := visit_fn_block fk args es t (visit_block_body visit es t) in takes (unnamed fk) args self rest ->
  moving [] C (fns (EBlock es t)) m -> (forall e, In e (statements es t) -> stmt_code (fn_place kept) C e) ->
  EE (fn_inside kept) C (fns (EBlock es t)) m
    (fun G k _ p q => exists vs p1, map fst vs = fn_names self rest es t /\ (forall x, In (x, true) vs -> In x C) /\
      (exists fl G1 G2 p2 p3, has_room (g_in G) /\ params_code (extend [(self, fl)] (g_in G)) rest p p2 G1 /\ hoists G1 (hoisted es t) G2 /\
        (all_kept (statements es t) (vs ++ g_vars G) (g_loop G) -> items_code code t G2 k es p2 p3 (extend vs (g_in G))) /\ closes (g_bc G) (flagged (List.length (g_vars G)) vs) p3 p1) /\
      ((exists r, g_fn G = Some r) -> ending fk (extend vs (g_in G)) p1 q)).
Proof.
  intros m HA HM H.
  set (m' := bind (m_push_scope KBlock None) (fun _ => bind (visit_args (unnamed fk) args ;;; scan_item_decls es t ;;; visit_block_body visit es t) (fun _ => bind visit_close_upvalues (fun _ => bind (fn_end fk) (fun _ => bind m_pop_scope (fun _ => ret tt)))))).
  assert (EM : forall s, bind (fn_start fk es t) (fun _ => m') s = m s).
  { intros s. unfold m, m', visit_fn_block. fold (fn_end fk). fold (fn_start fk es t). fold (unnamed fk). unfold bind. destruct (fn_start fk es t s) as [[? s0]| | |]; [|reflexivity..]. destruct (m_push_scope KBlock None s0) as [[? s1]| | |]; [|reflexivity..]. destruct (visit_args (unnamed fk) args s1) as [[? s2]| | |]; [|reflexivity..].
    destruct (scan_item_decls es t s2) as [[? s3]| | |]; [|reflexivity..]. destruct (visit_block_body visit es t s3) as [[? s4]| | |]; reflexivity. }
  assert (SE : (exists e, forall s, fn_start fk es t s = fail e s) \/ forall s, fn_start fk es t s = ret tt s).
  { destruct fk as [| | |[|]]; try (right; reflexivity). cbn [fn_start]. unfold assert_super_call. destruct (block_items es t) as [|x l]; [left; eexists; reflexivity|]. destruct x; try (left; eexists; reflexivity). right. reflexivity. }
  destruct SE as [(e & SE)|SE].
  { eapply ED_ext with (m := fail e); [|apply ED_fail]. intros s. rewrite <- EM. unfold bind. rewrite SE. reflexivity. }
  assert (EX : forall s, m' s = m s) by (intros s; rewrite <- EM; unfold bind; rewrite SE; reflexivity). clear EM SE.
  eapply ED_ext; [exact EX|]. subst m'.
  assert (X2 : ED (fn_place kept) (block_names es t) C (fns (EBlock es t)) (scan_item_decls es t ;;; visit_block_body visit es t)
    (fun G k _ p q => hoists (drop (List.length (block_names es t)) G) (hoisted es t) (drop (List.length (adds_all (statements es t))) G) /\
      (all_kept (statements es t) (g_vars G) (g_loop G) -> items_code code t (drop (List.length (adds_all (statements es t))) G) k es p q G))).
  { eapply (ED_then lit (rev (hoisted es t)) (adds_all (statements es t)) 0 (fns (EBlock es t))); [apply (ED_hoists lit _ C es t)|exact (ED_body _ _ _ _ H)|reflexivity|reflexivity|].
    cbn beta. intros G k b p q u p1 (<- & Y1) Y2. rewrite drop_drop in Y1. rewrite names_length. rewrite Nat.add_0_r in Y2. auto. }
  assert (X3 : ED (fn_place kept) (fn_names self rest es t) C (fns (EBlock es t)) (visit_args (unnamed fk) args ;;; scan_item_decls es t ;;; visit_block_body visit es t)
    (fun G k _ p q => exists fl G1 p1, has_room (drop (List.length (fn_names self rest es t)) G) /\ params_code (extend [(self, fl)] (drop (List.length (fn_names self rest es t)) G)) rest p p1 G1 /\
      hoists G1 (hoisted es t) (drop (List.length (adds_all (statements es t))) G) /\
      (all_kept (statements es t) (g_vars G) (g_loop G) -> items_code code t (drop (List.length (adds_all (statements es t))) G) k es p1 q G))).
  { eapply (ED_then lit (rev (self :: map fa_name rest)) (block_names es t) 0 (fns (EBlock es t))); [apply (ED_params lit _ C _ _ _ _ HA)|exact X2|reflexivity|reflexivity|].
    cbn beta. intros G k b p q u p1 (fl & G0 & E0 & Y0 & Y1) (Y2 & Y3). rewrite drop_drop in E0. assert (LN : List.length (fn_names self rest es t) = List.length (block_names es t) + S (List.length rest)).
    { unfold fn_names. rewrite app_length, rev_length. cbn [List.length]. rewrite map_length. reflexivity. }
    rewrite LN. subst G0. rewrite Nat.add_0_r in Y3. eauto 8. }
  eapply ED_post; [eapply (EE_block_tail lit (fn_inside kept)); [intros s u s' W E; exact (end_scopes fk s u s' W E)|intros s u s' W E; rewrite EX in E; exact (HM _ _ _ W E)|exact X3|apply EE_end]|].
  cbn beta. intros G k [] p q (vs & p1 & p2 & V1 & V2 & (fl & G1 & p3 & Y1 & Y2 & Y3 & Y4) & Y5 & Y6).
  assert (VL : List.length vs = List.length (fn_names self rest es t)) by (rewrite <- V1, map_length; reflexivity). rewrite (drop_extend vs (g_in G) _ VL) in Y1, Y2.
  exists vs, p2. split; [exact V1|]. split; [exact V2|]. split; [|exact Y6]. exists fl, G1, (drop (List.length (adds_all (statements es t))) (extend vs (g_in G))), p3, p1. auto 10.
Qed.
(** The code of a function, in the form of the code relation. *)
Definition fn_guard (fk : fn_kind) (self : string) (args : list fn_arg) (ret : option type_ann) (C : list string) (es : list expr) (t : option expr) : Prop :=
  (forall vs, map fst vs = fn_names self args es t -> (forall x, In (x, true) vs -> In x C) -> all_kept (statements es t) vs None) /\
  match fk with
  | FkConstructor _ => self = "self" /\ ~ In self C /\ ~ In self (block_names es t) /\ ~ In self (map fa_name args)
  | _ => forall ty, ret = Some ty -> ~ In (ta_name ty) (fn_names self args es t)
  end.
Lemma fn_body_of fk self args ret C es t id k G ups q vs p1 : fn_guard fk self args ret C es t ->
  let G0 := fn_scene (fn_code (lit id)) ups (role_for fk ret) G in bc_upvalue_count (fn_code (lit id)) = List.length ups ->
  map fst vs = fn_names self args es t -> (forall x, In (x, true) vs -> In x C) ->
  (exists fl G1 G2 p2 p3, has_room (g_in G0) /\ params_code (extend [(self, fl)] (g_in G0)) args 0 p2 G1 /\ hoists G1 (hoisted es t) G2 /\
    (all_kept (statements es t) (vs ++ g_vars G0) (g_loop G0) -> items_code code t G2 k es p2 p3 (extend vs (g_in G0))) /\ closes (g_bc G0) (flagged (List.length (g_vars G0)) vs) p3 p1) ->
  ((exists r, g_fn G0 = Some r) -> ending fk (extend vs (g_in G0)) p1 q) ->
  fn_body lit code id self args (role_for fk ret) k es t (level_of G :: g_outer G) ups.
Proof.
  intros (HK & HR) G0 HU V1 V2 (fl & G1 & G2 & p2 & p3 & Y1 & Y2 & Y3 & Y4 & Y5) Y6. set (ro := role_for fk ret) in *.
  change (g_in G0) with (fn_ctx lit id ro (level_of G :: g_outer G) ups) in *. change (g_bc G0) with (g_bc (fn_ctx lit id ro (level_of G :: g_outer G) ups)) in *. change (g_vars G0) with (@nil (string * bool)) in *. change (g_loop G0) with (@None loopinfo) in *. change (g_fn G0) with (Some ro) in *.
  rewrite app_nil_r in Y4. exists fl, G1, G2, vs, p2, p3, p1, q. split; [exact HU|]. split; [exact Y1|]. split; [exact Y2|]. split; [exact Y3|]. split; [exact (Y4 (HK vs V1 V2))|].
  specialize (Y6 (ex_intro _ ro eq_refl)).
  assert (RT : ro = Returning ret -> ending fk (extend vs (fn_ctx lit id ro (level_of G :: g_outer G) ups)) p1 q = rets (extend vs (fn_ctx lit id ro (level_of G :: g_outer G) ups)) p1 q ->
    (forall ty, ret = Some ty -> ~ In (ta_name ty) (fn_names self args es t)) -> match ro with Returning _ => closes (g_bc (fn_ctx lit id ro (level_of G :: g_outer G) ups)) (flagged 0 vs) p3 p1 /\ rets (fn_ctx lit id ro (level_of G :: g_outer G) ups) p1 q | Constructing => False end).
  { intros -> RE HT. split; [exact Y5|]. rewrite RE in Y6. apply (rets_extend vs); [reflexivity|intros ty [= E]; rewrite V1; apply HT; exact E|exact Y6]. }
  destruct fk; try exact (RT eq_refl eq_refl HR). clear RT. destruct HR as (-> & R1 & R2 & R3).
  unfold fn_names in V1. cbn [rev] in V1. rewrite app_assoc in V1. destruct (map_last _ _ _ V1) as (vs' & f & -> & V3).
  assert (f = false) as ->. { destruct f; [|reflexivity]. exfalso. apply R1, V2. rewrite in_app_iff. right. left. reflexivity. }
  exists vs'. rewrite flagged_last in Y5. cbn [ending extend g_vars g_bc] in Y6. destruct Y6 as (j & fl' & q1 & q2 & Z1 & Z2 & Z3 & Z4). change (g_vars (fn_ctx lit id ro (level_of G :: g_outer G) ups)) with (@nil (string * bool)) in Z1. rewrite app_nil_r, lookup_last in Z1.
  - injection Z1 as <- <-. eauto 10.
  - rewrite V3, in_app_iff, <- in_rev. intros [X|X]; auto.
Qed.
Lemma compile_body args ret_ fk body s r : compile_fn visit args ret_ fk body s = Ok r ->
  bind (push_context (kind_of fk ret_)) (fun _ => bind (visit_fn_block fk args (fst (body_parts body)) (snd (body_parts body)) (visit_block_body visit (fst (body_parts body)) (snd (body_parts body)))) (fun _ => pop_context)) s = Ok r.
Proof.
  assert (ONE : (push_context (kind_of fk ret_) ;;; visit_fn_block fk args [] (Some body) (visit body) ;;; pop_context) s =
    (push_context (kind_of fk ret_) ;;; visit_fn_block fk args [] (Some body) (visit_block_body visit [] (Some body)) ;;; pop_context) s) by reflexivity.
  rewrite compile_fn_start. intros E. destruct r as [c0 r]. apply bind_ok in E. destruct E as (u & s1 & E1 & E). assert (s1 = s) as -> by (destruct fk, ret_; cbv [fail ret] in E1; congruence). rewrite <- E.
  destruct body; try (symmetry; exact ONE); reflexivity.
Qed.
End BodyCode.
