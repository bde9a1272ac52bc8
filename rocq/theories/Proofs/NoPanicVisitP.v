(** Every visitor of a tame tree runs to its end or reports an error. *)
From Coq Require Import Lia.
From Verif.Model Require Import Compiler.
From Verif.Spec Require Import PanicSpec StaticTop PanicTop.
From Verif.Proofs Require Import CodecP AssemblerP CaptureP ExprInd WellFormedP StaticP StaticVisitP NoPanicP.

Create HintDb calm discriminated.
#[export] Hint Resolve c_ret c_fail c_emit c_emit_u8 c_emit_c c_emit_lftl c_emit_clo c_jump_back c_here c_local c_top c_entry
  c_get_context c_get_temps c_put_temps c_fresh c_resolve : calm.
Ltac ct := cbv beta iota; first
  [ solve [auto with calm]
  | match goal with
    | |- calm (match ?x with _ => _ end) => destruct x; ct
    | |- calm (bind _ _) => apply c_bind; [ct | intros; ct]
    | |- calm (each _ _) => apply c_each; intros; ct
    | |- calm (times _ _) => apply c_times; ct
    end ].
Lemma c_get_kind : calm get_kind. Proof. unfold get_kind. ct. Qed.
Lemma c_push_bool b : calm (push_bool b). Proof. unfold push_bool. ct. Qed.
Lemma c_ident x : calm (visit_ident x). Proof. unfold visit_ident. ct. Qed.
#[export] Hint Resolve c_get_kind c_push_bool c_ident : calm.
Lemma c_int z : calm (visit_int z). Proof. unfold visit_int. ct. Qed.
Lemma c_float z : calm (visit_float z). Proof. unfold visit_float. ct. Qed.
Lemma c_local_type t n : calm (visit_local_type t n). Proof. unfold visit_local_type. ct. Qed.
Lemma c_close_vars vs : calm (close_vars vs). Proof. unfold close_vars. ct. Qed.
#[export] Hint Resolve c_close_vars : calm.
Lemma c_close : calm visit_close_upvalues. Proof. unfold visit_close_upvalues. ct. Qed.
Lemma c_return : calm visit_return. Proof. unfold visit_return. ct. Qed.
Lemma c_drop n : calm (drop_temps n). Proof. unfold drop_temps. ct. Qed.
Lemma c_compiled x i c : calm (emit_compiled x i c). Proof. unfold emit_compiled. cbv zeta. ct. Qed.
Lemma c_fields l : calm (emit_fields_to_locals l). Proof. unfold emit_fields_to_locals. ct. Qed.
Lemma c_unique a : calm (assert_unique_params a). Proof. unfold assert_unique_params. ct. Qed.
Lemma c_super_call es t : calm (assert_super_call es t). Proof. unfold assert_super_call. ct. Qed.
#[export] Hint Resolve c_int c_float c_local_type c_close c_return c_drop c_compiled c_fields c_unique c_super_call : calm.
Lemma c_super_access f k : calm (visit_super_access f k). Proof. unfold visit_super_access. ct. Qed.
Lemma c_operator o : o <> AAssign -> calm (visit_operator o).
Proof. intros H. destruct o; try congruence; apply c_emit. Qed.
Lemma calm_runs {T} (m : M T) J V : calm m -> runs J V m V none.
Proof. auto. Qed.

(** Constructors declare [self], modules their export object. *)
Definition inv (c : compiler_kind) (E : sorts) : Prop :=
  (c = KConstructor -> sort_of "self" E <> None) /\ (c = KModule -> sort_of "#export" E <> None).
Lemma sort_more x D E : sort_of x E <> None -> sort_of x (D ++ E) <> None.
Proof. rewrite sort_app. now destruct (sort_of x D). Qed.
Lemma inv_app c D E : inv c E -> inv c (D ++ E).
Proof. intros [A B]. split; intros H; apply sort_more; auto. Qed.
Lemma inv_cons c p E : inv c E -> inv c (p :: E).
Proof. apply (inv_app c [p]). Qed.

(** [m], standing where the names [E] are declared, adds [D] to the innermost scope if [A E] holds. *)
Definition says {T} (m : M T) (D : sorts) (A : sorts -> bool) : Prop :=
  forall J c vs n scs o, inv c (vs ++ known scs) -> A (vs ++ known scs) = true ->
  runs J ((c, KS vs n :: scs) :: o) m ((c, KS (D ++ vs) n :: scs) :: o) none.
Definition spk (x : expr) : Prop := says (visit x) (plain (decls x)) (fun E => tame E x).

Lemma y_calm {T} (m : M T) : calm m -> says m [] yes.
Proof. intros C J c vs n scs o _ _. apply C. Qed.
Lemma y_bind {T U} (m : M T) (f : T -> M U) D1 A1 D2 A2 :
  says m D1 A1 -> (forall a, says (f a) D2 A2) -> says (bind m f) (D2 ++ D1) (fun E => A1 E && A2 (D1 ++ E)).
Proof.
  intros Hm Hf J c vs n scs o I H. apply andb_prop in H as [H1 H2]. eapply r_bind; [now apply Hm|]. intros a. cbn [none app].
  rewrite <- app_assoc. apply Hf; rewrite <- app_assoc; auto using inv_app.
Qed.
Lemma y_conv {T} (m : M T) D A D' A' : says m D A -> D = D' -> (forall E, A' E = true -> A E = true) -> says m D' A'.
Proof. intros H <- HA J c vs n scs o I E. apply H; auto. Qed.
Lemma y_then {T U} (m : M T) (f : T -> M U) D A : calm m -> (forall a, says (f a) D A) -> says (bind m f) D A.
Proof. intros C Hf J c vs n scs o I H. apply r_then; [exact C|]. intros a. now apply Hf. Qed.
Lemma y_after {T} (m : M T) (f : T -> M unit) D A : says m D A -> (forall a, calm (f a)) -> says (bind m f) D A.
Proof.
  intros Hm C. eapply y_conv; [apply y_bind; [exact Hm|intros a; apply y_calm, C]|reflexivity|].
  intros E H. cbn. now rewrite H.
Qed.
(** The same without conditions. *)
Definition puts {T} (m : M T) (D : sorts) : Prop := forall J c vs n scs o,
  runs J ((c, KS vs n :: scs) :: o) m ((c, KS (D ++ vs) n :: scs) :: o) none.
Lemma y_puts {T} (m : M T) D : puts m D -> says m D yes.
Proof. intros H J c vs n scs o _ _. apply H. Qed.
Lemma p_calm {T} (m : M T) : calm m -> puts m [].
Proof. intros C J c vs n scs o. apply C. Qed.
Lemma p_bind {T U} (m : M T) (f : T -> M U) D1 D2 D : puts m D1 -> (forall a, puts (f a) D2) -> D = D2 ++ D1 -> puts (bind m f) D.
Proof.
  intros Hm Hf -> J c vs n scs o. eapply r_bind; [apply Hm|]. intros a. cbn [none app]. rewrite <- app_assoc. apply Hf.
Qed.
Lemma p_after {T} (m : M T) (f : T -> M unit) D : puts m D -> (forall a, calm (f a)) -> puts (bind m f) D.
Proof. intros Hm C. eapply p_bind; [exact Hm|intros; apply p_calm, C|reflexivity]. Qed.
Lemma p_add x st : puts (m_add_local x st) [(x, sort_state st)].
Proof. intros J c vs n scs o. apply r_add. Qed.

(** Code that jumps over [m]. *)
Lemma y_jump {T} o (m : nat -> M T) D A :
  (forall J c vs n scs o j, In j J -> inv c (vs ++ known scs) -> A (vs ++ known scs) = true ->
    runs J ((c, KS vs n :: scs) :: o) (m j) ((c, KS (D ++ vs) n :: scs) :: o) none) ->
  says (j <- jump o ;; m j) D A.
Proof.
  intros H J c vs n scs oo I HA. eapply r_bind; [apply r_jump|]. intros j. apply H; auto. now left.
Qed.
Lemma y_over {T} (m : M T) j D A J c vs n scs o : says m D A -> In j J -> inv c (vs ++ known scs) -> A (vs ++ known scs) = true ->
  runs J ((c, KS vs n :: scs) :: o) (bind m (fun _ => patch j)) ((c, KS (D ++ vs) n :: scs) :: o) none.
Proof.
  intros Hm Hj I HA. eapply r_bind; [now apply Hm|]. intros a. cbn [none app]. now apply r_patch.
Qed.
(** A scope around [m]. *)
Lemma y_scope {T U} kind e (m : M T) (f : T -> scope -> M U) D A :
  says m D A -> (forall a sc J V, incl (sc_exits sc) J -> runs J V (f a sc) V none) ->
  says (m_push_scope kind e ;;; a <- m ;; sc <- m_pop_scope ;; f a sc) [] A.
Proof.
  intros Hm Hf J c vs n scs o I HA. eapply r_bind; [apply r_push|]. intros u. cbn [none app].
  eapply r_bind; [apply Hm; [exact I|exact HA]|]. intros a. cbn [none app].
  eapply r_bind; [apply r_pop|]. intros sc. apply Hf. apply incl_appl, incl_refl.
Qed.
(** A function body. *)
Lemma r_function k (m : M unit) scs' : (forall o, runs [] ((k, [KS [] 0]) :: o) m ((k, scs') :: o) none) ->
  calm (push_context k ;;; m ;;; pop_context).
Proof.
  intros Hm J V s K F P. unfold bind at 1, push_context.
  set (s1 := CState (context_new k :: cs_stack s) (cs_next_id s)).
  assert (K1 : kv s1 = (k, [KS [] 0]) :: kv s) by reflexivity.
  assert (F1 : fine s1). { unfold fine, s1. cbn [cs_stack]. constructor; [|exact F]. constructor; [split; constructor|constructor]. }
  specialize (Hm (kv s) s1 K1 F1 (pending_nil _)). unfold bind.
  destruct (m s1) as [[u s2]|e| |]; try tauto. destruct Hm as (K2 & F2 & G2 & _).
  unfold pop_context. unfold kv in K2. unfold fine in F2. unfold grows in G2. unfold s1 in G2. cbn [cs_stack] in G2.
  destruct (cs_stack s2) as [|c2 r2] eqn:E2; [exact Logic.I|]. cbn [map] in K2. injection K2 as _ _ K2.
  inversion F2; subst. inversion G2; subst. split; [exact K2|]. split; [assumption|]. split; [assumption|apply pending_nil].
Qed.

(** * Pieces *)
Lemma y_each (f : expr -> M unit) l : (forall x, In x l -> says (f x) (plain (decls x)) (fun E => tame E x)) ->
  says (each f l) (plain (decls_seq decls l)) (fun E => tame_seq tame E l).
Proof.
  induction l as [|x l IH]; intros H; cbn [each].
  - apply y_calm, c_ret.
  - eapply y_conv; [apply y_bind; [apply H; now left|intros; apply IH; intros; apply H; now right]| |].
    + cbn [decls_seq]. unfold plain. now rewrite map_app.
    + auto.
Qed.
Lemma p_scan e : puts (scan_expr e) (hoisted_sorts [e]).
Proof.
  induction e; cbn [scan_expr]; try (apply p_calm, c_ret).
  - apply p_after; [apply (p_add name (SFunction false))|intros; apply c_ret].
  - apply p_after; [apply (p_add name (SClass false))|intros; apply c_ret].
  - exact IHe.
Qed.
Lemma sorts_cons x l : hoisted_sorts (x :: l) = hoisted_sorts l ++ hoisted_sorts [x].
Proof. unfold hoisted_sorts. cbn [collect]. destruct (hoisted_sort x); [reflexivity|now rewrite app_nil_r]. Qed.
Lemma p_scan_items es t : puts (scan_item_decls es t) (hoisted_sorts (items_of es t)).
Proof.
  unfold scan_item_decls. change (block_items es t) with (items_of es t). induction (items_of es t) as [|x l IH]; cbn [each].
  - apply p_calm, c_ret.
  - eapply p_bind; [apply p_scan|intros; apply IH|apply sorts_cons].
Qed.
Lemma plain_app a b : plain (a ++ b) = plain a ++ plain b.
Proof. apply map_app. Qed.
Lemma p_add_locals l : puts (add_locals l) (plain (immutable l)).
Proof.
  induction l as [|x l IH]; cbn [add_locals]; [apply p_calm, c_ret|].
  eapply p_bind; [apply p_add|intros; eapply p_bind; [apply IH|intros; apply p_calm, c_ret|reflexivity]|].
  rewrite immutable_cons, plain_app. reflexivity.
Qed.
Lemma p_args b args : puts (visit_args b args) (plain (params args ++ if b then [("", false)] else [])).
Proof.
  assert (H : puts (each (fun arg => slot <- m_add_local (fa_name arg) (SLocal false true) ;; visit_local_type (fa_type arg) slot) args)
                   (plain (params args))).
  { induction args as [|x l IH]; cbn [each]; [apply p_calm, c_ret|].
    eapply p_bind; [apply p_after; [apply p_add|intros; apply c_local_type]|intros; apply IH|].
    unfold params. cbn [map]. rewrite immutable_cons, plain_app. reflexivity. }
  unfold visit_args. eapply p_bind; [|intros; exact H|apply plain_app].
  destruct b; [|apply p_calm, c_ret]. apply p_after; [apply (p_add "" (SLocal false true))|intros; apply c_ret].
Qed.

Definition last_of (t : option expr) : env := match t with Some x => decls x | None => [] end.
Lemma y_block_body es t : (forall x, In x es -> spk x) -> (forall x, t = Some x -> spk x) ->
  says (visit_block_body visit es t) (plain (last_of t) ++ plain (decls_seq decls es)) (fun E => tame_statements tame t E es).
Proof.
  intros H1 H2. unfold visit_block_body.
  assert (HE : says (each (fun e => visit e ;;; emit OpPop) es) (plain (decls_seq decls es)) (fun E => tame_seq tame E es)).
  { apply y_each. intros x Hx. apply y_after; [now apply H1|intros; apply c_emit]. }
  eapply y_conv; [apply y_bind; [exact HE|]|reflexivity|].
  - intros _. instantiate (1 := fun E => match t with Some x => tame E x | None => true end).
    destruct t as [x|]; [now apply H2|]. apply y_calm, c_emit.
  - intros E H. clear H1 H2 HE. revert E H. induction es as [|x es IH]; intros E H.
    + exact H.
    + cbn [tame_statements tame_seq] in *. apply andb_prop in H as [Hx H]. apply IH in H. apply andb_prop in H as [Ha Hb].
      rewrite Hx, Ha. cbn [andb decls_seq]. rewrite plain_app, <- app_assoc. exact Hb.
Qed.
Lemma y_block b es t : (forall x, In x es -> spk x) -> (forall x, t = Some x -> spk x) ->
  says (visit_block visit b es t) [] (fun E => tame_block tame E es t).
Proof.
  intros H1 H2. unfold visit_block, tame_block.
  intros J c vs n scs o I HA. eapply r_bind; [apply r_push|]. intros u. cbn [none app].
  eapply r_bind; [apply p_scan_items|]. intros u1. cbn [none app].
  eapply r_bind; [apply y_block_body; auto; rewrite <- ?app_assoc; auto using inv_app|]. intros u2. cbn [none app].
  apply r_then; [destruct b; auto with calm|]. intros u3.
  apply r_then; [apply c_close|]. intros u4.
  eapply r_bind; [apply r_pop|]. intros sc. apply (calm_runs (ret tt)), c_ret.
Qed.

(** Function bodies: [D] are the receiver and the parameters. *)
Definition with_receiver (kind : fn_kind) : bool := match kind with FkFunction | FkStaticMethod => true | _ => false end.
Definition entry_sorts (kind : fn_kind) (args : list fn_arg) : sorts := plain (params args ++ if with_receiver kind then [("", false)] else []).
Definition kind_of (kind : fn_kind) (rt : option type_ann) : compiler_kind :=
  match kind with FkConstructor _ => KConstructor | FkMethod => KMethod rt | _ => KFunction rt end.
Lemma in_self args D : has_self args = true -> sort_of "self" (plain (params args ++ D)) <> None.
Proof.
  unfold params, immutable, plain. rewrite map_app. destruct args as [|[x t] args]; [discriminate|]. cbn [has_self fa_name map rev]. intros H. apply String.eqb_eq in H as ->.
  rewrite map_app, <- app_assoc. apply sort_more. discriminate.
Qed.
Lemma inv_entry kind rt args D : (forall c, kind = FkConstructor c -> has_self args = true) -> inv (kind_of kind rt) (D ++ entry_sorts kind args).
Proof.
  intros HS. split; intros H; [|destruct kind as [| | |k]; discriminate]. apply sort_more.
  destruct kind as [| | |k]; try discriminate. apply in_self. eauto.
Qed.
Lemma r_fn_block kind args es t body D A o rt :
  (forall c, kind = FkConstructor c -> has_self args = true) -> says body D A ->
  A (hoisted_sorts (items_of es t) ++ entry_sorts kind args) = true ->
  runs [] ((kind_of kind rt, [KS [] 0]) :: o) (visit_fn_block kind args es t body) ((kind_of kind rt, [KS [] 0]) :: o) none.
Proof.
  intros HS HB HA. unfold visit_fn_block. fold (with_receiver kind).
  apply r_then; [destruct kind as [| | |[|]]; auto with calm|]. intros u.
  eapply r_bind; [apply r_push|]. intros u1. cbn [none app].
  eapply r_bind; [apply p_args|]. intros u2. cbn [none app]. rewrite app_nil_r. fold (entry_sorts kind args).
  eapply r_bind; [apply p_scan_items|]. intros u3. cbn [none app].
  assert (I : inv (kind_of kind rt) ((hoisted_sorts (items_of es t) ++ entry_sorts kind args) ++ known [KS [] 0])).
  { rewrite <- app_assoc. unfold known. cbn [flat_map ks_vars app]. rewrite app_nil_r. now apply inv_entry. }
  eapply r_bind; [apply HB; [exact I|]|].
  { unfold known. cbn [flat_map ks_vars app]. rewrite app_nil_r. exact HA. }
  intros u4. cbn [none app].
  apply r_then; [apply c_close|]. intros u5.
  eapply r_bind; [|intros u6; eapply r_bind; [apply r_pop|intros sc; apply (calm_runs (ret tt)), c_ret]].
  instantiate (1 := none). destruct kind as [| | |k]; try apply c_return.
  apply r_local. intros l Hl. destruct l as [v|].
  - apply (calm_runs (emit OpPop ;;; emit_u8 OpLoadLocal (u8_of (sv_slot v)) ;;; emit OpReturn)). ct.
  - exfalso. destruct (inv_app _ D _ I) as [X _]. apply (X eq_refl). rewrite app_assoc. symmetry. exact Hl.
Qed.
Lemma is_block b : (exists es t, b = EBlock es t) \/ (forall es t, b <> EBlock es t).
Proof. destruct b; try (right; discriminate). left. eauto. Qed.
Lemma c_compile_fn args rt kind body A :
  (forall c, kind = FkConstructor c -> has_self args = true) ->
  (forall es t, body = EBlock es t -> exists D, says (visit_block_body visit es t) D A /\ A (hoisted_sorts (items_of es t) ++ entry_sorts kind args) = true) ->
  ((forall es t, body <> EBlock es t) -> exists D, says (visit body) D A /\ A (hoisted_sorts [body] ++ entry_sorts kind args) = true) ->
  calm (compile_fn visit args rt kind body).
Proof.
  intros HS H1 H2. unfold compile_fn. apply c_bind; [destruct kind; ct|]. intros u.
  change (match kind with FkConstructor _ => KConstructor | FkMethod => KMethod rt | _ => KFunction rt end) with (kind_of kind rt).
  apply (r_function (kind_of kind rt) _ [KS [] 0]). intros o.
  destruct (is_block body) as [(es & t & ->)|NB];
    [destruct (H1 _ _ eq_refl) as (D & HD & HA); exact (r_fn_block kind args es t _ D A o rt HS HD HA)|].
  destruct H2 as (D & HD & HA); [exact NB|]. pose proof (r_fn_block kind args [] (Some body) _ D A o rt HS HD HA) as H.
  destruct body; try exact H. now elim (NB expressions trailing).
Qed.
Lemma c_fn args rt kind body :
  (forall c, kind = FkConstructor c -> has_self args = true) ->
  (forall x, esize x <= esize body -> spk x) -> tame_body tame (entry_sorts kind args) body = true ->
  calm (compile_fn visit args rt kind body).
Proof.
  intros HS HK HT. 
  destruct (is_block body) as [(es & t & ->)|NB];
    [|apply (c_compile_fn _ _ _ _ (fun E => tame E body)); [exact HS|intros es t ->; now elim (NB es t)|]; intros _; eexists;
      split; [apply HK; reflexivity|]; destruct body; try exact HT; now elim (NB expressions trailing)].
  apply (c_compile_fn _ _ _ _ (fun E => tame_statements tame t E es)); [exact HS| |intros H; now elim (H es t)].
  intros es' t' E. injection E as <- <-. eexists. split; [apply y_block_body|exact HT].
  - intros x Hx. apply HK. rewrite size_EBlock. apply lsize_in in Hx. lia.
  - intros x ->. apply HK. rewrite size_EBlock. cbn. lia.
Qed.

(** * Visitors *)
(** One visit or one jump forward; the calm steps around it. *)
Ltac skip := repeat match goal with |- runs _ _ (bind _ _) _ _ => apply r_then; [solve [auto with calm] | intros ?] end.
Lemma known_cons vs n scs : known (KS vs n :: scs) = vs ++ known scs.
Proof. reflexivity. Qed.
Ltac side := rewrite ?known_cons, <- ?app_assoc; cbn [app]; solve [auto using inv_app, inv_cons].
Ltac vis H := eapply r_bind; [apply H; side | intros ?; cbn [none app]].
Ltac hop := eapply r_bind; [apply r_jump | intros ?; cbn [app]].
Ltac fin := first [apply calm_runs; solve [auto with calm] | apply r_patch; cbn; tauto].
Ltac close := cbn [decls decls_seq]; rewrite ?plain_app, <- ?app_assoc; reflexivity.
Ltac start := intros J c vs n scs o I HA; eapply r_conv; [| |intros ?; apply incl_nil_l].
Ltac split_and := repeat match goal with H : (_ && _)%bool = true |- _ => apply andb_prop in H as [? ?] end.

Lemma y_in_call m D A : says m D A -> says (in_call m) D A.
Proof.
  intros Hm J c vs n scs o I HA. unfold in_call.
  eapply r_bind; [apply (r_call J c vs n (S n)); cbn; auto|].
  { intros sc p Hp. apply in_or_app. now left. }
  intros u. cbn [none app]. eapply r_bind; [apply Hm; auto|]. intros u2. cbn [none app]. unfold exit_call.
  apply r_top. intros sc Hd. rewrite Hd. destruct n as [|n].
  - eapply r_bind; [apply (r_call _ c (D ++ vs) 1 0); cbn; auto|].
    { intros sc' p []. }
    intros u3. cbn [none app]. apply r_patches. apply incl_appl, incl_refl.
  - apply (r_call _ c (D ++ vs) (S (S n)) (S n)); cbn; auto.
    intros sc' p Hp. apply in_or_app. right. apply in_or_app. now left.
Qed.
Lemma y_isolated e : spk e -> says (visit_isolated visit e) (plain (decls e)) (fun E => tame E e).
Proof.
  intros He J c vs n scs o I HA. unfold visit_isolated. apply r_top. intros sc Hd.
  eapply r_bind; [apply (r_call _ c vs n 0); cbn; auto|].
  { intros sc' p []. }
  intros u. cbn [none app]. skip. vis He. apply (r_call _ c _ 0 n); cbn; auto.
  intros sc' p Hp. apply in_or_app. right. apply in_or_app. now left.
Qed.
Lemma y_call_args args : (forall x, In x args -> spk x) ->
  says (visit_call_args visit args) (plain (decls_seq decls args)) (fun E => tame_seq tame E args).
Proof.
  intros H. unfold visit_call_args. apply y_then; [apply c_get_temps|]. intros m.
  apply y_after; [apply y_each; intros; apply y_isolated; auto|intros; apply c_put_temps].
Qed.
Lemma y_fn_call f args : spk f -> (forall x, In x args -> spk x) ->
  says (visit_fn_call visit f args) (plain (decls (EFnCall f args))) (fun E => tame E (EFnCall f args)).
Proof.
  intros Hf Ha. start. cbn [tame] in HA. split_and. unfold visit_fn_call. vis Hf. vis (y_call_args args Ha). fin.
  close.
Qed.
Lemma y_super_call args : (forall x, In x args -> spk x) ->
  says (visit_super_call visit args) (plain (decls (ESuperCall args))) (fun E => tame E (ESuperCall args)).
Proof.
  intros Ha. start. cbn [tame] in HA. split_and. unfold visit_super_call. apply r_local. intros l Hl.
  destruct l as [v|]; [|exfalso].
  { skip. vis (y_call_args args Ha). skip.
 fin. }
  2: close.
  { unfold finds, known in Hl. cbn [option_map flat_map ks_vars] in Hl. unfold SELF in Hl. unfold known in *. rewrite <- Hl in *. discriminate. }
Qed.
Lemma y_index a b : spk a -> spk b -> says (visit_index visit a b) (plain (decls (EIndex a b))) (fun E => tame E (EIndex a b)).
Proof.
  intros Ha Hb. start. cbn [tame] in HA. split_and. unfold visit_index. vis Ha. vis (y_isolated b Hb).
  apply r_then; [ct|]. intros ?. fin.
  close.
Qed.
Lemma y_null_propagate e : spk e -> says (visit_null_propagate visit e) (plain (decls e)) (fun E => tame E e).
Proof.
  intros He. start. unfold visit_null_propagate. vis He. skip. hop. apply (r_call _ c _ n n); cbn; auto.
  intros sc p Hp. apply in_app_or in Hp as [Hp|[<-|[]]]; apply in_or_app; [now left|]. right. now left.
  close.
Qed.
Lemma y_error_propagate e : spk e -> says (visit_error_propagate visit e) (plain (decls e)) (fun E => tame E e).
Proof.
  intros He. start. unfold visit_error_propagate. apply r_kind.
  assert (H : runs J ((c, KS vs n :: scs) :: o)
    (visit e ;;; n <- get_temps ;; emit_u8 OpDup 0 ;;; emit_c OpLoadField (CSymbol IS_OK) ;;; j <- jump OpJumpIfTrue ;;
      drop_temps n ;;; visit_return ;;; patch j ;;; emit_c OpLoadField (CSymbol RESULT))
    ((c, KS (plain (decls e) ++ vs) n :: scs) :: o) none).
  { vis He. skip. hop. skip. eapply r_bind; [fin|]. intros ?. cbn [none app]. fin. }
  destruct c; try apply r_fail; exact H.
  close.
Qed.
Lemma y_return r : (forall x, r = Some x -> spk x) -> says (visit_return_expr visit r) (plain (decls (EReturn r))) (fun E => tame E (EReturn r)).
Proof.
  intros Hr. intros J c vs n scs o I HA. unfold visit_return_expr. apply r_kind.
  eapply r_bind; [|intros u; cbn [none app]; apply calm_runs; ct]. instantiate (1 := none).
  assert (H : runs J ((c, KS vs n :: scs) :: o) (match r with Some e => visit e | None => emit OpPushUnit end)
               ((c, KS (plain (decls (EReturn r)) ++ vs) n :: scs) :: o) none).
  { destruct r as [x|]; [apply (Hr x); auto|]. apply (calm_runs (emit OpPushUnit)), c_emit. }
  destruct c; try apply r_fail; try exact H.
  destruct r as [x|]; [apply r_fail|]. apply r_local. intros l Hl. destruct l as [v|]; [apply (calm_runs (emit_u8 _ _)), c_emit_u8|].
  exfalso. destruct I as [X _]. apply (X eq_refl). symmetry. exact Hl.
Qed.
Lemma y_if a p s : spk a -> spk p -> (forall x, s = Some x -> spk x) ->
  says (visit_if visit a p s) (plain (decls (EIf a p s))) (fun E => tame E (EIf a p s)).
Proof.
  intros Ha Hp Hs. start. cbn [tame] in HA. split_and. unfold visit_if. vis Ha. hop. vis Hp. hop.
  eapply r_bind; [fin|]. intros ?. cbn [none app].
  eapply r_bind with (R := none) (V1 := (c, KS (plain (match s with Some x => decls x | None => [] end) ++ plain (decls p) ++ plain (decls a) ++ vs) n :: scs) :: o);
    [|intros ?; cbn [none app]; fin].
  destruct s as [x|]; [apply (Hs x); side|]. apply (calm_runs (emit OpPushUnit)), c_emit.
  close.
Qed.
Lemma y_is e t : spk e -> says (visit_is visit e t) (plain (decls (EIs e t))) (fun E => tame E (EIs e t)).
Proof.
  intros He. intros J c vs n scs o I HA. unfold visit_is. cbn [tame decls] in *. destruct (ta_nullable t).
  - eapply r_conv; [| |intros ?; apply incl_nil_l]. split_and. vis He. skip. hop. skip. vis He. skip. fin.
    close.
  - eapply r_conv; [| |intros ?; apply incl_nil_l]. vis He. skip. fin.
    close.
Qed.
Lemma y_logical oc a b : spk a -> spk b -> says (visit_logical visit oc a b) (plain (decls b ++ decls a)) (fun E => tame E a && tame (plain (decls a) ++ E) b).
Proof.
  intros Ha Hb. start. split_and. unfold visit_logical. vis Ha. skip. hop. skip. vis Hb. skip. fin.
  close.
Qed.
Lemma y_binary op a b : spk a -> spk b -> says (visit_binary visit op a b) (plain (decls (EBinary op a b))) (fun E => tame E (EBinary op a b)).
Proof.
  intros Ha Hb. destruct op; try (apply y_logical; assumption); intros J c vs n scs o I HA; cbn [tame] in HA; split_and;
    (eapply r_conv; [cbn [visit_binary binary_opcode]|close|intros ?; apply incl_nil_l]);
    first [ vis Ha; vis Hb; fin | vis Hb; vis Ha; fin | vis Ha; skip; hop; skip; vis Hb; fin ].
Qed.
Lemma y_object l : (forall k x, In (k, x) l -> spk x) ->
  says (visit_object visit l) (plain (decls (ELitObject l))) (fun E => tame E (ELitObject l)).
Proof.
  intros H. unfold visit_object. apply y_then; [apply c_emit|]. intros _. cbn [decls tame].
  induction l as [|[k x] l IH]; cbn [each].
  - apply y_calm, c_ret.
  - start. cbn [tame_fields] in HA. split_and. cbn [decls_seq]. eapply r_bind.
    { apply r_then; [apply c_emit_u8|]. intros ?. vis (H k x ltac:(now left)). apply r_then; [apply c_emit_c|]. intros ?.
      apply (calm_runs (emit OpPop)), c_emit. }
    intros ?. cbn [none app]. apply IH; [intros; eapply H; right; eassumption|side|side].
    close.
Qed.
Lemma y_list l : (forall x, In x l -> spk x) -> says (visit_list visit l) (plain (decls (ELitList l))) (fun E => tame E (ELitList l)).
Proof. intros H. unfold visit_list. apply y_after; [apply y_each; exact H|intros; apply c_emit_u8]. Qed.
Lemma y_var k m e t : spk e -> says (visit_var_decl visit k m e t) (plain (decls (EVarDecl k m e t))) (fun E => tame E (EVarDecl k m e t)).
Proof.
  intros He. intros J c vs n scs o I HA. unfold visit_var_decl. destruct k as [x|xs]; (eapply r_conv; [|close|intros ?; apply incl_nil_l]); vis He.
  - eapply r_bind; [apply r_add|]. intros ?. cbn [none app]. skip. fin.
  - eapply r_bind; [apply p_add_locals|]. intros ?. cbn [none app]. fin.
Qed.
Lemma y_import m xs p : says (visit_import m xs p) (plain (decls (EImportDecl m xs p))) yes.
Proof.
  intros J c vs n scs o I HA. unfold visit_import. eapply r_bind; [apply p_add_locals|]. intros ?. cbn [none app]. skip.
  destruct m as [x|].
  - eapply r_conv; [| |intros ?; apply incl_nil_l]. eapply r_bind; [apply (r_add _ _ _ _ _ _ x (state_initialized false))|]. intros ?. cbn [none app]. fin.
    close.
  - apply (calm_runs (ret tt)), c_ret.
Qed.
Lemma y_assign_slot l a i m op e : spk e -> says (assign_slot visit l a i m op e) (plain (decls e)) (fun E => tame E e).
Proof.
  intros He. start. unfold assign_slot. destruct m; [|apply r_fail].
  assert (H : op <> AAssign -> runs J ((c, KS vs n :: scs) :: o)
     (emit_u8 l (u8_of i) ;;; visit e ;;; visit_operator op ;;; emit_u8 a (u8_of i)) ((c, KS (plain (decls e) ++ vs) n :: scs) :: o) none).
  { intros N. skip. vis He. apply r_then; [now apply c_operator|]. intros ?. fin. }
  destruct op; try (apply H; discriminate). vis He. fin.
  close.
Qed.
Lemma r_resolved {T} J c scs o x (f : nat -> upvalue_desc -> M T) (g : M T) V' R :
  (forall i d, runs J ((c, scs) :: o) (f i d) V' R) -> runs J ((c, scs) :: o) g V' R ->
  runs J ((c, scs) :: o)
    (u <- m_resolve_upvalue x ;;
     match u with
     | Some i => c <- get_context ;; match nth_error (cx_upvalues c) i with Some d => f i d | None => panic end
     | None => g
     end) V' R.
Proof.
  intros Hf Hg s K F P. pose proof (c_resolve x J _ s K F P) as HC. unfold bind at 1. unfold m_resolve_upvalue in *.
  destruct (resolve_upvalue x (cs_stack s)) as [[i st]|] eqn:E; [|now apply Hg].
  destruct HC as (K1 & F1 & G1 & _). unfold bind, get_context. cbn [cs_stack].
  destruct st as [|cur r]; [exact Logic.I|]. apply resolve_mutability in E as (d & E & _). rewrite E.
  pose proof (Hf i d _ K1 F1 (pending_grows _ _ _ G1 P)) as H.
  destruct (f i d (CState (cur :: r) (cs_next_id s))) as [[b s2]|e| |]; try tauto. destruct H as (? & ? & ? & ?).
  eauto using grows_trans.
Qed.
Lemma y_assignment op l e : (forall x, esize x < esize (EAssignment op l e) -> spk x) ->
  says (visit_assignment visit op l e) (plain (decls (EAssignment op l e))) (fun E => tame E (EAssignment op l e)).
Proof.
  intros IH. assert (He : spk e) by (apply IH; cbn; pose proof (esize_pos l); lia).
  destruct l; cbn [visit_assignment]; try (intros J c vs n scs o I HA; apply r_fail).
  - intros J c vs n scs o I HA. cbn [decls]. rewrite app_nil_r. cbn [tame] in HA.
    unfold assign_ident. apply r_local. intros l _. destruct l as [v|]; [now apply y_assign_slot|].
    apply (r_resolved J c (KS vs n :: scs) o name (fun i d => assign_slot visit OpLoadUpvalue OpAssignUpvalue i (upvalue_is_mutable d) op e)
             (fail VARIABLE_NOT_DECLARED)); [intros; now apply y_assign_slot|apply r_fail].
  - assert (Ho : spk l) by (apply IH; cbn; lia).
    start. cbn [tame] in HA. split_and. unfold assign_field. vis Ho.
    assert (HH : op <> AAssign -> runs J ((c, KS (plain (decls l) ++ vs) n :: scs) :: o)
       (emit_u8 OpDup 0 ;;; emit_c OpLoadField (CSymbol field) ;;; visit e ;;; visit_operator op ;;; emit_c OpAssignField (CSymbol field))
       ((c, KS (plain (decls e) ++ plain (decls l) ++ vs) n :: scs) :: o) none).
    { intros N. skip. vis He. apply r_then; [now apply c_operator|]. intros ?. fin. }
    destruct op; try (apply HH; discriminate). vis He. fin.
    close.
  - assert (Ho : spk l1) by (apply IH; cbn; lia). assert (Hi : spk l2) by (apply IH; cbn; lia).
    start. cbn [tame] in HA. split_and. unfold assign_index. vis Ho. vis Hi.
    assert (HH : op <> AAssign -> runs J ((c, KS (plain (decls l2) ++ plain (decls l1) ++ vs) n :: scs) :: o)
       (emit_u8 OpDup 1 ;;; emit_u8 OpDup 1 ;;; emit OpLoadIndex ;;; visit e ;;; visit_operator op ;;; emit OpAssignIndex)
       ((c, KS (plain (decls e) ++ plain (decls l2) ++ plain (decls l1) ++ vs) n :: scs) :: o) none).
    { intros N. skip. vis He. apply r_then; [now apply c_operator|]. intros ?. fin. }
    destruct op; try (apply HH; discriminate). vis He. fin.
    close.
Qed.

(** Loops. *)
Lemma y_while a b : (forall x, esize x < esize (EWhile a b) -> spk x) ->
  says (visit_while visit a b) [] (fun E => tame E (EWhile a b)).
Proof.
  intros IH. assert (Ha : spk a) by (apply IH; cbn; lia).
  destruct (is_block b) as [(es & t & ->)|NB]; [|intros J c vs n scs o I HA; destruct b; try apply r_fail; now elim (NB expressions trailing)].
  assert (Hb : says (visit_block visit true es t) [] (fun E => tame_block tame E es t)).
  { apply y_block.
    - intros x Hx. apply IH. cbn [esize]. rewrite lsize_fix. apply lsize_in in Hx. lia.
    - intros x ->. apply IH. cbn. lia. }
  intros J c vs n scs o I HA. cbn [tame] in HA. split_and. cbn [visit_while]. skip.
  eapply r_bind; [apply r_push|]. intros ?. cbn [none app]. vis Ha. hop. vis Hb. skip.
  eapply r_bind; [fin|]. intros ?. cbn [none app]. eapply r_bind; [apply r_pop|]. intros sc.
  eapply r_bind; [apply r_patches, incl_appl, incl_refl|]. intros ?. cbn [none app]. fin.
Qed.
Lemma y_loop b : (forall x, esize x < esize (ELoop b) -> spk x) -> says (visit_loop visit b) [] (fun E => tame E (ELoop b)).
Proof.
  intros IH.
  destruct (is_block b) as [(es & t & ->)|NB]; [|intros J c vs n scs o I HA; destruct b; try apply r_fail; now elim (NB expressions trailing)].
  assert (Hb : says (visit_block visit true es t) [] (fun E => tame_block tame E es t)).
  { apply y_block.
    - intros x Hx. apply IH. cbn [esize]. rewrite lsize_fix. apply lsize_in in Hx. lia.
    - intros x ->. apply IH. cbn. lia. }
  intros J c vs n scs o I HA. cbn [tame] in HA. cbn [visit_loop]. skip.
  eapply r_bind; [apply r_push|]. intros ?. cbn [none app]. vis Hb. skip.
  eapply r_bind; [apply r_pop|]. intros sc.
  eapply r_bind; [apply r_patches, incl_appl, incl_refl|]. intros ?. cbn [none app]. fin.
Qed.
Lemma y_range inc x lo hi b : spk lo -> spk hi -> spk b -> says (visit_range_loop visit inc x lo hi b) (plain (decls lo ++ decls hi))
  (fun E => tame E hi && tame (plain (decls hi) ++ E) lo && tame ((x, IsVariable) :: plain (decls lo) ++ plain (decls hi) ++ E) b).
Proof.
  intros Hl Hh Hb. start. split_and. unfold visit_range_loop. vis Hh. vis Hl. skip.
  eapply r_bind; [apply r_push|]. intros ?. cbn [none app]. eapply r_bind; [apply r_add|]. intros ?. cbn [none app sort_state state_initialized].
  skip. hop. vis Hb. skip. eapply r_bind; [apply r_pop|]. intros sc. skip.
  eapply r_bind; [apply r_patch, in_or_app; right; now left|]. intros ?. cbn [none app].
  eapply r_bind; [apply r_patches, incl_appl, incl_refl|]. intros ?. cbn [none app]. skip. fin.
  close.
Qed.
Lemma y_iterator x s b : spk s -> spk b -> says (visit_iterator_loop visit x s b) (plain (decls s))
  (fun E => tame E s && tame ((x, IsVariable) :: plain (decls s) ++ E) b).
Proof.
  intros Hs Hb. start. split_and. unfold visit_iterator_loop. vis Hs. skip.
  eapply r_bind; [apply r_push|]. intros ?. cbn [none app]. eapply r_bind; [apply r_add|]. intros ?. cbn [none app sort_state state_initialized].
  skip. hop. skip. vis Hb. eapply r_bind; [apply r_pop|]. intros sc. skip.
  eapply r_bind; [apply r_patch, in_or_app; right; now left|]. intros ?. cbn [none app].
  eapply r_bind; [apply r_patches, incl_appl, incl_refl|]. intros ?. cbn [none app]. skip. fin.
  close.
Qed.
Lemma y_for x s b : (forall y, esize y < esize (EFor x s b) -> spk y) -> says (visit_for visit x s b) (plain (decls (EFor x s b))) (fun E => tame E (EFor x s b)).
Proof.
  intros IH. assert (Hb : spk b) by (apply IH; cbn; pose proof (esize_pos s); lia). assert (Hs : spk s) by (apply IH; cbn; pose proof (esize_pos b); lia).
  destruct s as [| | | | | | | | | | | | | | | | | | |op s1 s2| | | | | | | | | | | | | | |]; try exact (y_iterator x _ b Hs Hb).
  assert (H1 : spk s1) by (apply IH; cbn; lia). assert (H2 : spk s2) by (apply IH; cbn; lia).
  destruct op; try exact (y_iterator x _ b Hs Hb); cbn [visit_for decls tame]; apply y_range; assumption.
Qed.
Lemma y_break : says visit_break [] yes.
Proof.
  intros J c vs n scs o I HA. unfold visit_break. apply r_then; [apply c_get_context|]. intros x.
  destruct (in_context_of KLoop (cx_scopes x)); [|apply r_fail]. hop. apply r_loop_exit. now left.
Qed.
Lemma y_continue : says visit_continue [] yes.
Proof. apply y_calm. unfold visit_continue. ct. Qed.

(** Declarations. *)
Lemma y_fn x args rt b : (forall y, esize y <= esize b -> spk y) -> says (visit_fn_decl visit x args rt b) [] (fun E => tame E (EFnDecl x args rt b)).
Proof.
  intros IH J c vs n scs o I HA. cbn [tame] in HA. split_and. unfold visit_fn_decl. apply r_then; [apply c_unique|]. intros _.
  apply r_then; [apply c_fn; [intros; discriminate|exact IH|assumption]|]. intros cx. apply r_then; [apply c_fresh|]. intros id.
  apply r_local. intros l Hl. destruct l as [v|]; [|apply r_fail]. change (known (KS vs n :: scs)) with (vs ++ known scs) in Hl.
  destruct (sv_state v) as [m i|i|i] eqn:Ev; unfold finds in Hl; cbn [option_map] in Hl; rewrite Ev in Hl; cbn [sort_state] in Hl.
  - rewrite <- Hl in *. discriminate.
  - destruct i; [apply r_fail|]. eapply r_bind; [apply r_set_state; symmetry; exact Hl|]. intros u. cbn [none app].
    apply r_then; [apply c_compiled|]. intros _. apply (calm_runs (emit_u8 _ _)), c_emit_u8.
  - rewrite <- Hl in *. discriminate.
Qed.
Lemma y_anonymous args rt b : (forall y, esize y <= esize b -> spk y) -> says (visit_anonymous_fn visit args rt b) [] (fun E => tame E (ELitAnonymousFn args rt b)).
Proof.
  intros IH J c vs n scs o I HA. cbn [tame] in HA. unfold visit_anonymous_fn. apply calm_runs. apply c_bind; [apply c_fresh|]. intros id.
  apply c_bind; [apply c_fn; [intros; discriminate|exact IH|assumption]|]. intros cx. apply c_compiled.
Qed.
Lemma y_op op args rt b : (forall y, esize y <= esize b -> spk y) -> says (visit_op_decl visit op args rt b false) [] (fun E => tame E (EOpDecl op args rt b)).
Proof.
  intros IH J c vs n scs o I HA. cbn [tame] in HA. unfold visit_op_decl. apply calm_runs. apply c_bind; [apply c_unique|]. intros _.
  apply c_bind; [apply c_fn; [intros; discriminate|exact IH|assumption]|]. intros cx. ct.
Qed.
Lemma self_param_has args a : self_param args = Some a -> has_self args = true.
Proof. unfold self_param, has_self, SELF. destruct args as [|x l]; [discriminate|]. now destruct (String.eqb (fa_name x) "self"). Qed.
Lemma self_param_none args : self_param args = None -> has_self args = false.
Proof. unfold self_param, has_self, SELF. destruct args as [|x l]; [reflexivity|]. now destruct (String.eqb (fa_name x) "self"). Qed.
Lemma c_member slot k item : (forall y, esize y < esize item -> spk y) -> tame_member tame item = true -> calm (visit_class_item visit slot k item).
Proof.
  intros IH HT. destruct item; cbn [tame_member visit_class_item] in *; try discriminate.
  - unfold visit_class_fn. destruct (self_param args) as [a|] eqn:Es.
    + apply self_param_has in Es. rewrite Es in HT. destruct (fa_type a); [apply c_fail|]. apply c_bind.
      * unfold visit_method. apply c_bind; [apply c_unique|]. intros _. apply c_bind; [|intros cx; ct].
        apply c_fn; [intros; exact Es|intros y Hy; apply IH; cbn; lia|].
        destruct (String.eqb name NEW); exact HT.
      * intros _. ct.
    + apply self_param_none in Es. rewrite Es in HT. destruct (String.eqb name NEW); [apply c_fail|]. apply c_bind.
      * unfold visit_method. apply c_bind; [apply c_unique|]. intros _. apply c_bind; [|intros cx; ct].
        apply c_fn; [intros; discriminate|intros y Hy; apply IH; cbn; lia|exact HT].
      * intros _. ct.
  - unfold visit_class_op. destruct (self_param args) as [a|] eqn:Es; [|apply c_fail].
    destruct (fa_type a); [apply c_fail|]. apply c_bind.
    + unfold visit_op_decl. apply c_bind; [apply c_unique|]. intros _. apply c_bind; [|intros cx; ct].
      apply c_fn; [intros; discriminate|intros y Hy; apply IH; cbn; lia|exact HT].
    + intros _. ct.
Qed.
Lemma y_class x items base : (forall y, esize y < esize (EClassDecl x items base) -> spk y) ->
  says (visit_class visit x items base) [] (fun E => tame E (EClassDecl x items base)).
Proof.
  intros IH J c vs n scs o I HA. cbn [tame] in HA. split_and. unfold visit_class.
  eapply r_bind; [apply r_push|]. intros ?. cbn [none app].
  eapply r_bind with (R := none) (V1 := (c, KS (plain (last_of base)) 0 :: KS vs n :: scs) :: o).
  { destruct base as [b|]; [|apply (calm_runs (visit_ident _)), c_ident].
    eapply r_conv; [apply (IH b); [rewrite size_EClassDecl; cbn; lia|exact I|assumption]|now rewrite app_nil_r|intros ?; apply incl_refl]. }
  intros ?. cbn [none app]. eapply r_bind; [apply (r_add _ _ _ _ _ _ SUPER (state_initialized true))|]. intros ?. cbn [none app].
  apply r_then; [apply c_emit_u8|]. intros _. apply r_local. intros l Hl. destruct l as [v|]; [|apply r_fail].
  eapply r_bind with (R := none) (V1 := (c, KS ((SUPER, sort_state (state_initialized true)) :: plain (last_of base)) 0 :: KS vs n :: scs) :: o).
  { unfold finds in Hl. cbn [option_map] in Hl. destruct (sv_state v) as [m i|i|[|]] eqn:Ev; try (apply (calm_runs (ret tt)), c_ret); [apply r_fail|].
    apply r_set_state. symmetry. exact Hl. }
  intros ?. cbn [none app]. apply r_then; [apply c_emit_c|]. intros _. apply r_then; [apply c_emit_u8|]. intros _.
  apply r_then.
  { apply c_each. intros y Hy. apply c_member.
    - intros z Hz. apply IH. rewrite size_EClassDecl. apply lsize_in in Hy. lia.
    - match goal with H : forallb _ _ = true |- _ => rewrite forallb_forall in H; now apply H end. }
  intros _. apply r_then; [apply c_close|]. intros _. eapply r_bind; [apply r_pop|]. intros sc. apply (calm_runs (ret tt)), c_ret.
Qed.
Lemma y_export e : spk e -> says (visit_export visit e) (plain (decls e)) (fun E => tame E (EExportDecl e)).
Proof.
  intros He J c vs n scs o I HA. cbn [tame] in HA. split_and. unfold visit_export. apply r_kind.
  destruct c; try apply r_fail. apply r_then; [apply c_top|]. intros sc. destruct (1 <? sc_depth sc); [apply r_fail|].
  apply r_local. intros l Hl. destruct l as [v|].
  - skip. vis He. destruct e; try discriminate; try apply (calm_runs (emit_c _ _)), c_emit_c.
    cbn [exports_one_name export_name] in *. destruct kind; [apply (calm_runs (emit_c _ _)), c_emit_c|discriminate].
  - exfalso. destruct I as [_ X]. apply (X eq_refl). symmetry. exact Hl.
Qed.

Theorem visit_speaks e : spk e.
Proof.
  induction e as [e IH] using (Wf_nat.induction_ltof1 _ esize). unfold Wf_nat.ltof in IH.
  assert (IHl : forall l k, lsize l < k -> k <= esize e -> forall x, In x l -> spk x).
  { intros l k Hl Hk x Hx. apply IH. apply lsize_in in Hx. lia. }
  destruct e as [name| | |z|f|x|b|args rt b|items|items|x|x|x f|f k|f args|args|a b|x t|op x|op a b|op a b|k m x t|name args rt b|op args rt b
                |name items base|m items path|x|a p q|a b|name a b|b|es t| | |r]; unfold spk; cbn [visit].
  - apply y_calm, c_ident.
  - apply y_calm, c_emit.
  - apply y_calm, c_emit.
  - apply y_calm, c_int.
  - apply y_calm, c_float.
  - apply y_calm, c_emit_c.
  - apply y_calm, c_push_bool.
  - apply y_anonymous. intros y Hy. apply IH. cbn. lia.
  - apply y_object. intros k x Hx. apply IH. rewrite size_ELitObject. apply fsize_in in Hx. lia.
  - apply y_list. intros x Hx. apply IH. rewrite size_ELitList. apply lsize_in in Hx. lia.
  - apply y_in_call. exact (y_null_propagate x (IH x (Nat.lt_succ_diag_r _))).
  - apply y_in_call. exact (y_error_propagate x (IH x (Nat.lt_succ_diag_r _))).
  - apply y_in_call. exact (y_after (visit x) _ _ _ (IH x (Nat.lt_succ_diag_r _)) (fun _ => c_emit_c _ _)).
  - apply y_in_call, y_calm, c_super_access.
  - apply y_in_call, y_fn_call; [apply IH; cbn; lia|]. intros x Hx. apply IH. cbn [esize]. rewrite lsize_fix. apply lsize_in in Hx. lia.
  - apply y_in_call, y_super_call. intros x Hx. apply IH. cbn [esize]. rewrite lsize_fix. apply lsize_in in Hx. lia.
  - apply y_in_call, y_index; apply IH; cbn; lia.
  - apply y_is, IH. cbn. lia.
  - exact (y_after (visit x) _ _ _ (IH x (Nat.lt_succ_diag_r _)) (fun _ => c_emit _)).
  - apply y_binary; apply IH; cbn; lia.
  - apply y_assignment. exact IH.
  - apply y_var, IH. cbn. lia.
  - apply y_fn. intros y Hy. apply IH. cbn. lia.
  - apply y_op. intros y Hy. apply IH. cbn. lia.
  - apply y_class. exact IH.
  - apply y_import.
  - exact (y_export x (IH x (Nat.lt_succ_diag_r _))).
  - apply y_if; [apply IH; cbn; lia|apply IH; cbn; lia|]. intros x ->. apply IH. cbn. lia.
  - apply y_while. exact IH.
  - apply y_for. exact IH.
  - apply y_loop. exact IH.
  - apply y_block.
    + intros x Hx. apply IH. rewrite size_EBlock. apply lsize_in in Hx. lia.
    + intros x ->. apply IH. rewrite size_EBlock. cbn. lia.
  - apply y_break.
  - apply y_continue.
  - apply y_return. intros x ->. apply IH. cbn. lia.
Qed.

Definition speaks_up {T} (V : list kctx) (m : M T) : Prop :=
  forall s, kv s = V -> fine s -> match m s with Panic | NoFuel => False | _ => True end.
Lemma n_bind {T U} V (m : M T) (f : T -> M U) V1 : runs [] V m V1 none -> (forall a, speaks_up V1 (f a)) -> speaks_up V (bind m f).
Proof.
  intros Hm Hf s K F. unfold bind. specialize (Hm s K F (pending_nil s)). destruct (m s) as [[a s1]|e| |]; try tauto.
  destruct Hm as (K1 & F1 & _ & _). now apply Hf.
Qed.
Theorem compile_speaks kind root : kind = KScript \/ kind = KModule ->
  tame (plain (initial_env kind)) root = true -> (exists b, compile kind root = Ok b) \/ (exists e, compile kind root = Err e).
Proof.
  intros HK HT. unfold compile.
  assert (H : speaks_up [(kind, [KS [] 0])] (compile_m kind root)).
  { unfold compile_m.
    apply n_bind with (V1 := [(kind, [KS (plain (initial_env kind)) 0])]).
    { destruct HK as [-> | ->]; [apply (calm_runs (ret tt)), c_ret|].
      eapply r_bind; [apply (r_add _ _ _ _ _ _ EXPORT (state_initialized false))|]. intros ?. apply (calm_runs (ret tt)), c_ret. }
    intros _.
    assert (I : inv kind (plain (initial_env kind) ++ known [])).
    { split; intros ->; [destruct HK; discriminate|]. discriminate. }
    eapply n_bind; [apply visit_speaks; [exact I|]|].
    { unfold known. cbn [flat_map]. now rewrite app_nil_r. }
    intros _.
    apply n_bind with (V1 := [(kind, [KS (plain (decls root) ++ plain (initial_env kind)) 0])]).
    { destruct HK as [-> | ->]; [apply (calm_runs (ret tt)), c_ret|]. apply r_local. intros l Hl. destruct l as [v|].
      - apply (calm_runs (emit OpPop ;;; emit_u8 OpLoadLocal (u8_of (sv_slot v)))). ct.
      - exfalso. apply (inv_app _ (plain (decls root))) in I as [_ X]. apply (X eq_refl). rewrite app_assoc. symmetry. exact Hl. }
    intros _ s K F. unfold bind, pop_context, ret. destruct (cs_stack s); exact Logic.I. }
  specialize (H (CState [context_new kind] 0) eq_refl).
  unfold omap, obind. destruct (compile_m kind root _) as [[b s]|e| |]; [left; eauto|right; eauto| |]; exfalso; apply H;
    (constructor; [|constructor]); (constructor; [split; constructor|constructor]).
Qed.

Lemma names_known s c o : cs_stack s = c :: o -> names_here s = known (map ks (ss_scopes (cx_scopes c))).
Proof.
  intros E. unfold names_here, known. rewrite E. induction (ss_scopes (cx_scopes c)) as [|sc l IH]; [reflexivity|]. cbn [flat_map map].
  now rewrite IH.
Qed.
Theorem super_panics args s : inside_program s -> sort_of "self" (names_here s) = None -> visit (ESuperCall args) s = Panic.
Proof.
  intros (c & o & sc & scs & E & Es & _) H. rewrite (names_known _ _ _ E), Es in H. cbn [visit].
  unfold in_call, enter_call, m_update_top, visit_super_call, m_local, on_scopes, bind, get_context, lift, set_context, ret, omap, obind, update_top.
  rewrite E, Es. cbn [cs_stack cx_scopes set_scopes fst snd]. rewrite E. cbn [cs_stack cx_scopes set_scopes fst snd ss_scopes local].
  unfold local. cbn [ss_scopes cx_scopes set_scopes].
  pose proof (find_local_sort SELF (sc :: scs)) as F. unfold SELF in *. rewrite H in F.
  replace (find_local "self" _) with (@None scope_var); [reflexivity|].
  symmetry. cbn [find_local set_call sc_vars]. cbn [find_local] in F. destruct (find_var "self" (sc_vars sc)); [discriminate|].
  now destruct (find_local "self" scs).
Qed.
