(** Compiling a supported expression only adds to the compiler's state. *)
From Verif.Model Require Import Compiler.
From Verif.Spec Require Import SupportSpec.
From Verif.Proofs Require Import ExprInd WellFormedP WellFormedPrimP EmitP.
#[local] Open Scope string_scope.
#[local] Open Scope list_scope.
#[local] Open Scope nat_scope.

(** The variables a statement adds to the innermost scope, newest first (functions are added before). *)
Fixpoint adds (e : expr) : list string :=
  match e with
  | EVarDecl (Singular x) _ _ _ => [x]
  | EVarDecl (Destructured xs) _ _ _ => rev xs
  | EImportDecl x xs _ => match x with Some y => [y] | None => [] end ++ rev xs
  | EExportDecl x => adds x
  | _ => []
  end.
Definition adds_all (es : list expr) : list string := flat_map adds (rev es).

Lemma T_num {A} b D C N n n' (m : M A) Q : T b D C N n m Q -> n = n' -> T b D C N n' m Q.
Proof. intros H <-. exact H. Qed.
Lemma T_and {A B} b C N n1 n2 (m : M A) (f : A -> M B) Q R : T b [] C N n1 m Q -> (forall a, Q a -> T b [] C N n2 (f a) R) -> T b [] C N (n1 + n2) (bind m f) R.
Proof. intros. eapply T_seq; eauto. Qed.
Lemma TP_num {A} b D C N k e n n' (m : M A) : TP b D C N k e n m -> n = n' -> TP b D C N k e n' m.
Proof. intros H <-. exact H. Qed.
Lemma TP_and {A B} b D1 D2 C N k e n1 n2 (m : M A) (f : A -> M B) Q : T b D2 C N n1 m Q -> (forall a, Q a -> TP b (D2 ++ D1) C N k e n2 (f a)) -> TP b D1 C N k e (n1 + n2) (bind m f).
Proof. intros. eapply TP_bind; eauto. Qed.
Lemma Tc_and {A B} b C N n1 n2 (m : M A) (f : A -> M B) Q : T b [] C N n1 m Q -> (forall a, Q a -> Tc b [] C N n2 (f a)) -> Tc b [] C N (n1 + n2) (bind m f).
Proof. intros. eapply Tc_seq; eauto. Qed.
Lemma Tc_num {A} b D C N n n' (m : M A) : Tc b D C N n m -> n = n' -> Tc b D C N n' m.
Proof. intros H <-. exact H. Qed.
Lemma Tlt_and {A B} id b C N n1 n2 (m : M A) (f : A -> M B) : Tlt id b [] C N n1 m -> (forall a, Tlt id b [] C N n2 (f a)) -> Tlt id b [] C N (n1 + n2) (bind m f).
Proof. intros. eapply Tlt_bind; eauto. Qed.

Lemma T_ident b C N x : In x N -> T b [] C N 0 (visit_ident x) (fun _ => True).
Proof.
  intros H. unfold visit_ident. eapply T_seq; [apply T_local| |reflexivity]. intros [v|] _.
  - destruct (sv_is_initialized v); [apply T_emit_u8|apply T_fail].
  - eapply T_seq; [apply T_resolve; exact H| |reflexivity]. intros [i|] _; [apply T_emit_u8|apply T_emit_c; discriminate].
Qed.
Lemma T_local_type b C N t slot : incl (type_names t) N -> T b [] C N 0 (visit_local_type t slot) (fun _ => True).
Proof.
  intros H. destruct t as [ty|]; cbn [visit_local_type]; [|apply T_ret; auto]. eapply T_seq; [apply T_ident; apply H; left; auto| |reflexivity]. intros _ _. apply T_emit_u8.
Qed.
Lemma get_kind_ok s k s' : get_kind s = Ok (k, s') -> s' = s /\ k = kind s.
Proof. intros E. apply bind_ok in E. destruct E as (c & s1 & E1 & [= <- <-]). unfold get_context in E1. destruct s as [[|c0 r] m]; [discriminate|]. injection E1 as <- <-. auto. Qed.
Lemma T_return b C N : T b [] C N 0 visit_return (fun _ => True).
Proof.
  intros s a s' W L K E. unfold visit_return in E. apply bind_ok in E. destruct E as (k & s1 & E1 & E2). apply get_kind_ok in E1. destruct E1 as (-> & ->).
  assert (TY : forall t, In (ta_name t) (kind_names (kind s)) -> (visit_ident (ta_name t) ;;; emit (if ta_nullable t then OpAssertTypeOrNullAndReturn else OpAssertTypeAndReturn)) s = Ok (a, s') ->
    wf s' /\ mono [] C N s s' /\ below b s s' /\ cs_next_id s' = cs_next_id s + 0 /\ True).
  { intros t HT. apply (fun H => T_seq b [] C N 0 0 0 (visit_ident (ta_name t)) (fun _ => emit (if ta_nullable t then OpAssertTypeOrNullAndReturn else OpAssertTypeAndReturn)) (fun _ => True) (fun _ => True) H (fun _ _ => T_emit b C N _) eq_refl s a s' W L); [|exact K].
    apply T_ident. apply K. exact HT. }
  destruct (kind s) as [| |rt|rt|] eqn:EK; try contradiction; try (exact (T_emit b C N OpReturn s a s' W L ltac:(rewrite EK; exact K) E2)).
  - destruct rt as [t|]; [apply (TY t); [left; auto|exact E2]|exact (T_emit b C N OpReturn s a s' W L ltac:(rewrite EK; exact K) E2)].
  - destruct rt as [t|]; [apply (TY t); [left; auto|exact E2]|exact (T_emit b C N OpReturn s a s' W L ltac:(rewrite EK; exact K) E2)].
Qed.
Lemma T_close_vars b C N vs : T b [] C N 0 (close_vars vs) (fun _ => True).
Proof. unfold close_vars. apply T_each0. intros v _. destruct (sv_captured v); [apply T_emit_u8|apply T_ret; auto]. Qed.
Lemma T_close b C N : T b [] C N 0 visit_close_upvalues (fun _ => True).
Proof. unfold visit_close_upvalues. eapply T_seq; [apply T_top_scope|intros sc _; apply T_close_vars|reflexivity]. Qed.
Lemma T_drop_temps b C N n : T b [] C N 0 (drop_temps n) (fun _ => True).
Proof. apply T_times. eapply T_seq; [apply T_emit|intros; apply T_emit|reflexivity]. Qed.
Lemma T_operator b C N op : T b [] C N 0 (visit_operator op) (fun _ => True).
Proof. destruct op; try apply T_emit. apply T_panic. Qed.
Lemma T_int b C N z : T b [] C N 0 (visit_int z) (fun _ => True).
Proof. unfold visit_int. destruct (Z.eqb z 0); [apply T_emit|]. destruct (Z.eqb z 1); [apply T_emit|]. apply T_emit_c. discriminate. Qed.
Lemma T_float b C N z : T b [] C N 0 (visit_float z) (fun _ => True).
Proof. unfold visit_float. destruct (f64_eqb z f64_zero); [apply T_emit|]. destruct (f64_eqb z f64_one); [apply T_emit|]. apply T_emit_c. discriminate. Qed.
Lemma T_scan b C N : forall e, T b (rev (hoisted_name e)) C N 0 (scan_expr e) (fun _ => True).
Proof.
  fix T_scan 1. intros e. destruct e; try (apply T_ret; auto; fail); try (exact (T_scan e)); cbn [scan_expr hoisted_name rev app]; change [name] with ([] ++ [name]); change 0 with (0 + 0); (eapply T_bind; [apply T_add_local|]); intros; apply T_ret; auto.
Qed.
Lemma T_scan_all b C N es t : T b (rev (hoisted es t)) C N 0 (scan_item_decls es t) (fun _ => True).
Proof.
  unfold scan_item_decls, hoisted. change (block_items es t) with (statements es t). generalize (statements es t) as l. induction l as [|e l IH]; cbn [each flat_map].
  - apply T_ret. auto.
  - rewrite rev_app_distr. change 0 with (0 + 0). eapply T_bind; [apply T_scan|intros; exact IH].
Qed.
Lemma T_add_locals b C N xs : T b (rev xs) C N 0 (add_locals xs) (fun _ => True).
Proof.
  induction xs as [|x xs IH]; cbn [add_locals rev]; [apply T_ret; auto|]. change 0 with (0 + 0). eapply T_bind; [apply T_add_local|]. intros slot _.
  rewrite <- (app_nil_l (rev xs)). change 0 with (0 + 0). eapply T_bind; [exact IH|]. intros. apply T_ret. auto.
Qed.
Lemma T_fields b C N items : T b [] C N 0 (emit_fields_to_locals items) (fun _ => True).
Proof.
  unfold emit_fields_to_locals. apply T_each0. intros p _. repeat (eapply T_seq; [first [apply T_emit_u8|apply T_emit_c; discriminate]| |reflexivity]; intros _ _). apply T_emit.
Qed.
Definition slot0 (w : bool) : list string := if w then [""] else [].
Lemma T_args b C N w args : incl (flat_map (fun a => type_names (fa_type a)) args) N -> T b (rev (slot0 w ++ map fa_name args)) C N 0 (visit_args w args) (fun _ => True).
Proof.
  intros H. unfold visit_args. rewrite rev_app_distr. change 0 with (0 + 0). eapply T_bind with (Q := fun _ => True).
  - destruct w; [|apply T_ret; auto]. cbn [slot0 rev app]. change [""] with ([] ++ [""]). change 0 with (0 + 0). eapply T_bind; [apply T_add_local|]. intros. apply T_ret; auto.
  - intros _ _. induction args as [|a args IH]; cbn [each map rev]; [apply T_ret; auto|]. change 0 with (0 + 0). eapply T_bind with (Q := fun _ => True).
    + change [fa_name a] with ([] ++ [fa_name a]). change 0 with (0 + 0). eapply T_bind; [apply T_add_local|]. intros slot _. apply T_local_type. intros y Hy. apply H. cbn [flat_map]. rewrite in_app_iff. auto.
    + intros _ _. apply IH. intros y Hy. apply H. cbn [flat_map]. rewrite in_app_iff. auto.
Qed.

Ltac incl_tac := let y := fresh "y" in let Hy := fresh "Hy" in intros y Hy; match goal with H : incl _ _ |- _ => apply H end; cbn [names captures]; rewrite ?in_app_iff; auto.
Definition mono_at (e : expr) : Prop := forall P, supported P e = true -> forall b C N, incl (captures e) C -> incl (names e) N ->
  T b (adds e) C N (fns e) (visit e) (fun _ => True).
Lemma not_stmt P e : supported P e = true -> pl_stmt P = false -> adds e = [].
Proof. destruct e; auto; cbn [supported]; intros H E; rewrite E in H; discriminate. Qed.
Lemma mono_expr e P : mono_at e -> supported P e = true -> pl_stmt P = false -> forall b C N, incl (captures e) C -> incl (names e) N -> T b [] C N (fns e) (visit e) (fun _ => True).
Proof. intros H S E. rewrite <- (not_stmt _ _ S E). eapply H; eauto. Qed.

Lemma T_body b C N es t P : (forall e, In e (statements es t) -> mono_at e /\ supported P e = true) ->
  incl (flat_map captures (statements es t)) C -> incl (flat_map names (statements es t)) N ->
  T b (adds_all (statements es t)) C N (list_sum (map fns es) + match t with Some x => fns x | None => 0 end) (visit_block_body visit es t) (fun _ => True).
Proof.
  unfold visit_block_body. intros H HC HN. unfold adds_all.
  assert (B : forall es b, (forall e, In e es -> mono_at e /\ supported P e = true) -> incl (flat_map captures es) C -> incl (flat_map names es) N ->
     T b (flat_map adds (rev es)) C N (list_sum (map fns es)) (each (fun e => visit e ;;; emit OpPop) es) (fun _ => True)).
  { clear. intros es b. induction es as [|e es IH]; intros H HC HN; cbn [each map list_sum fold_right rev]; [apply T_ret; auto|].
    rewrite flat_map_app. eapply T_bind with (Q := fun _ => True).
    - cbn [flat_map]. rewrite app_nil_r. destruct (H e (or_introl eq_refl)) as (H1 & H2). rewrite <- (app_nil_l (adds e)). replace (fns e) with (fns e + 0) by lia. eapply T_bind; [eapply H1; eauto|intros; apply T_emit].
      + intros y Hy. apply HC. cbn. rewrite in_app_iff. auto.
      + intros y Hy. apply HN. cbn. rewrite in_app_iff. auto.
    - intros _ _. apply IH; [intros; apply H; right; auto|..]; intros y Hy; [apply HC|apply HN]; cbn; rewrite in_app_iff; auto. }
  unfold statements in *. destruct t as [e|].
  - rewrite rev_app_distr, flat_map_app. rewrite !flat_map_app in HC, HN. eapply T_bind with (Q := fun _ => True).
    + apply B; [intros; apply H; apply in_app_iff; auto|..]; intros y Hy; [apply HC|apply HN]; rewrite in_app_iff; auto.
    + intros _ _. destruct (H e) as (H1 & H2); [apply in_app_iff; right; left; auto|]. cbn [rev app flat_map]. rewrite app_nil_r. eapply H1; eauto; intros y Hy; [apply HC|apply HN]; rewrite in_app_iff; right; cbn; rewrite app_nil_r; auto.
  - rewrite app_nil_r in *. rewrite <- (app_nil_l (flat_map adds (rev es))). eapply T_bind; [apply B; auto|intros; apply T_emit].
Qed.

Lemma T_block b C N es t P looping : (forall e, In e (statements es t) -> mono_at e /\ supported P e = true) ->
  incl (flat_map captures (statements es t)) C -> incl (flat_map names (statements es t)) N ->
  T b [] C N (list_sum (map fns es) + match t with Some x => fns x | None => 0 end) (visit_block visit looping es t) (fun _ => True).
Proof.
  intros H HC HN. unfold visit_block. apply T_push. eapply TP_num.
  - eapply TP_and; [apply T_scan_all|intros _ _].
    eapply TP_and; [eapply T_body; eauto|intros _ _].
    eapply TP_and with (D2 := []) (n1 := 0); [destruct looping; [apply T_emit|apply T_ret with (Q := fun _ => True); auto]|intros _ _].
    eapply TP_and; [apply T_close|intros _ _]. eapply TP_pop. intros sc _. apply T_ret with (Q := fun _ => True). auto.
  - lia.
Qed.
Lemma statements_captures es t : flat_map captures (statements es t) = captures (EBlock es t).
Proof. unfold statements. rewrite flat_map_app. cbn [captures]. destruct t; cbn; rewrite ?app_nil_r; reflexivity. Qed.
Lemma statements_names es t : flat_map names (statements es t) = names (EBlock es t).
Proof. unfold statements. rewrite flat_map_app. cbn [names]. destruct t; cbn; rewrite ?app_nil_r; reflexivity. Qed.
Lemma statements_fns es t : list_sum (map fns es) + match t with Some x => fns x | None => 0 end = fns (EBlock es t).
Proof. reflexivity. Qed.
Lemma supported_statements P es t : forallb (supported P) es && opt_all (supported P) t = true -> forall e, In e (statements es t) -> supported P e = true.
Proof.
  intros H e He. apply andb_prop in H. destruct H as (H1 & H2). rewrite forallb_forall in H1. unfold statements in He. rewrite in_app_iff in He. destruct He as [He|He]; auto.
  destruct t; [|destruct He]. destruct He as [<-|[]]. exact H2.
Qed.
Lemma statements_size es t e : In e (statements es t) -> esize e < esize (EBlock es t).
Proof.
  rewrite size_EBlock. unfold statements. rewrite in_app_iff. intros [H|H]; [apply lsize_in in H; lia|]. destruct t; [|destruct H]. destruct H as [<-|[]]. cbn [osize]. lia.
Qed.

(** The kinds of functions. *)
Definition kind_of (fk : fn_kind) (ret : option type_ann) : compiler_kind :=
  match fk with FkConstructor _ => KConstructor | FkMethod => KMethod ret | _ => KFunction ret end.
Definition unnamed (fk : fn_kind) : bool := match fk with FkFunction | FkStaticMethod => true | _ => false end.
Definition fn_end (fk : fn_kind) : M unit :=
  match fk with
  | FkConstructor _ =>
      l <- m_local SELF ;;
      match l with
      | None => panic
      | Some v => emit OpPop ;;; emit_u8 OpLoadLocal (u8_of (sv_slot v)) ;;; emit OpReturn
      end
  | _ => visit_return
  end.
Definition fn_start (fk : fn_kind) (es : list expr) (t : option expr) : M unit :=
  match fk with FkConstructor CDerived => assert_super_call es t | _ => ret tt end.
Lemma T_end b C N fk : T b [] C N 0 (fn_end fk) (fun _ => True).
Proof.
  destruct fk; try apply T_return. eapply T_seq; [apply T_local| |reflexivity]. intros [v|] _; [|apply T_panic].
  eapply T_seq; [apply T_emit|intros _ _|reflexivity]. eapply T_seq; [apply T_emit_u8|intros _ _; apply T_emit|reflexivity].
Qed.
Lemma T_start b C N fk es t : T b [] C N 0 (fn_start fk es t) (fun _ => True).
Proof. destruct fk as [| | |[|]]; try (apply T_ret; auto). cbn [fn_start]. unfold assert_super_call. destruct (block_items es t) as [|x l]; [apply T_fail|]. destruct x; try apply T_fail. apply T_ret; auto. Qed.
Lemma compile_fn_start args rt fk body s : compile_fn visit args rt fk body s =
  (match fk, rt with FkConstructor _, Some _ => fail NEW_METHOD_CANNOT_HAVE_RETURN_TYPE | _, _ => ret tt end ;;;
   push_context (kind_of fk rt) ;;;
   match body with
   | EBlock es t => visit_fn_block fk args es t (visit_block_body visit es t)
   | _ => visit_fn_block fk args [] (Some body) (visit body)
   end ;;; pop_context) s.
Proof. reflexivity. Qed.

(** A function: what its body needs from the places around it. *)
Lemma T_compile b C N args ret fk body P : (forall e, In e (statements (fst (body_parts body)) (snd (body_parts body))) -> mono_at e /\ supported P e = true) ->
  incl (flat_map (fun a => type_names (fa_type a)) args ++ type_names ret ++ names body) C ->
  incl (flat_map (fun a => type_names (fa_type a)) args ++ type_names ret ++ names body) N ->
  T b [] C N (fns body) (compile_fn visit args ret fk body) (fun _ => True).
Proof.
  intros H HC HN. set (L := flat_map (fun a => type_names (fa_type a)) args ++ type_names ret ++ names body) in *.
  assert (G : forall es t m, (forall e, In e (statements es t) -> mono_at e /\ supported P e = true) -> incl (flat_map names (statements es t)) L ->
    (forall b0, T b0 (adds_all (statements es t)) (flat_map captures (statements es t)) L (fns body) m (fun _ => True)) ->
    T b [] C N (fns body) (push_context (kind_of fk ret) ;;; visit_fn_block fk args es t m ;;; pop_context) (fun _ => True)).
  { clear H. intros es t m H HL Hm. eapply T_function with (N1 := L); auto.
    - unfold visit_fn_block. fold (fn_end fk). fold (fn_start fk es t). eapply T_num.
      + apply T_and with (n1 := 0) (Q := fun _ => True); [apply T_start|intros _ _].
        apply T_push. eapply TP_and; [apply T_args|intros _ _].
        { intros y Hy. unfold L. rewrite in_app_iff. auto. }
        eapply TP_and; [apply T_scan_all|intros _ _].
            eapply TP_and; [apply Hm|intros _ _]. eapply TP_and; [apply T_close|intros _ _]. eapply TP_and; [apply T_end|intros _ _].
        eapply TP_pop. intros sc _. apply T_ret with (Q := fun _ => True). auto.
      + lia.
    - intros y Hy. unfold L. rewrite !in_app_iff. right. left. destruct fk, ret; exact Hy || destruct Hy. }
  unfold compile_fn. eapply T_num; [apply T_and with (n1 := 0) (Q := fun _ => True); [destruct fk, ret; first [apply T_fail|apply T_ret; auto]|intros _ _]|reflexivity].
  fold (kind_of fk ret). assert (NB : incl (names body) L) by (intros y Hy; unfold L; rewrite !in_app_iff; auto).
  destruct (body_parts body) as [es t] eqn:EB. cbn [fst snd] in H.
  assert (ONE : forall e, e = body -> (es, t) = ([], Some e) -> T b [] C N (fns body) (push_context (kind_of fk ret) ;;; visit_fn_block fk args [] (Some e) (visit e) ;;; pop_context) (fun _ => True)).
  { intros e -> [= -> ->]. apply G; auto.
    - intros y Hy. apply NB. cbn in Hy. rewrite app_nil_r in Hy. exact Hy.
    - intros b0. destruct (H body) as (H1 & H2); [left; auto|]. unfold adds_all. cbn. rewrite !app_nil_r. eapply H1; eauto. apply incl_refl. }
  destruct body; try (apply ONE; [reflexivity|cbn in EB; congruence]).
  injection EB as -> ->. apply G; auto.
  - rewrite statements_names. exact NB.
  - intros b0. eapply T_num; [eapply T_body; eauto; [apply incl_refl|rewrite statements_names; exact NB]|]. reflexivity.
Qed.

Lemma body_supported P body : match body with
    | EBlock es t => forallb (supported P) es && opt_all (supported P) t
    | _ => supported P body
    end = true -> forall e, In e (statements (fst (body_parts body)) (snd (body_parts body))) -> supported P e = true.
Proof.
  intros H. assert (ONE : supported P body = true -> forall e, In e (statements [] (Some body)) -> supported P e = true) by (intros K e [<-|[]]; exact K).
  destruct body; try (exact (ONE H)). apply supported_statements. exact H.
Qed.
Lemma body_size body e : In e (statements (fst (body_parts body)) (snd (body_parts body))) -> esize e <= esize body.
Proof.
  assert (ONE : In e (statements [] (Some body)) -> esize e <= esize body) by (intros [<-|[]]; lia).
  destruct body; try exact ONE. cbn [body_parts fst snd]. intros H. apply statements_size in H. lia.
Qed.
Lemma Tlt_fn_decl name id c b C N : Tlt id b [] C N 0 (l <- m_local name ;;
  match l with
  | None => fail INTERNAL_COMPILER_ERROR
  | Some v =>
      match sv_state v with
      | SFunction true => fail FUNCTION_ALREADY_DECLARED
      | SFunction false => m_set_state name (SFunction true) ;;; emit_compiled name id c ;;; emit_u8 OpStoreLocal (u8_of (sv_slot v))
      | _ => panic
      end
  end).
Proof.
  eapply Tlt_bind; [eapply T_Tlt; apply T_local| |reflexivity]. intros [v|]; [|intros s a s' _ _ _ _ E; discriminate]. destruct (sv_state v) as [? ?|[|]|?]; try (intros s a s' _ _ _ _ E; discriminate).
  eapply Tlt_bind; [eapply T_Tlt; apply T_set_state| |reflexivity]. intros _. eapply Tlt_bind; [apply Tlt_compiled| |reflexivity]. intros _. eapply T_Tlt. apply T_emit_u8.
Qed.
Lemma TP_fail {A} b D C N k e n err : TP b D C N k e n (@fail A err).
Proof. intros s0 s a s' _ _ _ _ _ E. discriminate E. Qed.
Lemma T_unique b C N args : T b [] C N 0 (assert_unique_params args) (fun _ => True).
Proof. unfold assert_unique_params. destruct (unique_names _); [apply T_ret; auto|apply T_fail]. Qed.

Section Step.
Variable e0 : expr.
Variable IH : forall e', esize e' < esize e0 -> mono_at e'.

Lemma sub e P b C N : esize e < esize e0 -> supported P e = true -> pl_stmt P = false -> incl (captures e) C -> incl (names e) N -> T b [] C N (fns e) (visit e) (fun _ => True).
Proof. intros L S E HC HN. eapply mono_expr; eauto. Qed.
Lemma fn_case b C N args ret fk body : esize body < esize e0 -> match body with
    | EBlock es t => forallb (supported (fn_place (fn_kept body))) es && opt_all (supported (fn_place (fn_kept body))) t
    | _ => supported (fn_place (fn_kept body)) body
    end = true ->
  incl (flat_map (fun a => type_names (fa_type a)) args ++ type_names ret ++ names body) C ->
  incl (flat_map (fun a => type_names (fa_type a)) args ++ type_names ret ++ names body) N ->
  T b [] C N (fns body) (compile_fn visit args ret fk body) (fun _ => True).
Proof.
  intros L S HC HN. eapply T_compile; eauto. intros e He. split; [apply IH; apply body_size in He; lia|]. eapply body_supported; eauto.
Qed.
Definition fn_supported (body : expr) : bool :=
  match body with
  | EBlock es t => forallb (supported (fn_place (fn_kept body))) es && opt_all (supported (fn_place (fn_kept body))) t
  | _ => supported (fn_place (fn_kept body)) body
  end.
Lemma T_method b C N name args ret fk body : esize body < esize e0 -> fn_supported body = true ->
  incl (flat_map (fun a => type_names (fa_type a)) args ++ type_names ret ++ names body) C ->
  incl (flat_map (fun a => type_names (fa_type a)) args ++ type_names ret ++ names body) N ->
  T b [] C N (fns body + 1) (visit_method visit name args ret body fk) (fun _ => True).
Proof.
  intros L S HC HN. unfold visit_method. eapply T_num; [eapply T_and; [apply T_unique|intros _ _]; eapply T_and; [eapply fn_case; eauto|intros c _]; apply T_fresh_bind with (n := 0); intros id; apply Tlt_compiled|lia].
Qed.
Lemma T_op_method b C N op args rt body : esize body < esize e0 -> fn_supported body = true ->
  incl (flat_map (fun a => type_names (fa_type a)) args ++ type_names rt ++ names body) C ->
  incl (flat_map (fun a => type_names (fa_type a)) args ++ type_names rt ++ names body) N ->
  T b [] C N (fns body + 1) (visit_op_decl visit op args rt body true) (fun _ => True).
Proof.
  intros L S HC HN. unfold visit_op_decl. eapply T_num; [eapply T_and; [apply T_unique|intros _ _]; eapply T_and; [eapply fn_case; eauto|intros c _]; apply T_fresh_bind with (n := 0); intros id|lia].
  eapply Tlt_bind; [apply Tlt_compiled| |reflexivity]. intros _. eapply T_Tlt. apply T_ret with (Q := fun _ => True). auto.
Qed.
Definition member_supported (x : expr) : bool :=
  match x with
  | EFnDecl f args ret body => signature_ok args ret body && (negb (String.eqb f "new") || constructor_ok body) && fn_supported body
  | EOpDecl _ args ret body => signature_ok args ret body && fn_supported body
  | _ => false
  end.
Lemma T_member b C N slot k x : esize x < esize e0 -> member_supported x = true -> incl (names x) C -> incl (names x) N ->
  T b [] C N (fns x) (visit_class_item visit slot k x) (fun _ => True).
Proof.
  intros L S HC HN. destruct x; try discriminate S; cbn [member_supported] in S; apply andb_prop in S; destruct S as (_ & S); cbn [visit_class_item fns].
  - rewrite size_EFnDecl in L. assert (L' : esize x < esize e0) by lia. unfold visit_class_fn. destruct (self_param args) as [a|].
    + destruct (fa_type a); [apply T_fail|]. eapply T_num; [eapply T_and; [apply T_method; eauto|intros _ _]; eapply T_and; [apply T_emit_c; discriminate|intros _ _; apply T_emit_u8]|lia].
    + destruct (String.eqb name NEW); [apply T_fail|]. eapply T_num; [eapply T_and; [apply T_method; eauto|intros _ _]; eapply T_and; [apply T_emit_c; discriminate|intros _ _]; eapply T_and; [apply T_emit|intros _ _; apply T_emit_u8]|lia].
  - rewrite size_EOpDecl in L. assert (L' : esize x < esize e0) by lia. unfold visit_class_op. destruct (self_param args) as [a|]; [|apply T_fail].
    destruct (fa_type a); [apply T_fail|]. eapply T_num; [eapply T_and; [apply T_op_method; eauto|intros _ _]; eapply T_and; [apply T_emit_c; discriminate|intros _ _; apply T_emit_u8]|lia].
Qed.
Lemma T_class_state b C N x v : T b [] C N 0 (match sv_state v with SClass true => fail CLASS_ALREADY_DECLARED | SClass false => m_set_state x (SClass true) | _ => ret tt end) (fun _ => True).
Proof. destruct (sv_state v) as [? ?|?|[|]]; first [apply T_fail|apply T_set_state|apply T_ret; auto]. Qed.
End Step.

Ltac sz0 := rewrite ?size_EIf, ?size_EBlock, ?size_EFnCall, ?size_EReturn, ?size_ELitObject, ?size_ELitList, ?size_ELitAnonymousFn, ?size_EFnDecl, ?size_EOpDecl,
  ?size_ENullPropagate, ?size_EErrorPropagate, ?size_EFieldAccess, ?size_EIs, ?size_EPrefix, ?size_EVarDecl, ?size_ELoop, ?size_EIndex, ?size_EBinary, ?size_EAssignment, ?size_EWhile, ?size_EFor in *; cbn [osize].
Ltac sz := sz0; sz0; try lia.
Ltac inc := match goal with
  | HC : incl (captures _) ?C |- incl (captures _) ?C => let y := fresh in let K := fresh in intros y K; apply HC; cbn [captures]; rewrite ?in_app_iff; first [solve [auto 6]|cbn [captures] in K; rewrite ?in_app_iff in K; tauto]
  | HN : incl (names _) ?N |- incl (names _) ?N => let y := fresh in let K := fresh in intros y K; apply HN; cbn [names]; rewrite ?in_app_iff; first [solve [auto 6]|cbn [names] in K; rewrite ?in_app_iff in K; tauto]
  end.
Ltac subx IH := eapply (sub _ IH); [sz|eassumption|reflexivity|inc|inc].
Ltac prim := first [apply T_emit | apply T_emit_u8 | apply T_emit_c; discriminate | apply T_jump | apply T_patch; lia | apply T_here | apply T_jump_back | apply T_operator | apply T_close_vars | apply T_close | apply T_emit_lftl | apply T_return | apply T_drop_temps | apply T_get_temps | apply T_get_kind | apply T_get_context].
Ltac go IH := first [prim|subx IH|eapply T_and; [first [prim|subx IH]|let HQ := fresh in intros ? HQ; cbn beta in HQ; go IH]].

Ltac ands := repeat match goal with S : _ && _ = true |- _ => let S' := fresh "S" in apply andb_prop in S; destruct S as (S & S') end.
Lemma visit_mono : forall e, mono_at e.
Proof.
  apply expr_size_ind. intros e IH P S b C N HC HN. destruct e; try discriminate S; cbn [adds].
  - (* ident *) apply T_ident. apply HN. left; auto.
  - apply T_emit.
  - apply T_emit.
  - apply T_int.
  - apply T_float.
  - apply T_emit_c. discriminate.
  - apply T_emit.
  - (* function *) cbn [supported] in S. ands. cbn [visit]. unfold visit_anonymous_fn. change (fns (ELitAnonymousFn args return_ e)) with (1 + fns e). apply T_fresh_bind. intros id.
    eapply Tlt_bind; [eapply T_Tlt; eapply (fn_case _ IH); [sz|eassumption|exact HC|exact HN]|intros c; apply Tlt_compiled|lia].
  - (* object *) cbn [supported] in S. rewrite forallb_forall in S. cbn [visit]. unfold visit_object. eapply T_num; [eapply T_and; [apply T_emit|intros _ _]; apply T_each with (g := fun p => fns (snd p)); auto|cbn [fns]; lia].
    intros [k x] Hx. cbn [snd]. specialize (S _ Hx). cbn [snd] in S. eapply T_num; [eapply T_and; [apply T_emit_u8|intros _ _]; eapply T_and; [|intros _ _; eapply T_and; [apply T_emit_c; discriminate|intros _ _; apply T_emit]]|].
    + eapply (sub _ IH); [sz; pose proof (fsize_in _ _ _ Hx); lia|eassumption|reflexivity|..]; intros y Hy; [apply HC|apply HN]; cbn [captures names]; apply in_flat_map; exists (k, x); auto.
    + lia.
  - (* list *) cbn [supported] in S. ands. rewrite forallb_forall in S0. cbn [visit]. unfold visit_list. eapply T_num; [eapply T_and; [apply T_each with (g := fns) (Q := fun _ => True); auto|intros _ _; apply T_emit_u8]|cbn [fns]; lia].
    intros x Hx. specialize (S0 _ Hx). eapply (sub _ IH); [sz; pose proof (lsize_in _ _ Hx); lia|eassumption|reflexivity|..]; intros y Hy; [apply HC|apply HN]; cbn [captures names]; apply in_flat_map; exists x; auto.
  - (* ? *) cbn [supported] in S. assert (S' : supported (target_of P) e = true) by (destruct (pl_chain P); [exact S|exact S|discriminate]). clear S. cbn [visit]. apply T_in_call. unfold visit_null_propagate. eapply Tc_num.
    + eapply Tc_and; [subx IH|intros _ _]. do 3 (eapply Tc_and; [prim|intros _ _]).
      intros s a s' W L K CD E. pose proof (null_exit_spec b C N s a s' W L CD E) as (X1 & X2 & X3 & X4). split; [exact X1|]. split; [exact X2|]. split; [exact X3|]. rewrite X4. symmetry. apply Nat.add_0_r.
    + cbn [fns]; lia.
  - (* !! *) cbn [supported] in S. ands. cbn [visit]. apply T_in_call. eapply T_Tc with (Q := fun _ => True). unfold visit_error_propagate. eapply T_num.
    + eapply T_and; [apply T_get_kind|intros k _]. instantiate (1 := fns e). destruct k; try apply T_fail; (eapply T_num; [go IH|lia]).
    + reflexivity.
  - (* field *) cbn [supported] in S. cbn [visit]. apply T_in_call. eapply T_Tc with (Q := fun _ => True). unfold visit_field_access. eapply T_num; [go IH|cbn [fns]; lia].
  - (* super access *) cbn [visit]. apply T_in_call. eapply T_Tc with (Q := fun _ => True). unfold visit_super_access. eapply T_seq with (n1 := 0) (n2 := 0); [apply T_get_kind| |reflexivity]. intros k _. destruct k; try apply T_fail;
      (eapply T_seq; [apply T_ident; apply HN; left; reflexivity|intros _ _|reflexivity]; eapply T_seq; [apply T_ident; apply HN; right; left; reflexivity|intros _ _; apply T_emit_c; discriminate|reflexivity]).
  - (* call *) cbn [supported] in S. ands. rewrite forallb_forall in S0. cbn [visit]. apply T_in_call. eapply T_Tc with (Q := fun _ => True). unfold visit_fn_call. eapply T_num.
    + eapply T_and; [subx IH|intros _ _]. eapply T_and; [apply T_call_args with (g := fns)|intros _ _; apply T_emit_u8].
      intros x Hx. specialize (S0 _ Hx). eapply (sub _ IH); [sz; pose proof (lsize_in _ _ Hx); lia|eassumption|reflexivity|..]; intros y Hy; [apply HC|apply HN]; cbn [captures names]; apply in_app_iff; right; apply in_flat_map; exists x; auto.
    + cbn [fns]; lia.
  - (* super call *) cbn [supported] in S. ands. rewrite forallb_forall in S0. cbn [visit]. apply T_in_call. eapply T_Tc with (Q := fun _ => True). unfold visit_super_call. eapply T_num.
    + eapply T_and; [apply T_local|intros [v|] _; [|apply T_fail || apply T_panic]]. eapply T_and; [apply T_emit_u8|intros _ _]. eapply T_and; [apply T_call_args with (g := fns)|intros _ _; eapply T_and; [apply T_ident; apply HN; right; left; reflexivity|intros _ _; apply T_emit_u8]].
      intros x Hx. specialize (S0 _ Hx). eapply (sub _ IH); [rewrite size_ESuperCall; pose proof (lsize_in _ _ Hx); lia|eassumption|reflexivity|..]; intros y Hy; [apply HC|apply HN]; cbn [captures names]; try (right; right); apply in_flat_map; exists x; auto.
    + cbn [fns]; lia.
  - (* index *) cbn [supported] in S. ands. cbn [visit]. apply T_in_call. eapply T_Tc. apply T_index; subx IH.
  - (* is *) cbn [supported] in S. cbn [visit]. unfold visit_is. cbn [fns]. assert (NT : In (ta_name type_) N) by (apply HN; cbn [names]; apply in_app_iff; right; left; auto).
    destruct (ta_nullable type_).
    + eapply T_num; [|shelve]. eapply T_and; [subx IH|intros _ _]. do 3 (eapply T_and; [prim|intros _ _]). eapply T_and; [apply T_jump|intros j Hj]. cbn beta in Hj. eapply T_and; [prim|intros _ _]. eapply T_and; [subx IH|intros _ _].
      eapply T_and; [apply T_ident; exact NT|intros _ _]. go IH. Unshelve. lia.
    + eapply T_num; [eapply T_and; [subx IH|intros _ _]; eapply T_and; [apply T_ident; exact NT|intros _ _]; go IH|lia].
  - (* prefix *) cbn [supported] in S. cbn [visit]. unfold visit_prefix. eapply T_num; [go IH|cbn [fns]; lia].
  - (* binary *) cbn [supported] in S. cbn [visit fns]. unfold visit_binary. destruct op; ands; unfold visit_logical, binary_opcode; (eapply T_num; [go IH|lia]).
  - (* assignment *) cbn [supported] in S. cbn [visit fns]. unfold visit_assignment. destruct e1; try discriminate S.
    + (* variable *)
      assert (SL : exists P', supported P' e2 = true /\ pl_stmt P' = false) by (destruct op; eexists; split; try exact S; reflexivity). destruct SL as (P' & S' & ST).
      assert (A : forall l a' i mt, T b [] C N (fns e2) (assign_slot visit l a' i mt op e2) (fun _ => True)).
      { intros l a' i mt. unfold assign_slot. destruct mt; [|apply T_fail].
        assert (X : T b [] C N (fns e2) (visit e2) (fun _ => True)) by (eapply (sub _ IH); [sz|exact S'|exact ST|inc|inc]).
        destruct op; (eapply T_num; [let rec g := first [prim|exact X|eapply T_and; [first [prim|exact X]|intros ? ?; g]] in g|lia]). }
      unfold assign_ident. cbn [fns]. eapply T_seq with (n2 := fns e2); [apply T_local|intros [v|] _; [apply A|]|reflexivity].
      eapply T_seq with (n2 := fns e2); [apply T_resolve; apply HN; left; auto|intros [i|] _; [|apply T_fail]|reflexivity].
      eapply T_seq with (n2 := fns e2); [apply T_get_context|intros c _|reflexivity]. destruct (nth_error (cx_upvalues c) i); [apply A|apply T_panic].
    + (* field *) ands. unfold assign_field. cbn [fns].
      assert (I1 : incl (captures e1) C) by (intros y K; apply HC; cbn [captures]; rewrite in_app_iff; auto). assert (I2 : incl (names e1) N) by (intros y K; apply HN; cbn [names]; rewrite in_app_iff; auto).
      eapply T_seq with (n2 := fns e2); [eapply (sub _ IH); [sz|exact S|reflexivity|exact I1|exact I2]|intros _ _; clear I1 I2|reflexivity]. destruct op; (eapply T_num; [go IH|lia]).
    + (* index *) ands. unfold assign_index. cbn [fns].
      assert (I1 : incl (captures e1_1) C) by (intros y K; apply HC; cbn [captures]; rewrite !in_app_iff; auto). assert (I2 : incl (names e1_1) N) by (intros y K; apply HN; cbn [names]; rewrite !in_app_iff; auto).
      assert (I3 : incl (captures e1_2) C) by (intros y K; apply HC; cbn [captures]; rewrite !in_app_iff; auto). assert (I4 : incl (names e1_2) N) by (intros y K; apply HN; cbn [names]; rewrite !in_app_iff; auto).
      rewrite <- Nat.add_assoc. eapply T_seq with (n2 := fns e1_2 + fns e2); [eapply (sub _ IH); [sz|exact S|reflexivity|exact I1|exact I2]|intros _ _; clear I1 I2|reflexivity].
      eapply T_seq with (n2 := fns e2); [eapply (sub _ IH); [sz|exact S1|reflexivity|exact I3|exact I4]|intros _ _; clear I3 I4|reflexivity]. destruct op; (eapply T_num; [go IH|lia]).
  - (* let *) cbn [supported] in S. ands. cbn [visit fns]. unfold visit_var_decl. change (fns e) with (0 + fns e). rewrite Nat.add_comm.
    assert (X : forall (f : unit -> M unit) D, T b D C N 0 (f tt) (fun _ => True) -> T b D C N (fns e + 0) (bind (visit e) f) (fun _ => True)).
    { intros f D Hf. eapply T_seq; [subx IH|intros [] _; exact Hf|reflexivity]. }
    destruct kind as [x|xs]; apply X.
    + change [x] with ([] ++ [x]). change 0 with (0 + 0). eapply T_bind; [apply T_add_local|intros slot _]. eapply T_seq; [apply T_emit_u8|intros _ _|reflexivity]. apply T_local_type. intros y Hy. apply HN. cbn [names]. apply in_app_iff; auto.
    + change (rev xs) with ([] ++ rev xs). change 0 with (0 + 0). eapply T_bind; [apply T_add_locals|intros items _]. apply T_fields.
  - (* fn *) cbn [supported] in S. ands. cbn [visit]. unfold visit_fn_decl. eapply T_num; [eapply T_and; [apply T_unique|intros _ _]; eapply T_and; [eapply (fn_case _ IH); [sz|eassumption|exact HC|exact HN]|intros c _]; apply T_fresh_bind; intros id; apply Tlt_fn_decl|cbn [fns]; lia].
  - (* op *) cbn [supported] in S. ands. cbn [visit]. unfold visit_op_decl. eapply T_num; [eapply T_and; [apply T_unique|intros _ _]; eapply T_and; [eapply (fn_case _ IH); [sz|eassumption|exact HC|exact HN]|intros c _]; apply T_fresh_bind with (n := 0); intros id|cbn [fns]; lia].
    eapply Tlt_bind; [apply Tlt_compiled| |reflexivity]. intros _. eapply Tlt_bind; [eapply T_Tlt; apply T_emit_c; discriminate| |reflexivity]. intros _. eapply T_Tlt. apply T_emit.
  - (* class *) cbn [supported] in S. ands. cbn [visit fns]. unfold visit_class. apply T_push. eapply TP_num.
    + eapply TP_and with (D2 := []) (n1 := match base with Some x => fns x | None => 0 end) (Q := fun _ => True).
      { destruct base as [x|]; [|apply T_ident; apply HN; left; auto]. cbn [opt_all] in S1. eapply (sub _ IH); [rewrite size_EClassDecl; cbn [osize]; lia|eassumption|reflexivity|..]; intros y Hy; [apply HC|apply HN]; cbn [captures names]; apply in_app_iff; auto. }
      intros _ _. eapply TP_and; [apply T_add_local|intros slot _]. eapply TP_and with (D2 := []); [apply T_emit_u8|intros _ _]. eapply TP_and with (D2 := []); [apply T_local|intros [v|] _]; [|apply TP_fail].
      eapply TP_and with (D2 := []); [apply T_class_state|intros _ _]. eapply TP_and with (D2 := []); [apply T_emit_c; discriminate|intros _ _]. eapply TP_and with (D2 := []); [apply T_emit_u8|intros _ _].
      eapply TP_and with (D2 := []); [apply T_each with (g := fns) (Q := fun _ => True); [|auto]|intros _ _].
      { intros x Hx. rewrite forallb_forall in S0. eapply (T_member _ IH); [rewrite size_EClassDecl; pose proof (lsize_in _ _ Hx); lia|exact (S0 x Hx)|..]; intros y Hy; [apply HC|apply HN]; cbn [captures names]; apply in_app_iff; right; apply in_flat_map; exists x; auto. }
      eapply TP_and with (D2 := []); [apply T_close|intros _ _]. eapply TP_pop. intros sc _. apply T_ret with (Q := fun _ => True). auto.
    + lia.
  - (* import *) cbn [visit fns]. unfold visit_import. change 0 with (0 + 0). eapply T_bind; [apply T_add_locals|intros items _]. 
    eapply T_seq; [apply T_emit_c; discriminate|intros _ _|reflexivity]. eapply T_seq; [apply T_fields|intros _ _|reflexivity].
    destruct module_import as [x|]; [|apply T_ret; auto]. change [x] with ([] ++ [x]). change 0 with (0 + 0). eapply T_bind; [apply T_add_local|intros slot _; apply T_emit_u8].
  - (* export *) cbn [supported] in S. ands. destruct (exported e) eqn:EX; [|discriminate S0]. cbn [visit fns]. unfold visit_export.
    eapply T_seq; [apply T_get_kind|intros k _|reflexivity]. destruct k; try apply T_fail. eapply T_seq; [apply T_top_scope|intros sc _|reflexivity].
    destruct (1 <? sc_depth sc); [apply T_fail|]. eapply T_seq; [apply T_local|intros [v|] _|reflexivity]; [|apply T_panic].
    eapply T_seq; [apply T_emit_u8|intros _ _|reflexivity]. rewrite <- (app_nil_l (adds e)). eapply T_num; [eapply T_bind with (n2 := 0) (D2 := []) (Q := fun _ => True); [apply IH with (P := export_of P); [rewrite size_EExportDecl; lia|exact S0|exact HC|exact HN]|intros _ _]|apply Nat.add_0_r].
    destruct (export_name e); [apply T_emit_c; discriminate|apply T_panic].
  - (* if *) cbn [supported] in S. ands. cbn [visit fns]. unfold visit_if. eapply T_num; [|shelve]. do 4 (eapply T_and; [first [prim|subx IH]|let HQ := fresh in intros ? HQ; cbn beta in HQ]). eapply T_and; [prim|intros _ _].
    eapply T_and with (n1 := match secondary with Some x => fns x | None => 0 end) (Q := fun _ => True); [destruct secondary; [|apply T_emit]|intros _ _; prim].
    cbn [opt_all] in S0. subx IH. Unshelve. lia.
  - (* while *) cbn [supported] in S. destruct e2; try discriminate S. ands. cbn [visit]. unfold visit_while. eapply T_num.
    + eapply T_and; [apply T_here|intros p Hp]. apply T_push. eapply TP_and; [subx IH|intros _ _]. eapply TP_and; [apply T_jump|intros j Hj]. cbn beta in Hj. eapply TP_and; [eapply T_block with (P := stmt_of (loop_of true (loop_kept [e1; EBlock expressions trailing]) P))|intros _ _].
      * intros x Hx. split; [apply IH; apply statements_size in Hx; rewrite ?size_EWhile, ?size_ELoop; lia|]. eapply supported_statements; [|exact Hx]. rewrite S1, S0. reflexivity.
      * rewrite statements_captures. inc.
      * rewrite statements_names. inc.
      * eapply TP_and; [apply T_jump_back|intros _ _]. eapply TP_and; [apply T_patch; lia|intros _ _]. eapply TP_pop. intros sc F. eapply T_and; [apply patches_spec; auto|intros _ _; apply T_emit].
    + cbn [fns]. lia.
  - (* for *) assert (S2 : exists P1 P2 P3, (forall x op l r, e1 = EBinary op l r -> x = tt -> True) /\ supported P3 e2 = true /\ pl_stmt P3 = false /\
      (match e1 with EBinary (BRangeInclusive | BRangeExclusive) l r => supported P1 l = true /\ pl_stmt P1 = false /\ supported P2 r = true /\ pl_stmt P2 = false | _ => supported P1 e1 = true /\ pl_stmt P1 = false end)).
    { cbn [supported] in S. destruct e1 as [| | | | | | | | | | | | | | | | | | |op l r| | | | | | | | | | | | | | |];
        try (ands; eexists _, (iter_of P), _; split; [auto|]; split; [exact S1|]; split; [reflexivity|]; split; [exact S|reflexivity]).
      destruct op; ands; first [eexists _, _, _; split; [auto|]; split; [exact S1|]; split; [reflexivity|]; split; [exact S2|]; split; [reflexivity|]; split; [exact S|reflexivity]
        | eexists _, (iter_of P), _; split; [auto|]; split; [exact S1|]; split; [reflexivity|]; split; [exact S|reflexivity]]. }
    destruct S2 as (P1 & P2 & P3 & _ & SB & SBs & S2). clear S.
    assert (XB : forall b, T b [] C N (fns e2) (visit e2) (fun _ => True)) by (intros b0; eapply (sub _ IH); [sz|exact SB|exact SBs|inc|inc]).
    assert (RANGE : forall incl0 l r, esize l + esize r < esize (EFor variable e1 e2) -> supported P1 l = true -> pl_stmt P1 = false -> supported P2 r = true -> pl_stmt P2 = false -> incl (captures l ++ captures r) C -> incl (names l ++ names r) N ->
       T b [] C N (fns l + fns r + fns e2) (visit_range_loop visit incl0 variable l r e2) (fun _ => True)).
    { intros inc0 l r SZ H1 H2 H3 H4 IC IN. unfold visit_range_loop. eapply T_num.
      - eapply T_and; [eapply (sub _ IH) with (P := P2); [lia|exact H3|exact H4|intros y Hy; apply IC; rewrite in_app_iff; auto|intros y Hy; apply IN; rewrite in_app_iff; auto]|intros _ _].
        eapply T_and; [eapply (sub _ IH) with (P := P1); [lia|exact H1|exact H2|intros y Hy; apply IC; rewrite in_app_iff; auto|intros y Hy; apply IN; rewrite in_app_iff; auto]|intros _ _].
        eapply T_and; [apply T_here|intros p Hp]. apply T_push. eapply TP_and; [apply T_add_local|intros slot _]. do 3 (eapply TP_and; [prim|intros _ _]). eapply TP_and; [apply T_jump|intros j Hj]. cbn beta in Hj.
        eapply TP_and; [apply XB|intros _ _]. do 4 (eapply TP_and; [prim|intros _ _]). eapply TP_pop. intros sc F. do 2 (eapply T_and; [prim|intros _ _]). eapply T_and; [apply T_patch; lia|intros _ _]. eapply T_and; [apply patches_spec; auto|intros _ _]. eapply T_and; [prim|intros _ _; prim].
      - lia. }
    assert (ITER : supported P1 e1 = true -> pl_stmt P1 = false -> T b [] C N (fns e1 + fns e2) (visit_iterator_loop visit variable e1 e2) (fun _ => True)).
    { intros H1 H2. unfold visit_iterator_loop. eapply T_num.
      - eapply T_and; [eapply (sub _ IH) with (P := P1); [sz|exact H1|exact H2|inc|inc]|intros _ _]. do 3 (eapply T_and; [prim|intros _ _]).
        eapply T_and; [apply T_here|intros p Hp]. apply T_push. eapply TP_and; [apply T_add_local|intros slot _]. do 4 (eapply TP_and; [prim|intros _ _]). eapply TP_and; [apply T_jump|intros j Hj]. cbn beta in Hj.
        do 2 (eapply TP_and; [prim|intros _ _]). eapply TP_and; [apply XB|intros _ _]. eapply TP_pop. intros sc F. do 3 (eapply T_and; [prim|intros _ _]). eapply T_and; [apply T_patch; lia|intros _ _]. eapply T_and; [apply patches_spec; auto|intros _ _]. do 2 (eapply T_and; [prim|intros _ _]). prim.
      - lia. }
    cbn [visit fns]. unfold visit_for. destruct e1 as [| | | | | | | | | | | | | | | | | | |op l r| | | | | | | | | | | | | | |]; try (destruct S2 as (S2 & S3); exact (ITER S2 S3)).
    destruct op; try (destruct S2 as (S2 & S3); exact (ITER S2 S3)); destruct S2 as (S2 & S3 & S4 & S5); cbn [fns]; apply RANGE; auto; try (sz; fail); intros y Hy; [apply HC|apply HN|apply HC|apply HN]; cbn [captures names]; rewrite in_app_iff; auto.
  - (* loop *) cbn [supported] in S. destruct e; try discriminate S. ands. cbn [visit]. unfold visit_loop. eapply T_num.
    + eapply T_and; [apply T_here|intros p Hp]. apply T_push. eapply TP_and; [eapply T_block with (P := stmt_of (loop_of true (loop_kept [EBlock expressions trailing]) P))|intros _ _].
      * intros x Hx. split; [apply IH; apply statements_size in Hx; rewrite ?size_EWhile, ?size_ELoop; lia|]. eapply supported_statements; [|exact Hx]. rewrite S, S0. reflexivity.
      * rewrite statements_captures. inc.
      * rewrite statements_names. inc.
      * eapply TP_and; [apply T_jump_back|intros _ _]. eapply TP_pop. intros sc F. eapply T_and; [apply patches_spec; auto|intros _ _; apply T_emit].
    + cbn [fns]. lia.
  - (* block *) cbn [supported] in S. cbn [visit]. eapply T_block with (P := stmt_of P).
    + intros x Hx. split; [apply IH; apply statements_size; exact Hx|]. eapply supported_statements; eauto.
    + rewrite statements_captures. exact HC.
    + rewrite statements_names. exact HN.
  - (* break *) apply T_break.
  - (* continue *) cbn [visit]. unfold visit_continue. eapply T_seq; [apply T_get_context| |reflexivity]. intros c _. destruct (in_context_of KLoop (cx_scopes c)); [|apply T_fail]. eapply T_seq; [apply T_entry_point| |reflexivity]. intros p _. apply T_jump_back.
  - (* return *) cbn [supported] in S. ands. cbn [visit]. unfold visit_return_expr. eapply T_num; [|shelve]. eapply T_and; [apply T_get_kind|intros k _]. eapply T_and with (n1 := fns (EReturn result)) (Q := fun _ => True); [|intros _ _; go IH].
    destruct k; try apply T_fail.
    + destruct result; [cbn [opt_all] in S0; cbn [fns]; subx IH|apply T_emit].
    + destruct result; [cbn [opt_all] in S0; cbn [fns]; subx IH|apply T_emit].
    + destruct result; [apply T_fail|]. eapply T_seq; [apply T_local| |reflexivity]. intros [v|] _; [apply T_emit_u8|apply T_panic].
    Unshelve. cbn. lia.
Qed.
