(** What declarations and assignments leave in the finished bytecode. *)
From Verif.Model Require Import Compiler.
From Verif.Spec Require Import Encoding SupportSpec.
From Verif.Proofs Require Import ExprInd ReachP CodeP CodecP AssemblerP PoolP WellFormedP WellFormedPrimP CaptureP StackP EmitP VisitMonoP FitsP JumpsP ScopesP.
#[local] Open Scope string_scope.
#[local] Open Scope list_scope.
#[local] Open Scope nat_scope.

Lemma moves_incl D C C' n s s' : incl C C' -> moves D C n s s' -> moves D C' n s s'.
Proof. intros I [A1 (N & A2) A3 A4]. split; auto. exists N. eapply mono_incl; [exact I|apply incl_refl|exact A2]. Qed.
Lemma extend_has vs G : has_room (extend vs G) -> has_room G.
Proof. unfold has_room. cbn. rewrite app_length. lia. Qed.

Section Decls.
Variable lit : nat -> fn_bytecode.
Local Notation fits := (fits lit).
Local Notation static := (static lit).
Local Notation ED := (ED lit).
Local Notation EE := (EE lit).

Lemma ED_incl {A} P D C C' n (m : M A) R : incl C C' -> ED P D C n m R -> ED P D C' n m R.
Proof. intros I H s a s' W PL E. destruct (H s a s' W PL E) as (M & K). split; [eapply moves_incl; eauto|exact K]. Qed.

(** The variable [x], the newest one of [G], is in [slot]. *)
Definition added (x : string) (slot : nat) (G : ctx) : Prop :=
  (exists fl, G = extend [(x, fl)] (drop 1 G)) /\ slot = List.length (g_vars (drop 1 G)) /\ has_room (drop 1 G) /\ slot < 256.
Lemma ED_add_local P C x st : ED P [x] C 0 (m_add_local x st) (fun G _ slot p q => p = q /\ added x slot G).
Proof.
  intros s a s' W PL E. destruct (T_moves [] [x] C 0 (m_add_local x st) (fun _ => True) s a s' (fun b N _ => T_add_local b C N x st) W E) as (M & _). split; [exact M|].
  intros G ST F. apply on_scopes_ok in E. destruct E as (c & r & n & ss' & Es & E & ->). split; [subst s; reflexivity|]. apply add_local_ok in E. destruct E as (sc & l & E & -> & ->).
  set (s' := CState (set_scopes _ c :: r) n) in *. destruct (fits_small _ _ _ _ _ (mv_wf _ _ _ _ _ M) F) as (L1 & _ & L3). pose proof (f_slots _ _ _ _ _ F) as FS.
  assert (TS : total_slots (ss_scopes (cx_scopes c)) = List.length (all_vars (ss_scopes (cx_scopes c)))).
  { apply total_length. subst s. exact (cw_slots _ _ (wf_top _ _ _ W)). }
  assert (LV : List.length (all_vars (scopes s')) = S (total_slots (ss_scopes (cx_scopes c)))) by (rewrite TS, E; reflexivity).
  destruct (mv_mono _ _ _ _ _ M) as (N & O). pose proof (fits_names _ _ _ _ _ _ _ _ _ W (mv_wf _ _ _ _ _ M) O F) as FN. cbn [List.length] in FN.
  assert (SC : slot_count s' = Nat.max (S (total_slots (ss_scopes (cx_scopes c)))) (ss_slot_count (cx_scopes c))) by reflexivity.
  unfold added, has_room. cbn [drop g_vars g_bc]. rewrite skipn_length. split; [|lia].
  destruct (g_vars G) as [|[y fl] vs] eqn:EG; [discriminate|]. cbn in FN. injection FN as <-. exists fl. destruct G. cbn in *. subst. reflexivity.
Qed.
Lemma ED_args P C args : ED P (rev (map fa_name args)) C 0 (each (fun arg => slot <- m_add_local (fa_name arg) (SLocal false true) ;; visit_local_type (fa_type arg) slot) args)
  (fun G _ _ p q => params_code (drop (List.length args) G) args p q G).
Proof.
  induction args as [|a args IH]; cbn [each map rev].
  - eapply ED_post; [apply ED_ret|]. cbn beta. intros G k u p q (_ & ->). cbn [params_code List.length]. rewrite drop_0. auto.
  - assert (X : ED P [fa_name a] C 0 (slot <- m_add_local (fa_name a) (SLocal false true) ;; visit_local_type (fa_type a) slot)
      (fun G _ _ p q => exists slot, added (fa_name a) slot G /\ (u8_of slot = slot -> checks G (fa_type a) slot p q))).
    { eapply (ED_seq lit [fa_name a] [] 0 0); [apply ED_add_local|intros slot; apply EE_local_type|reflexivity..|].
      cbn beta. intros G k b p q slot p1 (<- & H1) H2. cbn [List.length] in H1. rewrite drop_0 in H1. eauto. }
    eapply (ED_then lit [fa_name a] (rev (map fa_name args)) 0 0); [exact X|exact IH|reflexivity..|].
    cbn beta. intros G k b p q u p1 (slot & ((fl & H1) & H2 & H3 & H4) & H5) H6. rewrite rev_length, map_length in *. rewrite drop_drop, Nat.add_1_r in *. cbn [params_code List.length]. exists fl, p1.
    split; [exact H3|]. rewrite <- H1. split; [rewrite <- H2; apply H5; apply u8_small; exact H4|exact H6].
Qed.
(** Slot 0 is the receiver, a parameter named [self] in methods. *)
Definition takes (w : bool) (args : list fn_arg) (self : string) (rest : list fn_arg) : Prop :=
  if w then self = "" /\ rest = args else exists a, args = a :: rest /\ fa_name a = self /\ fa_type a = None.
Lemma takes_names w args self rest : takes w args self rest -> slot0 w ++ map fa_name args = self :: map fa_name rest.
Proof. destruct w; cbn [takes slot0]; [intros (-> & ->); reflexivity|]. intros (a & -> & <- & _). reflexivity. Qed.
Lemma ED_params P C w args self rest : takes w args self rest -> ED P (rev (self :: map fa_name rest)) C 0 (visit_args w args)
  (fun G _ _ p q => exists fl G0, G0 = drop (S (List.length rest)) G /\ has_room G0 /\ params_code (extend [(self, fl)] G0) rest p q G).
Proof.
  destruct w; cbn [takes].
  - intros (-> & ->). unfold visit_args. cbn [rev]. assert (X : ED P [""] C 0 (m_add_local "" (SLocal false true) ;;; ret tt) (fun G _ _ p q => p = q /\ exists slot, added "" slot G)).
    { eapply (ED_then lit [""] [] 0 0); [apply ED_add_local|apply ED_ret|reflexivity..|]. cbn beta. intros G k b p q slot p1 (<- & H1) (_ & <-). cbn [List.length] in H1. rewrite drop_0 in H1. eauto. }
    eapply (ED_then lit [""] (rev (map fa_name args)) 0 0); [exact X|apply ED_args|reflexivity..|].
    cbn beta. intros G k b p q u p1 (<- & slot & ((fl & H1) & H2 & H3 & H4)) H6. rewrite rev_length, map_length in *. rewrite drop_drop, Nat.add_1_r in *. exists fl, (drop (S (List.length args)) G). split; [auto|]. split; [exact H3|]. rewrite <- H1. exact H6.
  - intros (a & -> & <- & HT). eapply ED_ext with (m := each (fun arg => slot <- m_add_local (fa_name arg) (SLocal false true) ;; visit_local_type (fa_type arg) slot) (a :: rest)); [reflexivity|].
    eapply ED_post; [apply (ED_args P C (a :: rest))|]. cbn beta. intros G k u p q H. cbn [params_code List.length] in H. destruct H as (fl & p1 & H1 & H2 & H3). rewrite HT in H2. cbn [checks] in H2. subst p1. eauto.
Qed.
Lemma hoists_app G xs ys G1 G2 : hoists G xs G1 -> hoists G1 ys G2 -> hoists G (xs ++ ys) G2.
Proof. revert G. induction xs as [|x xs IH]; cbn; intros G H1 H2; [subst; auto|]. destruct H1 as (fl & H0 & H1). eauto. Qed.
Lemma ED_scan P C : forall e, ED P (rev (hoisted_name e)) C 0 (scan_expr e) (fun G _ _ p q => p = q /\ hoists (drop (List.length (hoisted_name e)) G) (hoisted_name e) G).
Proof.
  fix ED_scan 1. intros e. destruct e; try (exact (ED_scan e)); try (eapply ED_post; [apply ED_ret|]; cbn beta; intros G k u p q (_ & <-); split; [reflexivity|]; cbn; rewrite drop_0; reflexivity).
  all: cbn [scan_expr hoisted_name rev app]; (eapply (ED_then lit [name] [] 0 0); [apply ED_add_local|apply ED_ret|reflexivity..|]); cbn beta; intros G k b p q slot p1 (<- & H1) (_ & <-); (split; [reflexivity|]);
    cbn [List.length] in *; rewrite drop_0 in H1; destruct H1 as ((fl & H1) & H2 & H3 & H4); cbn [hoists]; exists fl; auto.
Qed.
Lemma ED_hoists P C es t : ED P (rev (hoisted es t)) C 0 (scan_item_decls es t)
  (fun G _ _ p q => p = q /\ hoists (drop (List.length (hoisted es t)) G) (hoisted es t) G).
Proof.
  unfold scan_item_decls, hoisted. change (block_items es t) with (statements es t). generalize (statements es t) as l. induction l as [|e l IH]; cbn [each flat_map].
  - eapply ED_post; [apply ED_ret|]. cbn beta. intros G k u p q (_ & ->). cbn [hoists List.length]. rewrite drop_0. auto.
  - rewrite rev_app_distr. eapply (ED_then lit _ _ 0 0); [apply ED_scan|exact IH|reflexivity..|]. cbn beta. intros G k b p q u p1 (<- & H1) (<- & H2). split; [reflexivity|]. rewrite rev_length in H1. rewrite drop_drop in H1. rewrite app_length, Nat.add_comm. eapply hoists_app; eauto.
Qed.

(** Destructuring. *)
Lemma ED_add_locals P C xs : ED P (rev xs) C 0 (add_locals xs)
  (fun G _ items p q => p = q /\ hoists (drop (List.length xs) G) xs G /\ items = combine xs (seq (List.length (g_vars (drop (List.length xs) G))) (List.length xs))).
Proof.
  induction xs as [|x xs IH]; cbn [add_locals rev].
  - eapply ED_post; [apply ED_ret|]. cbn beta. intros G k u p q (-> & ->). cbn [hoists List.length]. rewrite drop_0. auto.
  - eapply (ED_seq lit [x] (rev xs) 0 0) with (R2 := fun slot G k items p q => p = q /\ exists rest, items = (x, slot) :: rest /\ hoists (drop (List.length xs) G) xs G /\ rest = combine xs (seq (List.length (g_vars (drop (List.length xs) G))) (List.length xs)));
      [apply ED_add_local| |reflexivity..|].
    + intros slot. eapply (ED_seq lit (rev xs) [] 0 0); [exact IH|intros rest; apply ED_ret|reflexivity..|]. cbn beta. intros G k b p q rest p1 (<- & H1 & H2) (-> & <-). cbn [List.length] in H1, H2. rewrite drop_0 in H1, H2. split; [reflexivity|]. eauto.
    + cbn beta. intros G k b p q slot p1 (<- & H1) (<- & rest & -> & H2 & ->). split; [reflexivity|]. rewrite rev_length in H1. destruct H1 as ((fl & H1) & H3 & H4 & H5). rewrite drop_drop, Nat.add_1_r in *.
      cbn [hoists List.length]. split; [exists fl; rewrite <- H1; auto|]. cbn [seq combine]. rewrite <- H3. f_equal. rewrite H1 at 1. cbn [extend g_vars app List.length]. rewrite <- H3. reflexivity.
Qed.
Fixpoint fields_at (bc : bytecode) (items : list (string * nat)) (p q : nat) : Prop :=
  match items with
  | [] => p = q
  | (x, j) :: r => exists p1 p2 p3 p4, at_ bc p (IByte OpDup 0) p1 /\ at_const bc OpLoadField (CSymbol x) p1 p2 /\
      at_ bc p2 (IByte OpStoreLocal (u8_of j)) p3 /\ at_ bc p3 (INone OpPop) p4 /\ fields_at bc r p4 q
  end.
Lemma EE_fields_to_locals P C items : EE P C 0 (emit_fields_to_locals items) (fun G _ _ p q => fields_at (g_bc G) items p q).
Proof.
  unfold emit_fields_to_locals. apply (EE_each lit P C _ (fun G x p q => exists p1 p2 p3, at_ (g_bc G) p (IByte OpDup 0) p1 /\ at_const (g_bc G) OpLoadField (CSymbol (fst x)) p1 p2 /\
      at_ (g_bc G) p2 (IByte OpStoreLocal (u8_of (snd x))) p3 /\ at_ (g_bc G) p3 (INone OpPop) q) (fun G l p q => fields_at (g_bc G) l p q)).
  - intros x _. eapply (EE_then lit 0 0); [apply EE_emit_u8; reflexivity| |reflexivity|].
    + eapply (EE_then lit 0 0); [apply EE_emit_c; [reflexivity|discriminate|apply symbol_exact]| |reflexivity|].
      * eapply (EE_then lit 0 0); [apply EE_emit_u8; reflexivity|apply EE_emit; reflexivity|reflexivity|]. intros G k b p q a p1 H1 H2. exact (ex_intro (fun p1 => at_ (g_bc G) p (IByte OpStoreLocal (u8_of (snd x))) p1 /\ at_ (g_bc G) p1 (INone OpPop) q) p1 (conj H1 H2)).
      * intros G k b p q a p1 H1 (p2 & H2 & H3). exact (ex_intro (fun p1 => exists p2, at_const (g_bc G) OpLoadField (CSymbol (fst x)) p p1 /\ at_ (g_bc G) p1 (IByte OpStoreLocal (u8_of (snd x))) p2 /\ at_ (g_bc G) p2 (INone OpPop) q) p1 (ex_intro _ p2 (conj H1 (conj H2 H3)))).
    + cbn beta. intros G k b p q a p1 H1 (p2 & p3 & H2 & H3 & H4). eauto 10.
  - reflexivity.
  - cbn beta. intros G [x j] r p p4 q (p1 & p2 & p3 & H1 & H2 & H3 & H4) H5. cbn [fields_at]. eauto 12.
Qed.
Lemma destructures_of xs : forall G G' p q, bc_slot_count (g_bc G) <= 256 -> hoists G xs G' -> fields_at (g_bc G) (combine xs (seq (List.length (g_vars G)) (List.length xs))) p q -> destructures G xs p q G'.
Proof.
  induction xs as [|x xs IH]; intros G G' p q B; cbn [hoists List.length seq combine fields_at destructures]; [intros -> ->; auto|].
  intros (fl & H1 & H2) (p1 & p2 & p3 & p4 & H3 & H4 & H5 & H6 & H7). exists fl, p1, p2, p3, p4. rewrite u8_small in H5 by (unfold has_room in H1; lia).
  split; [exact H1|]. split; [exact H3|]. split; [exact H4|]. split; [exact H5|]. split; [exact H6|]. apply IH; [exact B|exact H2|exact H7].
Qed.
Lemma ED_tame {A} P D C n (m : M A) R : ED P D C n m R -> ED P D C n m (fun G k a p q => bc_slot_count (g_bc G) <= 256 /\ R G k a p q).
Proof.
  intros H s a s' W PL E. destruct (H s a s' W PL E) as (M & K). split; [exact M|]. intros G S F. split; [|auto]. pose proof (f_tame _ _ _ _ _ F) as TM. inversion TM as [bc L1 L2 L3 L4 EQ]. exact L2.
Qed.
Lemma ED_destructure P C xs : ED P (rev xs) C 0 (items <- add_locals xs ;; emit_fields_to_locals items) (fun G _ _ p q => destructures (drop (List.length xs) G) xs p q G).
Proof.
  eapply ED_post; [apply ED_tame; eapply (ED_seq lit (rev xs) [] 0 0); [apply ED_add_locals|intros items; apply EE_fields_to_locals|reflexivity..|]|].
  - cbn beta. intros G k b p q items p1 (<- & H1 & ->) H2. cbn [List.length] in H1, H2. rewrite drop_0 in H1, H2. exact (conj H1 H2).
  - cbn beta. intros G k b p q (B & H1 & H2). apply destructures_of; [exact B|exact H1|exact H2].
Qed.

(** ** Assignment *)
Lemma EE_get_context P C : EE P C 0 get_context (fun _ _ _ p q => p = q).
Proof.
  intros s a s' W PL E. split; [apply (T_moves [] _ _ _ _ (fun _ => True) s a s' (fun b N _ => T_get_context b C N) W E)|].
  intros G S F. unfold get_context in E. destruct (cs_stack s); [discriminate|]. injection E as _ <-. reflexivity.
Qed.
Lemma EE_get_kind P C : EE P C 0 get_kind (fun _ _ _ p q => p = q).
Proof. intros s a s' W PL E. split; [apply (T_moves [] _ _ _ _ (fun _ => True) s a s' (fun b N _ => T_get_kind b C N) W E)|]. apply get_kind_ok in E. destruct E as (-> & _). reflexivity. Qed.
Lemma EE_kind P C : EE P C 0 get_kind (fun G _ a p q => p = q /\ g_fn G = role_of a).
Proof.
  intros s a s' W PL E. split; [apply (T_moves [] _ _ _ _ (fun _ => True) s a s' (fun b N _ => T_get_kind b C N) W E)|]. intros G S F. apply get_kind_ok in E. destruct E as (-> & ->). split; [reflexivity|exact (f_fn _ _ _ _ _ F)].
Qed.
Lemma set_state_asm x st s u s' : wf s -> m_set_state x st s = Ok (u, s') -> cx_asm (top s') = cx_asm (top s).
Proof. intros W E. apply on_scopes_ok in E. destruct E as (c & r & k & ss' & -> & _ & ->). reflexivity. Qed.
Lemma EE_set_state P C x st : EE P C 0 (m_set_state x st) (fun _ _ _ p q => p = q).
Proof.
  intros s a s' W PL E. split; [apply (T_moves [] _ _ _ _ (fun _ => True) s a s' (fun b N _ => T_set_state b C N x st) W E)|]. intros G S F. unfold pos, data. rewrite (set_state_asm _ _ _ _ _ W E). reflexivity.
Qed.
Definition assigned (ld as_ : ctx -> nat -> nat -> Prop) (R : ctx -> nat -> unit -> nat -> nat -> Prop) (op : assignop) (G : ctx) (k p q : nat) : Prop :=
  match op with
  | AAssign => exists p1, R G k tt p p1 /\ as_ G p1 q
  | _ => exists p1 p2 p3, ld G p p1 /\ R G k tt p1 p2 /\ operator_code G op p2 p3 /\ as_ G p3 q
  end.
Lemma EE_assign_slot P C n ld as_ slot mt op rhs R : vm_operands ld = ByteOperand -> vm_operands as_ = ByteOperand -> EE P C n (visit rhs) R ->
  EE P C n (assign_slot visit ld as_ slot mt op rhs) (fun G k _ p q => assigned (fun G p q => at_ (g_bc G) p (IByte ld (u8_of slot)) q) (fun G p q => at_ (g_bc G) p (IByte as_ (u8_of slot)) q) R op G k p q).
Proof.
  intros H1 H2 H. unfold assign_slot. destruct mt; [|apply ED_fail].
  assert (X : EE P C n (bind (emit_u8 ld (u8_of slot)) (fun _ => bind (visit rhs) (fun _ => bind (visit_operator op) (fun _ => emit_u8 as_ (u8_of slot)))))
    (fun G k _ p q => exists p1 p2 p3, at_ (g_bc G) p (IByte ld (u8_of slot)) p1 /\ R G k tt p1 p2 /\ operator_code G op p2 p3 /\ at_ (g_bc G) p3 (IByte as_ (u8_of slot)) q)).
  { eapply (EE_then lit 0 n); [apply EE_emit_u8; exact H1| |reflexivity|].
    - eapply (EE_then lit n 0); [exact H| |lia|].
      + eapply (EE_then lit 0 0); [apply EE_operator|apply EE_emit_u8; exact H2|reflexivity|]. intros G k b p q a p1 X1 X2. exact (ex_intro (fun p1 => operator_code G op p p1 /\ at_ (g_bc G) p1 (IByte as_ (u8_of slot)) q) p1 (conj X1 X2)).
      + intros G k b p q [] p1 X1 (p2 & X2 & X3). exact (ex_intro (fun p1 => exists p2, R G k tt p p1 /\ operator_code G op p1 p2 /\ at_ (g_bc G) p2 (IByte as_ (u8_of slot)) q) p1 (ex_intro _ p2 (conj X1 (conj X2 X3)))).
    - cbn beta. intros G k b p q a p1 X1 (p2 & p3 & X2 & X3 & X4). rewrite Nat.add_0_r in *. eauto 10. }
  destruct op; try exact X. eapply (EE_then lit n 0); [exact H|apply EE_emit_u8; exact H2|lia|]. cbn beta. intros G k b p q [] p1 X1 X2. cbn [assigned]. eauto.
Qed.
Lemma EE_assign_ident P C n op x rhs R : EE P C n (visit rhs) R -> EE P C n (assign_ident visit op x rhs) (fun G k _ p q => assigned (fun G => loads G x) (fun G => assigns G x) R op G k p q).
Proof.
  intros H. assert (ST : forall (ld1 ld2 as1 as2 : ctx -> nat -> nat -> Prop) G k p q, (forall p q, ld1 G p q -> ld2 G p q) -> (forall p q, as1 G p q -> as2 G p q) -> assigned ld1 as1 R op G k p q -> assigned ld2 as2 R op G k p q).
  { intros ld1 ld2 as1 as2 G k p q X1 X2. unfold assigned. destruct op; [|intros (p1 & p2 & p3 & Y1 & Y2 & Y3 & Y4); eauto 10..]. intros (p1 & Y1 & Y2). eauto. }
  unfold assign_ident. eapply (EE_seq lit 0 n) with (R2 := fun a G k _ p q => found G x a -> assigned (fun G => loads G x) (fun G => assigns G x) R op G k p q); [apply EE_local| |reflexivity|].
  - intros [v|].
    + eapply ED_post; [apply EE_assign_slot; [reflexivity..|exact H]|]. cbn beta. intros G k _ p q X ((fl & H1) & H2). rewrite H2 in X. eapply ST; [| |exact X]; cbn beta; intros p' q' Y; unfold loads, assigns; rewrite H1; exact Y.
    + eapply (EE_seq lit 0 n) with (R2 := fun a G k _ p q => resolves G x a -> found G x None -> assigned (fun G => loads G x) (fun G => assigns G x) R op G k p q); [apply EE_resolve| |reflexivity|].
      * intros [i|]; [|apply ED_fail]. eapply (EE_seq lit 0 n) with (R2 := fun _ G k _ p q => resolves G x (Some i) -> found G x None -> assigned (fun G => loads G x) (fun G => assigns G x) R op G k p q); [apply EE_get_context| |reflexivity|].
        -- intros c. destruct (nth_error (cx_upvalues c) i) as [d|]; [|apply ED_panic]. eapply ED_post; [apply EE_assign_slot; [reflexivity..|exact H]|]. cbn beta. intros G k _ p q X (H1 & H2) H3. rewrite H2 in X.
           eapply ST; [| |exact X]; cbn beta; intros p' q' Y; unfold loads, assigns; cbn in H3; rewrite H3; eauto.
        -- cbn beta. intros G k _ p q a p1 <- H2 H3 H4. rewrite Nat.add_0_r in *. auto.
      * cbn beta. intros G k _ p q a p1 (<- & H1) H2. rewrite Nat.add_0_r in *. auto.
  - cbn beta. intros G k _ p q a p1 (<- & H1) H2. rewrite Nat.add_0_r in *. auto.
Qed.

(** ** Lists and objects *)
Lemma deep_deep a b G : g_deep a (g_deep b G) = g_deep (b + a) G.
Proof. unfold g_deep. cbn. rewrite Nat.add_assoc. reflexivity. Qed.
Lemma EE_items P C (cd : ctx -> nat -> expr -> nat -> nat -> Prop) es : (forall e d, In e es -> EE P C (fns e) (visit e) (fun G k _ p q => cd (g_deep d G) k e p q)) ->
  forall d, EE P C (list_sum (map fns es)) (each visit es) (fun G k _ p q => list_code cd (g_deep d G) k es p q).
Proof.
  induction es as [|e es IH]; intros H d; cbn [each map list_sum fold_right].
  - eapply ED_post; [apply ED_ret|]. cbn beta. intros G k a p q (_ & ->). reflexivity.
  - eapply (EE_then lit (fns e) (list_sum (map fns es))); [apply (H e d); left; reflexivity|apply (IH (fun x d' Hx => H x d' (or_intror Hx)) (d + 1))|reflexivity|].
    cbn beta. intros G k b p q a p1 H1 H2. cbn [list_code]. exists p1. rewrite deep_deep. auto.
Qed.
Lemma EE_fields P C (cd : ctx -> nat -> expr -> nat -> nat -> Prop) items : (forall x e, In (x, e) items -> EE P C (fns e) (visit e) (fun G k _ p q => cd (g_deep 2 G) k e p q)) ->
  EE P C (list_sum (map (fun p => fns (snd p)) items)) (each (fun p => match p with (k, e) => emit_u8 OpDup 0 ;;; visit e ;;; emit_c OpStoreField (CSymbol k) ;;; emit OpPop end) items)
    (fun G k _ p q => fields_code cd G k items p q).
Proof.
  induction items as [|[x e] items IH]; intros H; cbn [each map list_sum fold_right snd].
  - eapply ED_post; [apply ED_ret|]. cbn beta. intros G k a p q (_ & ->). reflexivity.
  - eapply (EE_then lit (fns e) (list_sum (map (fun p => fns (snd p)) items))); [|apply (IH (fun y e' Hx => H y e' (or_intror Hx)))|reflexivity|].
    + eapply (EE_then lit 0 (fns e)); [apply EE_emit_u8; reflexivity| |reflexivity|].
      * eapply (EE_then lit (fns e) 0); [apply (H x e); left; reflexivity| |lia|].
        -- eapply (EE_then lit 0 0); [apply EE_emit_c; [reflexivity|discriminate|apply symbol_exact]|apply EE_emit; reflexivity|reflexivity|]. intros G k b p q a p1 X1 X2. exact (ex_intro (fun p1 => at_const (g_bc G) OpStoreField (CSymbol x) p p1 /\ at_ (g_bc G) p1 (INone OpPop) q) p1 (conj X1 X2)).
        -- intros G k b p q a p1 X1 (p2 & X2 & X3). exact (ex_intro (fun p1 => exists p2, cd (g_deep 2 G) k e p p1 /\ at_const (g_bc G) OpStoreField (CSymbol x) p1 p2 /\ at_ (g_bc G) p2 (INone OpPop) q) p1 (ex_intro _ p2 (conj X1 (conj X2 X3)))).
      * intros G k b p q a p1 X1 X2. rewrite Nat.add_0_r in X2. exact (ex_intro (fun p1 => at_ (g_bc G) p (IByte OpDup 0) p1 /\ exists p2 p3, cd (g_deep 2 G) k e p1 p2 /\ at_const (g_bc G) OpStoreField (CSymbol x) p2 p3 /\ at_ (g_bc G) p3 (INone OpPop) q) p1 (conj X1 X2)).
    + cbn beta. intros G k b p q a p4 (p1 & X1 & p2 & p3 & X2 & X3 & X4) X5. cbn [fields_code]. eauto 12.
Qed.

(** ** Literals *)
Lemma EE_int P C z : EE P C 0 (visit_int z) (fun G k _ p q => code lit G k (ELitInt z) p q).
Proof.
  unfold visit_int. cbn [code]. destruct (Z.eqb z 0); [apply EE_emit; reflexivity|]. destruct (Z.eqb z 1); [apply EE_emit; reflexivity|].
  apply EE_emit_c; [reflexivity|discriminate|]. intros [] H; try discriminate. cbn in H. apply Z.eqb_eq in H. congruence.
Qed.
Lemma f64_zero_or_eq x y : f64_eqb y x = true -> f64_eqb x f64_zero = false -> y = x.
Proof. intros H HZ. apply SFeqb_eq in H. destruct H as [H|(s & s' & -> & ->)]; [exact H|discriminate HZ]. Qed.
Lemma EE_float P C z : EE P C 0 (visit_float z) (fun G k _ p q => code lit G k (ELitFloat z) p q).
Proof.
  unfold visit_float. cbn [code]. destruct (f64_eqb z f64_zero) eqn:EZ; [apply EE_emit; reflexivity|]. destruct (f64_eqb z f64_one); [apply EE_emit; reflexivity|].
  apply EE_emit_c; [reflexivity|discriminate|]. intros [] H; try discriminate. cbn in H. f_equal. apply f64_zero_or_eq; assumption.
Qed.
Lemma EE_string P C x : EE P C 0 (emit_c OpPushConst (CString x)) (fun G k _ p q => code lit G k (ELitString x) p q).
Proof. cbn [code]. apply EE_emit_c; [reflexivity|discriminate|]. intros [] H; try discriminate. cbn in H. apply String.eqb_eq in H. congruence. Qed.
End Decls.
