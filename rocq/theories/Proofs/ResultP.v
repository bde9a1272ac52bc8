(** Proofs about the results of the prelude, and about !! and or. *)
From Verif.Spec Require Import ResultSpec GrammarSpec.
From Verif.Proofs Require Import FlowP StackP MonoP RangeP.
#[local] Open Scope string_scope.
#[local] Open Scope list_scope.
#[local] Open Scope nat_scope.

Section Steps.
Variables (w : world) (pg : program).
Notation it n := (interpreter w pg n).
Lemma super_S n S k args m : enough <= s_room S -> i_eval (it (Datatypes.S n)) S k (ESuperCall args) m =
  vbind (load (s_env S) "self" m) (fun self m1 =>
  eval_list (it n) (deep 1 S) k args m1 (fun vs m2 =>
  vbind (load (s_env S) "super" m2) (fun c m3 =>
  with_vm (VM.lift (as_class c)) m3 (fun class m4 => initialize (it n) (s_room S) class self vs m4)))).
Proof. intros H. rewrite eval_S. unfold eval. apply Nat.ltb_ge in H. now rewrite H. Qed.
Lemma call_expr_S n S k f args m : enough <= s_room S -> i_eval (it (Datatypes.S n)) S k (EFnCall f args) m =
  chained S (vbind (i_eval (it n) (target S) k f m) (fun fv m1 =>
      eval_list (it n) (deep 1 S) (k + fns f) args m1 (fun vs m2 => i_call (it n) (s_room S) fv vs m2))).
Proof. intros H. rewrite eval_S. unfold eval. apply Nat.ltb_ge in H. now rewrite H. Qed.
Lemma propagate_S n S k x m : enough <= s_room S -> i_eval (it (Datatypes.S n)) S k (EErrorPropagate x) m =
  chained S (vbind (i_eval (it n) (target S) k x m) (fun v m1 =>
      with_vm (get_field "is_ok" v) m1 (fun ok m2 => as_condition ok m2 (fun b =>
      if b then with_vm (get_field "result" v) m2 AVal
      else match s_fn S with
           | Some (Returning rt) => check (s_env S) rt v m2 (fun m3 => AReturn v m3)
           | _ => AUnknown
           end)))).
Proof. intros H. rewrite eval_S. unfold eval. apply Nat.ltb_ge in H. now rewrite H. Qed.
End Steps.

Lemma vbind_id a : vbind a (fun v m => AVal v m) = a.
Proof. now destruct a. Qed.

(** * Memory that grows *)
Lemma add_cells m xs : only_adds m (set_cells (m_cells m ++ xs) m).
Proof. repeat split; auto. intros l H. cbn [set_cells m_cells]. now rewrite nth_error_app1. Qed.
Lemma adds_refl m : only_adds m m.
Proof. repeat split; auto. Qed.
Lemma adds_len m m' : only_adds m m' -> List.length (m_cells m) <= List.length (m_cells m').
Proof.
  intros (A & _). destruct (le_lt_dec (List.length (m_cells m)) (List.length (m_cells m'))) as [H|H]; [exact H|exfalso].
  specialize (A _ H). rewrite (proj2 (nth_error_None (m_cells m') _) (le_n _)) in A. symmetry in A. apply nth_error_None in A. lia.
Qed.
Lemma adds_trans a b c : only_adds a b -> only_adds b c -> only_adds a c.
Proof.
  intros AB BC. pose proof (adds_len _ _ AB) as L. destruct AB as (A1 & A2 & A3 & A4 & A5 & A6 & A7 & A8 & A9 & A10). destruct BC as (B1 & B2 & B3 & B4 & B5 & B6 & B7 & B8 & B9 & B10).
  split; [|split; [|split; [|repeat split; congruence]]].
  - intros l H. rewrite B1 by lia. now apply A1.
  - auto.
  - auto.
Qed.
Lemma adds_cell m m' l v : only_adds m m' -> nth_error (m_cells m) l = Some v -> nth_error (m_cells m') l = Some v.
Proof. intros (A & _) H. rewrite A; auto. apply nth_error_Some. congruence. Qed.
Lemma adds_holds m m' E x v : only_adds m m' -> holds E x m v -> holds E x m' v.
Proof. intros A (l & B & C). exists l. split; auto. now apply (adds_cell _ _ _ _ A). Qed.
Lemma old_class k fs s o x : object_class o (vm_heap s) = Ok x -> object_class o (vm_heap (with_instance k fs s)) = Ok x.
Proof.
  unfold object_class, with_instance. cbn. destruct (nth_error (h_objects (vm_heap s)) o) as [ob|] eqn:E; [|discriminate].
  rewrite nth_error_app1 by (apply nth_error_Some; congruence). now rewrite E.
Qed.
Lemma add_object m k fs xs : only_adds m (set_cells (m_cells m ++ xs) (set_vm (with_instance k fs (m_vm m)) m)).
Proof.
  split; [|split; [|split; [|repeat split; auto]]].
  - intros l H. cbn [set_cells set_vm m_cells]. now rewrite nth_error_app1.
  - intros o f x. apply old_field.
  - intros o x. apply old_class.
Qed.
Lemma adds_class_of m m' v c : only_adds m m' -> class_of_value v (m_vm m) = ROk c (m_vm m) -> class_of_value v (m_vm m') = ROk c (m_vm m').
Proof.
  intros (A1 & A2 & A3 & A4 & A5 & A6 & A7 & A8 & A9 & A10). unfold class_of_value.
  assert (O : as_object v (vm_heap (m_vm m')) = as_object v (vm_heap (m_vm m))) by (destruct v; cbn [as_object]; rewrite ?A4, ?A5; reflexivity).
  rewrite O, A8. destruct (as_object v (vm_heap (m_vm m))) as [o|e| |]; try discriminate; [|congruence].
  destruct (object_class o (vm_heap (m_vm m))) as [[k|]|e| |] eqn:E; try discriminate; rewrite (A3 _ _ E); congruence.
Qed.
Lemma class_of_state v s c s' : class_of_value v s = ROk c s' -> s' = s.
Proof.
  unfold class_of_value. destruct (as_object v (vm_heap s)) as [o|e| |]; try discriminate; [|congruence]. destruct (object_class o (vm_heap s)) as [[k|]|e| |]; congruence.
Qed.
Lemma adds_instance m m' v c : only_adds m m' -> instance m v c -> instance m' v c.
Proof.
  intros A. pose proof (adds_class_of m m' v) as B. unfold instance, is_value_of_type, rbind. 
  destruct (class_of_value v (m_vm m)) as [k s|e s| |] eqn:E; try discriminate. pose proof (class_of_state _ _ _ _ E) as ->. rewrite (B k A eq_refl).
  destruct A as (_ & _ & _ & _ & A5 & _). destruct k as [k|]; [|discriminate]. unfold heap_get, class_is_class, class_get. rewrite A5.
  destruct (nth_error (h_classes (vm_heap (m_vm m))) k) as [x|]; [|discriminate]. cbn [obind]. destruct (nth_error (h_classes (vm_heap (m_vm m))) c) as [y|]; [|discriminate].
  cbn [obind VM.lift]. congruence.
Qed.
Lemma adds_any m m' v : only_adds m m' -> any_value m v -> any_value m' v.
Proof.
  intros A (c & B & C). exists c. assert (A' := A). destruct A' as (_ & _ & _ & _ & _ & A6 & _). rewrite A6. split; auto. destruct C as [C|C]; [now left|right]. now apply (adds_instance m).
Qed.
Lemma adds_capturing pg m m' f src E : only_adds m m' -> capturing_function pg m f src E -> capturing_function pg m' f src E.
Proof. intros (_ & _ & _ & _ & _ & _ & _ & _ & A & _) (a & n & B & C & D). exists a, n. now rewrite A. Qed.
Lemma adds_method m m' c key x : only_adds m m' -> class_method c key (vm_heap (m_vm m)) = x -> class_method c key (vm_heap (m_vm m')) = x.
Proof. intros (_ & _ & _ & _ & A & _). unfold class_method, class_get. now rewrite A. Qed.
Lemma adds_results pg m m' base cases : only_adds m m' -> result_classes pg m base cases -> result_classes pg m' base cases.
Proof.
  intros A [(c & B1 & B2) (f & n & k & N1 & N2) C D M]. assert (A' := A). destruct A' as (_ & _ & _ & _ & A5 & A6 & _ & _ & A9 & A10). split.
  - exists c. rewrite A6. split; auto. intros b. now apply (adds_instance m).
  - exists f, n, k. split; [now apply (adds_method m)|]. destruct N2 as (P & Q & R). repeat split; auto. now rewrite A10.
  - intros ok. destruct (C ok) as (g & k' & E & X & Y & Z). exists g, k', E. split; [now apply (adds_method m)|]. split; [now apply (adds_capturing _ m)|now apply (adds_holds m)].
  - intros ok. specialize (D ok). unfold class_is_class, class_get in *. now rewrite A5.
  - intros ok. destruct (M ok) as (g & k' & E & X & Y & F & Z1 & Z2 & Z3). exists g, k', E. split; [now apply (adds_method m)|]. split; [now apply (adds_capturing _ m)|]. split; [exact F|]. split; [now apply (adds_holds m)|split; now apply (adds_holds m)].
Qed.

(** * Making a result *)
Section Make.
Variables (w : world) (pg : program).
Notation it n := (interpreter w pg n).
Lemma closure_call n room m a n0 src E self args : nth_error (m_closures m) a = Some (Some (Closure n0 src E)) -> 1 + List.length args <= room ->
  i_call (it (Datatypes.S n)) room (VFnBound self (VFnClosure a)) args m = run_fn (pg_lit pg) (it n) room n0 src E self args m.
Proof. intros A R. rewrite call_S. unfold call. replace (room <? 1 + List.length args) with false by (symmetry; now apply Nat.ltb_ge). now rewrite A. Qed.

Lemma check_passes E t v m next c : load E (ta_name t) m = AVal (VClass c) m -> (ta_nullable t = true /\ v = VNull \/ v <> VNull /\ instance m v c) -> check E (Some t) v m next = next m.
Proof.
  intros L H. unfold check. rewrite L. cbn [vbind]. unfold with_vm, assert_is, rbind. cbn [VM.lift as_class].
  destruct H as [[N ->]|[N H]].
  - rewrite N. cbn. now rewrite set_vm_same.
  - assert (X : (match v with
      | VNull => if ta_nullable t then rret tt else rfail TYPE_ASSERTION_NULLABILITY_FAILURE
      | _ => fun s => match is_value_of_type v c s with ROk b s1 => (if b then rret tt else rfail TYPE_ASSERTION_FAILURE) s1 | RErr e s1 => RErr e s1 | RPanic => RPanic | RNoFuel => RNoFuel end
      end) (m_vm m) = ROk tt (m_vm m)).
    { destruct v; try (now destruct N); rewrite H; reflexivity. }
    unfold rbind in X. cbn in X |- *. rewrite X. now rewrite set_vm_same.
Qed.

Lemma any_passes E v m next : any_value m v -> assoc_get "Any" E = None -> check E (Some (TypeAnn "Any" true)) v m next = next m.
Proof.
  intros (c & G & H) A. apply (check_passes E (TypeAnn "Any" true) v m next c).
  - unfold load. cbn [ta_name]. rewrite A. now rewrite G.
  - destruct H as [->|H]; [left; auto|]. destruct v; (left; split; reflexivity) || (right; split; [discriminate|exact H]).
Qed.

Lemma base_new_call m f n0 k s c b v room n cb :
  plain_function pg m f n0 (Source "self" result_new_args Constructing result_new_body k) ->
  assoc_get "Bool" (vm_globals (m_vm m)) = Some (VClass cb) -> (forall b, instance m (VBool b) cb) -> any_value m v ->
  m_vm m = with_instance (Some c) [] s -> 30 <= room ->
  i_call (it (3 + n)) room (VFnBound (new_object s) f) [VBool b; v] m =
    AVal (new_object s)
      (Memory (with_instance (Some c) [("is_ok", VBool b); ("result", v)] s) (m_cells m ++ [Some (new_object s); Some (VBool b); Some v]) (m_closures m) (m_fns m)).
Proof.
  intros F GB IB AV V R. change (3 + n) with (Datatypes.S (2 + n)). rewrite (bound_call _ _ _ _ _ _ _ _ _ _ F) by (cbn; lia). destruct F as (_ & _ & B).
  unfold run_fn. cbn [List.length src_self src_args src_role src_body src_first].
  assert (SP : spare_slots (pg_lit pg n0) 2 <= 8) by (unfold spare_slots; destruct (_ <? _); lia).
  replace (room <? 1 + 2 + spare_slots (pg_lit pg n0) 2 + enough) with false by (symmetry; apply Nat.ltb_ge; unfold enough; lia).
  cbn [alloc result_new_body body_parts]. unfold result_new_args, typed. cbn [bind_args hd tl alloc fa_type fa_name declare s_env s_fn s_room s_chain set_cells m_cells].
  rewrite (check_passes _ (TypeAnn "Bool" false) (VBool b) _ _ cb); [| |right; split; [discriminate|]]; cycle 1.
  { unfold load. cbn. now rewrite GB. }
  { apply (adds_instance m); [|apply IB]. eapply adds_trans; [apply add_cells|apply add_cells]. }
  rewrite any_passes; cycle 1.
  { apply (adds_any m); [|exact AV]. eapply adds_trans; [apply add_cells|eapply adds_trans; [apply add_cells|apply add_cells]]. }
  { reflexivity. }
  unfold block. cbn [hoisted statements flat_map hoisted_name app hoist items item declaration].
  set (S0 := declare "result" _ _). set (m0 := set_cells _ _).
  assert (RS : 10 <= s_room S0) by (cbn [S0 declare s_room]; lia).
  assert (C0 : m_cells m0 = m_cells m ++ [Some (new_object s); Some (VBool b); Some v]) by (unfold m0; cbn [set_cells m_cells set_vm]; rewrite <- !app_assoc; reflexivity).
  assert (X : forall i x, nth_error [Some (new_object s); Some (VBool b); Some v] i = Some x -> nth_error (m_cells m0) (List.length (m_cells m) + i) = Some x).
  { intros i x Hx. rewrite C0. rewrite nth_error_app2 by lia. now replace (List.length (m_cells m) + i - List.length (m_cells m)) with i by lia. }
  assert (Es : assoc_get "self" (s_env S0) = Some (List.length (m_cells m) + 0)) by (rewrite Nat.add_0_r; reflexivity).
  assert (Ea : assoc_get "is_ok" (s_env S0) = Some (List.length (m_cells m) + 1)) by (cbn; rewrite app_length; reflexivity).
  assert (Eb : assoc_get "result" (s_env S0) = Some (List.length (m_cells m) + 2)) by (cbn; rewrite !app_length; cbn; f_equal; lia).
  rewrite (store_field w pg S0 "self" "is_ok" "is_ok" n k m0 _ (VBool b) _ _ ltac:(unfold enough; lia) eq_refl Es (X 0 _ eq_refl) Ea (X 1 _ eq_refl)).
  assert (V0 : m_vm m0 = with_instance (Some c) [] s) by exact V.
  unfold with_vm at 1. rewrite V0. fold (new_object s). rewrite set_field_new. cbn [vbind].
  set (m1 := set_vm _ m0).
  rewrite (store_field w pg S0 "self" "result" "result" n _ m1 _ v _ _ ltac:(unfold enough; lia) eq_refl Es (X 0 _ eq_refl) Eb (X 2 _ eq_refl)).
  unfold with_vm at 1. change (m_vm m1) with (with_instance (Some c) (assoc_set "is_ok" (VBool b) []) s). fold (new_object s). rewrite set_field_new. cbn [vbind].
  cbn [m1 set_vm m_cells]. replace (nth_error (m_cells m0) (List.length (m_cells m))) with (Some (Some (new_object s))); cycle 1.
  { rewrite C0. rewrite nth_error_app2 by lia. now rewrite Nat.sub_diag. }
  f_equal. change (m_closures m) with (m_closures m0). change (m_fns m) with (m_fns m0). rewrite <- C0. reflexivity.
Qed.

Lemma case_call m base cases ok v room n : result_classes pg m base cases -> any_value m v -> 60 <= room ->
  exists xs, i_call (it (8 + n)) room (VClass (cases ok)) [v] m =
    AVal (new_object (m_vm m)) (set_cells (m_cells m ++ xs) (set_vm (with_instance (Some (cases ok)) [("is_ok", VBool ok); ("result", v)] (m_vm m)) m)).
Proof.
  intros RC AV R. change (8 + n) with (Datatypes.S (Datatypes.S (6 + n))). rewrite call_S. unfold call. cbn [List.length]. replace (room <? 1 + 1) with false by (symmetry; apply Nat.ltb_ge; lia).
  unfold construct, with_vm at 1. assert (AL : heap_alloc (object_new (Some (cases ok))) (m_vm m) = ROk (List.length (h_objects (vm_heap (m_vm m)))) (with_instance (Some (cases ok)) [] (m_vm m))) by reflexivity.
  rewrite AL. fold (new_object (m_vm m)). set (c := cases ok). set (mi := set_vm _ m).
  assert (Ai : only_adds m mi). { pose proof (add_object m (Some c) [] []) as H. rewrite app_nil_r in H. exact H. }
  assert (RC' := adds_results _ _ _ _ _ Ai RC). assert (RC0 := RC'). destruct RC' as [(cb & GB & IB) (f & n0 & k & N1 & N2) C D _]. destruct (C ok) as (g & k' & E & G1 & (a & n1 & -> & G2 & B) & (ls & G3 & G4)).
  unfold initialize, with_vm at 1. unfold heap_get at 1. cbv beta. fold c in G1. rewrite G1. cbn [VM.lift]. rewrite set_vm_same.
  rewrite (closure_call _ _ _ _ _ _ _ _ _ G2) by (cbn; lia).
  unfold run_fn. cbn [List.length src_self src_args src_role src_body src_first].
  assert (SP : spare_slots (pg_lit pg n1) 1 <= 8) by (unfold spare_slots; destruct (_ <? _); lia).
  replace (room <? 1 + 1 + spare_slots (pg_lit pg n1) 1 + enough) with false by (symmetry; apply Nat.ltb_ge; unfold enough; lia).
  cbn [alloc case_new_body body_parts]. cbn [bind_args hd tl alloc arg check fa_type fa_name declare s_env s_fn s_room s_chain set_cells m_cells].
  unfold block. cbn [hoisted statements flat_map hoisted_name app hoist items item declaration].
  set (S0 := declare "result" _ _). set (m0 := set_cells _ _).
  assert (RS : 40 <= s_room S0) by (cbn [S0 declare s_room]; lia).
  assert (C0 : m_cells m0 = m_cells m ++ [Some (new_object (m_vm m)); Some v]) by (unfold m0; cbn [set_cells m_cells set_vm mi]; rewrite <- !app_assoc; reflexivity).
  assert (X : forall i x, nth_error [Some (new_object (m_vm m)); Some v] i = Some x -> nth_error (m_cells m0) (List.length (m_cells m) + i) = Some x).
  { intros i x Hx. rewrite C0. rewrite nth_error_app2 by lia. now replace (List.length (m_cells m) + i - List.length (m_cells m)) with i by lia. }
  assert (A0 : only_adds mi m0) by (eapply adds_trans; apply add_cells).
  assert (Es : assoc_get "self" (s_env S0) = Some (List.length (m_cells m) + 0)) by (rewrite Nat.add_0_r; reflexivity).
  assert (Er : assoc_get "result" (s_env S0) = Some (List.length (m_cells m) + 1)) by (cbn; rewrite app_length; reflexivity).
  change (6 + n) with (Datatypes.S (5 + n)). rewrite super_S by (unfold enough; lia). rewrite (load_cell _ _ _ _ _ Es (X 0 _ eq_refl)). cbn [vbind eval_list].
  change (5 + n) with (Datatypes.S (4 + n)). rewrite bool_S by (cbn [deep s_room]; unfold enough; lia). cbn [vbind]. rewrite ident_S by (cbn [deep s_room]; unfold enough; lia).
  change (s_env (deep 1 (deep 1 S0))) with (s_env S0). rewrite (load_cell _ _ _ _ _ Er (X 1 _ eq_refl)). cbn [vbind].
  rewrite (load_cell (s_env S0) "super" m0 ls (VClass base)); [|exact G3|apply (adds_cell mi); auto]. cbn [vbind]. unfold with_vm at 1. cbn [as_class VM.lift]. rewrite set_vm_same.
  unfold initialize, with_vm at 1. unfold heap_get at 1. cbv beta. rewrite (adds_method mi m0 base "new" _ A0 N1). cbn [VM.lift]. rewrite set_vm_same.
  change (Datatypes.S (4 + n)) with (3 + (2 + n)). 
  assert (N2' : plain_function pg m0 f n0 (Source "self" result_new_args Constructing result_new_body k)) by exact N2.
  rewrite (base_new_call m0 f n0 k (m_vm m) c ok v (s_room S0) (2 + n) cb N2' GB (fun b => adds_instance mi m0 _ _ A0 (IB b)) (adds_any mi m0 v A0 (adds_any m mi v Ai AV)) eq_refl ltac:(lia)).
  cbn [vbind m_cells]. rewrite nth_error_app1; cycle 1. { apply nth_error_Some. change (List.length (m_cells mi)) with (List.length (m_cells m)). rewrite C0. rewrite nth_error_app2 by lia. rewrite Nat.sub_diag. discriminate. }
  change (List.length (m_cells mi)) with (List.length (m_cells m)). rewrite C0. rewrite nth_error_app2 by lia. rewrite Nat.sub_diag. cbn [nth_error].
  exists [Some (new_object (m_vm m)); Some v; Some (new_object (m_vm m)); Some (VBool ok); Some v]. rewrite <- app_assoc. reflexivity.
Qed.

Lemma case_is m c ok v xs : is_case (set_cells xs (set_vm (with_instance (Some c) [("is_ok", VBool ok); ("result", v)] (m_vm m)) m)) (new_object (m_vm m)) c ok v.
Proof.
  exists (List.length (h_objects (vm_heap (m_vm m)))). split; [reflexivity|].
  assert (G : forall key, object_field (List.length (h_objects (vm_heap (m_vm m)))) key (vm_heap (with_instance (Some c) [("is_ok", VBool ok); ("result", v)] (m_vm m))) = Ok (assoc_get key [("is_ok", VBool ok); ("result", v)])).
  { intros key. unfold object_field, with_instance. cbn. rewrite nth_error_app2 by lia. rewrite Nat.sub_diag. cbn. rewrite nth_error_app2 by lia. rewrite Nat.sub_diag. reflexivity. }
  split; [|split; [exact (G "is_ok")|split; [exact (G "result")|exact (G "map")]]].
  unfold object_class, with_instance. cbn. rewrite nth_error_app2 by lia. now rewrite Nat.sub_diag.
Qed.
Lemma case_result m v c ok x : is_case m v c ok x -> is_result m v ok x.
Proof. intros (o & -> & _ & A & B & _). split; exists (m_vm m); (split; [now apply get_own|now rewrite set_vm_same]). Qed.

Theorem result_made m base cases ok v room : result_classes pg m base cases -> any_value m v -> 60 <= room ->
  exists r m', calls w pg room (VClass (cases ok)) [v] m (AVal r m') /\ is_case m' r (cases ok) ok v /\ only_adds m m'.
Proof.
  intros RC AV R. destruct (case_call m base cases ok v room 0 RC AV R) as (xs & K). eexists _, _. split; [split; [|exists 8; exact K]; discriminate|]. split; [apply case_is|apply add_object].
Qed.

Lemma case_instance m base cases v ok ok' x : result_classes pg m base cases -> is_case m v (cases ok') ok x -> instance m v base.
Proof.
  intros RC (o & -> & C & _). unfold instance, is_value_of_type, rbind, class_of_value. cbn [as_object]. rewrite C. unfold heap_get, VM.lift. rewrite (rs_derived _ _ _ _ RC ok'). reflexivity.
Qed.
Lemma adds_case m m' v c ok x : only_adds m m' -> is_case m v c ok x -> is_case m' v c ok x.
Proof. intros (_ & A & B & _) (o & -> & C & D & E & F). exists o. repeat split; auto. Qed.

Lemma read_self n S k m l o key x : enough <= s_room S -> s_chain S = false -> assoc_get "self" (s_env S) = Some l -> nth_error (m_cells m) l = Some (Some (VObject o)) ->
  object_field o key (vm_heap (m_vm m)) = Ok (Some x) -> i_eval (it (2 + n)) S k (EFieldAccess (ELitIdent "self") key) m = AVal x m.
Proof.
  intros R C A B F. change (2 + n) with (Datatypes.S (Datatypes.S n)). rewrite field_S by exact R. rewrite ident_S by exact R. cbn [target s_env]. rewrite (load_cell _ _ _ _ _ A B). cbn [vbind].
  unfold with_vm. rewrite (get_own _ _ _ _ F). now rewrite set_vm_same.
Qed.

Section Map.
Variables (m : memory) (base : nat) (cases : bool -> nat) (ok : bool) (r x g : value) (room : nat).
Hypothesis RC : result_classes pg m base cases.
Hypothesis IC : is_case m r (cases ok) ok x.
Hypothesis G : a_function m g.
Hypothesis R : 100 <= room.

Lemma map_found : exists f, field_of r "map" m f m /\ exists a n0 k E, f = VFnBound r (VFnClosure a) /\
  nth_error (m_closures m) a = Some (Some (Closure n0 (Source "self" map_args (Returning map_type) map_body k) E)) /\ bc_slot_count (fn_code (pg_lit pg n0)) <= 8 /\
  assoc_get "Function" E = None /\ holds E "Ok" m (VClass (cases true)) /\ holds E "Err" m (VClass (cases false)) /\ holds E "Result" m (VClass base).
Proof.
  destruct (rs_map _ _ _ _ RC ok) as (f & k & E & CM & (a & n0 & -> & B & D) & F & H). exists (VFnBound r (VFnClosure a)). split.
  - destruct IC as (o & -> & C & _ & _ & M). exists (m_vm m). split; [|now rewrite set_vm_same]. unfold get_field, rbind, heap_get, as_object, VM.lift. cbn. rewrite M. unfold class_of_value. cbn [as_object]. rewrite C.
    unfold get_method, rbind, heap_get, VM.lift. now rewrite CM.
  - exists a, n0, k, E. auto.
Qed.

Section Body.
Variables (a n0 k : nat) (E : env).
Hypothesis A : nth_error (m_closures m) a = Some (Some (Closure n0 (Source "self" map_args (Returning map_type) map_body k) E)).
Hypothesis B : bc_slot_count (fn_code (pg_lit pg n0)) <= 8.
Hypothesis NF : assoc_get "Function" E = None.
Hypothesis HO : holds E "Ok" m (VClass (cases true)).
Hypothesis HE : holds E "Err" m (VClass (cases false)).
Hypothesis HR : holds E "Result" m (VClass base).
Let m1 : memory := set_cells (m_cells m ++ [Some r; Some g]) m.
Let room1 : nat := room - (2 + spare_slots (pg_lit pg n0) 1).
Let S1 : scene := Scene (("map_fn", Datatypes.S (List.length (m_cells m))) :: ("self", List.length (m_cells m)) :: E) (Some (Returning map_type)) room1 false.
Lemma map_enters n : i_call (it (Datatypes.S n)) room (VFnBound r (VFnClosure a)) [g] m =
  match i_eval (it n) S1 k (match map_body with EBlock _ (Some e) => e | e => e end) m1 with
  | AVal v m3 => check E map_type v m3 (fun m4 => AVal v m4)
  | AReturn v m3 => AVal v m3
  | AFail e m3 => AFail e m3
  | ACrash => ACrash
  | _ => AUnknown
  end.
Proof.
  rewrite (closure_call _ _ _ _ _ _ _ _ _ A) by (cbn; lia).
  unfold run_fn. cbn [List.length src_self src_args src_role src_body src_first].
  assert (SP : spare_slots (pg_lit pg n0) 1 <= 8) by (unfold spare_slots; destruct (_ <? _); lia).
  replace (room <? 1 + 1 + spare_slots (pg_lit pg n0) 1 + enough) with false by (symmetry; apply Nat.ltb_ge; unfold enough; lia).
  cbn [alloc map_body body_parts]. unfold map_args, typed. cbn [bind_args hd tl alloc fa_type fa_name declare s_env s_fn s_room s_chain set_cells m_cells].
  destruct G as (NN & c & GF & IG).
  rewrite (check_passes _ (TypeAnn "Function" false) g _ _ c); cycle 1.
  { unfold load. cbn [ta_name assoc_get]. cbn. rewrite NF. now rewrite GF. }
  { right. split; [exact NN|]. apply (adds_instance m); [|exact IG]. eapply adds_trans; apply add_cells. }
  unfold block. cbn [hoisted statements flat_map hoisted_name app hoist items item declaration]. rewrite app_length. cbn [List.length]. rewrite Nat.add_1_r. fold room1.
  unfold set_cells. cbn [m_vm m_cells m_closures m_fns]. rewrite <- app_assoc. cbn [app]. fold m1. change (Memory (m_vm m) (m_cells m ++ [Some r; Some g]) (m_closures m) (m_fns m)) with m1.
  change (1 + 1 + spare_slots (pg_lit pg n0) 1) with (2 + spare_slots (pg_lit pg n0) 1). fold room1. fold S1.
  rewrite vbind_id. reflexivity.
Qed.
Lemma room1_big : 80 <= room1.
Proof. unfold room1. assert (SP : spare_slots (pg_lit pg n0) 1 <= 8) by (unfold spare_slots; destruct (_ <? _); lia). lia. Qed.
Lemma adds1 : only_adds m m1.
Proof. apply add_cells. Qed.
Lemma self1 : assoc_get "self" (s_env S1) = Some (List.length (m_cells m)) /\ nth_error (m_cells m1) (List.length (m_cells m)) = Some (Some r).
Proof. split; [reflexivity|]. cbn [m1 set_cells m_cells]. rewrite nth_error_app2 by lia. now rewrite Nat.sub_diag. Qed.
Lemma load_case (b : bool) : load (s_env S1) (if b then "Ok" else "Err") m1 = AVal (VClass (cases b)) m1.
Proof.
  destruct HO as (lo & O1 & O2). destruct HE as (le & E1 & E2). destruct b.
  - apply (load_cell _ _ _ lo); [exact O1|]. apply (adds_cell m); [apply adds1|exact O2].
  - apply (load_cell _ _ _ le); [exact E1|]. apply (adds_cell m); [apply adds1|exact E2].
Qed.
(** In the branch that is taken, the class of the case is called. *)
Lemma map_branch n : i_eval (it (6 + n)) S1 k (match map_body with EBlock _ (Some e) => e | e => e end) m1 =
  if ok then
    chained (inner S1) (vbind (chained (deep 1 S1) (i_call (it (2 + n)) (room1 - 1) g [x] m1)) (fun y m2 => i_call (it (3 + n)) room1 (VClass (cases true)) [y] m2))
  else chained (inner S1) (i_call (it (3 + n)) room1 (VClass (cases false)) [x] m1).
Proof.
  pose proof room1_big as RB. destruct (adds_case _ _ _ _ _ _ adds1 IC) as (o & Er & _ & FO & FR & _). destruct self1 as [SE SV]. rewrite Er in SV.
  assert (S1R : s_room S1 = room1) by reflexivity.
  cbn [map_body]. change (6 + n) with (Datatypes.S (5 + n)). rewrite if_S by (unfold enough; lia).
  change (5 + n) with (2 + (3 + n)). rewrite (read_self (3 + n) (inner S1) k m1 (List.length (m_cells m)) o "is_ok" (VBool ok)); [|cbn [inner s_room]; unfold enough; lia|reflexivity|exact SE|exact SV|exact FO]. cbn [vbind as_condition fns]. rewrite !Nat.add_0_r.
  change (2 + (3 + n)) with (Datatypes.S (4 + n)). case ok.
  - rewrite block_S by (cbn [inner s_room]; unfold enough; lia). unfold block. cbn [hoisted statements flat_map hoisted_name app hoist items item declaration]. 
    change (4 + n) with (Datatypes.S (3 + n)). rewrite call_expr_S by (cbn [inner s_room]; unfold enough; lia). change (3 + n) with (Datatypes.S (2 + n)). rewrite ident_S by (cbn [inner target s_room]; unfold enough; lia).
    cbn [inner target s_env]. rewrite (load_case true). cbn [vbind eval_list]. rewrite call_expr_S by (cbn [inner deep s_room]; unfold enough; lia).
    change (2 + n) with (Datatypes.S (1 + n)) at 1. rewrite ident_S by (cbn [inner deep target s_room]; unfold enough; lia). cbn [inner deep target s_env].
    rewrite (load_cell (s_env S1) "map_fn" m1 (Datatypes.S (List.length (m_cells m))) g); [|reflexivity|]; cycle 1.
    { cbn [m1 set_cells m_cells]. rewrite nth_error_app2 by lia. now replace (Datatypes.S (List.length (m_cells m)) - List.length (m_cells m)) with 1 by lia. }
    cbn [vbind eval_list].
    rewrite (read_self n _ _ m1 (List.length (m_cells m)) o "result" x); [|cbn [inner deep s_room]; unfold enough; lia|reflexivity|exact SE|exact SV|exact FR]. cbn [vbind].
    rewrite vbind_id. reflexivity.
  - rewrite block_S by (cbn [inner s_room]; unfold enough; lia). unfold block. cbn [hoisted statements flat_map hoisted_name app hoist items item declaration]. 
    change (4 + n) with (Datatypes.S (3 + n)). rewrite call_expr_S by (cbn [inner s_room]; unfold enough; lia). change (3 + n) with (Datatypes.S (2 + n)) at 1. rewrite ident_S by (cbn [inner target s_room]; unfold enough; lia).
    cbn [inner target s_env]. rewrite (load_case false). cbn [vbind eval_list].
    change (3 + n) with (2 + (1 + n)) at 1.
    rewrite (read_self (1 + n) _ _ m1 (List.length (m_cells m)) o "result" x); [|cbn [inner deep s_room]; unfold enough; lia|reflexivity|exact SE|exact SV|exact FR]. cbn [vbind].
    rewrite vbind_id. reflexivity.
Qed.

(** What the case's class gives is an instance of Result. *)
Lemma return_passes m2 b y xs n : result_classes pg m2 base cases -> holds E "Result" m2 (VClass base) -> any_value m2 y ->
  i_call (it (8 + n)) room1 (VClass (cases b)) [y] m2 = AVal (new_object (m_vm m2)) xs ->
  check E map_type (new_object (m_vm m2)) xs (fun m4 => AVal (new_object (m_vm m2)) m4) = AVal (new_object (m_vm m2)) xs /\ is_case xs (new_object (m_vm m2)) (cases b) b y /\ only_adds m2 xs.
Proof.
  intros RC2 H2 AV K. pose proof room1_big as RB. destruct (case_call m2 base cases b y room1 n RC2 AV ltac:(lia)) as (ys & K'). rewrite K' in K. injection K as <-.
  set (m3 := set_cells _ _). assert (A3 : only_adds m2 m3) by apply add_object. pose proof (case_is m2 (cases b) b y (m_cells m2 ++ ys)) as IC3. fold m3 in IC3. split; [|split; auto].
  unfold map_type. rewrite (check_passes _ (TypeAnn "Result" false) _ m3 _ base); [reflexivity| |right; split; [discriminate|]].
  - destruct (adds_holds _ _ _ _ _ A3 H2) as (l & L1 & L2). exact (load_cell _ _ _ _ _ L1 L2).
  - apply (case_instance m3 base cases _ b b y); [apply (adds_results _ m2); auto|exact IC3].
Qed.
Lemma map_err : ok = false -> any_value m x -> exists r' m', calls w pg room (VFnBound r (VFnClosure a)) [g] m (AVal r' m') /\ is_case m' r' (cases false) false x /\ only_adds m m'.
Proof.
  intros Eok AV. pose proof room1_big as RB. assert (RC1 := adds_results _ _ _ _ _ adds1 RC). destruct (case_call m1 base cases false x room1 0 RC1 (adds_any _ _ _ adds1 AV) ltac:(lia)) as (ys & K).
  set (m3 := set_cells _ _) in K. destruct (return_passes m1 false x m3 0 RC1 (adds_holds _ _ _ _ _ adds1 HR) (adds_any _ _ _ adds1 AV) K) as (P & Q & T).
  exists (new_object (m_vm m1)), m3. split; [|split; [exact Q|exact (adds_trans _ _ _ adds1 T)]]. split; [discriminate|]. exists (Datatypes.S (6 + 5)). rewrite map_enters, map_branch, Eok.
  change (3 + 5) with (8 + 0). rewrite K. cbn [chained]. exact P.
Qed.
Lemma map_ok : ok = true -> exists room' m1', only_adds m m1' /\ room <= room' + 20 /\
  (forall y m2, calls w pg room' g [x] m1' (AVal y m2) -> leaves_classes pg m1' m2 -> any_value m2 y ->
     exists r' m', calls w pg room (VFnBound r (VFnClosure a)) [g] m (AVal r' m') /\ is_case m' r' (cases true) true y /\ only_adds m2 m') /\
  (forall e m2, calls w pg room' g [x] m1' (AFail e m2) -> calls w pg room (VFnBound r (VFnClosure a)) [g] m (AFail e m2)).
Proof.
  intros Eok. pose proof room1_big as RB. assert (RC1 := adds_results _ _ _ _ _ adds1 RC). exists (room1 - 1), m1. split; [apply adds1|split].
  { unfold room1. assert (SP : spare_slots (pg_lit pg n0) 1 <= 8) by (unfold spare_slots; destruct (_ <? _); lia). lia. }
  split.
  - intros y m2 C (L1 & L2) AV. destruct (cl_more _ _ _ _ _ _ _ C) as (n & K1). destruct (case_call m2 base cases true y room1 n (L1 _ _ RC1) AV ltac:(lia)) as (ys & K).
    set (m3 := set_cells _ _) in K. destruct (return_passes m2 true y m3 n (L1 _ _ RC1) (L2 _ _ _ (adds_holds _ _ _ _ _ adds1 HR)) AV K) as (P & Q & T).
    exists (new_object (m_vm m2)), m3. split; [|split; [exact Q|exact T]]. split; [discriminate|]. exists (Datatypes.S (6 + (5 + n))). rewrite map_enters, map_branch, Eok.
    rewrite (K1 (2 + (5 + n))) by lia. cbn [chained vbind]. change (3 + (5 + n)) with (8 + n). rewrite K. cbn [chained]. exact P.
  - intros e m2 C. destruct (cl_more _ _ _ _ _ _ _ C) as (n & K1). split; [discriminate|]. exists (Datatypes.S (6 + n)). rewrite map_enters, map_branch, Eok. rewrite (K1 (2 + n)) by lia. reflexivity.
Qed.
End Body.

End Map.
Theorem result_map_ok m base cases r x g room : result_classes pg m base cases -> is_case m r (cases true) true x -> a_function m g -> 100 <= room ->
  exists f, field_of r "map" m f m /\ exists room' m1, only_adds m m1 /\ room <= room' + 20 /\
  (forall y m2, calls w pg room' g [x] m1 (AVal y m2) -> leaves_classes pg m1 m2 -> any_value m2 y ->
     exists r' m', calls w pg room f [g] m (AVal r' m') /\ is_case m' r' (cases true) true y /\ only_adds m2 m') /\
  (forall e m2, calls w pg room' g [x] m1 (AFail e m2) -> calls w pg room f [g] m (AFail e m2)).
Proof.
  intros RC IC G R. destruct (map_found m base cases true r x RC IC) as (f & F & a & n0 & k & E & -> & A & B & NF & HO & HE & HR). exists (VFnBound r (VFnClosure a)). split; [exact F|].
  eapply map_ok; eauto.
Qed.
Theorem result_map_err m base cases r x g room : result_classes pg m base cases -> is_case m r (cases false) false x -> any_value m x -> a_function m g -> 100 <= room ->
  exists f r' m', field_of r "map" m f m /\ calls w pg room f [g] m (AVal r' m') /\ is_case m' r' (cases false) false x /\ only_adds m m'.
Proof.
  intros RC IC AV G R. destruct (map_found m base cases false r x RC IC) as (f & F & a & n0 & k & E & -> & A & B & NF & HO & HE & HR).
  destruct (map_err m base cases false r x g room RC IC G R a n0 k E A B NF HO HE HR eq_refl AV) as (r' & m' & P & Q & T). exists (VFnBound r (VFnClosure a)), r', m'. auto.
Qed.
End Make.

(** * !! *)
Section Propagate.
Variables (w : world) (pg : program).
Notation it n := (interpreter w pg n).
Lemma field_with v f m x m' next : field_of v f m x m' -> with_vm (get_field f v) m next = next x m'.
Proof. intros (s & H & ->). unfold with_vm. now rewrite H. Qed.

Theorem propagate_ok S k e m v x m1 : enough <= s_room S -> evaluates w pg (target S) k e m (AVal v m1) -> is_result m1 v true x ->
  evaluates w pg S k (EErrorPropagate e) m (AVal x m1).
Proof.
  intros R (_ & n & K) (A & B). split; [discriminate|]. exists (Datatypes.S n). rewrite propagate_S by exact R. rewrite K. cbn [vbind]. rewrite (field_with _ _ _ _ _ _ A). cbn [as_condition]. now rewrite (field_with _ _ _ _ _ _ B).
Qed.
Theorem propagate_err S k e m v x m1 t : enough <= s_room S -> s_fn S = Some (Returning t) -> evaluates w pg (target S) k e m (AVal v m1) -> is_result m1 v false x ->
  (forall ty, t = Some ty -> exists c, load (s_env S) (ta_name ty) m1 = AVal (VClass c) m1 /\ v <> VNull /\ instance m1 v c) ->
  evaluates w pg S k (EErrorPropagate e) m (AReturn v m1).
Proof.
  intros R F (_ & n & K) (A & B) T. split; [discriminate|]. exists (Datatypes.S n). rewrite propagate_S by exact R. rewrite K. cbn [vbind]. rewrite (field_with _ _ _ _ _ _ A). cbn [as_condition]. rewrite F.
  destruct t as [ty|]; [|reflexivity]. destruct (T ty eq_refl) as (c & L & N & I1). rewrite (check_passes _ _ _ _ _ c L); [reflexivity|]. right. auto.
Qed.

(** ** In a function *)
Lemma hoist_adds names : forall S m, exists E', fst (hoist names S m) = Scene E' (s_fn S) (s_room S) (s_chain S) /\
  (forall z, ~ In z names -> assoc_get z E' = assoc_get z (s_env S)) /\ only_adds m (snd (hoist names S m)).
Proof.
  induction names as [|y r IH]; intros S m.
  - exists (s_env S). destruct S. split; [reflexivity|split; [auto|apply adds_refl]].
  - cbn [hoist alloc]. destruct (IH (declare y (List.length (m_cells m)) S) (set_cells (m_cells m ++ [None]) m)) as (E' & A & B & C). exists E'. split; [exact A|split].
    + intros z Hz. rewrite B by (intros H; apply Hz; now right). cbn [declare s_env assoc_get]. destruct (String.eqb_spec z y) as [->|N]; [|reflexivity]. destruct Hz. now left.
    + eapply adds_trans; [apply add_cells|exact C].
Qed.
Lemma bind_adds : forall ps args S m, Forall (fun p => fa_type p = None) ps ->
  exists E' m', (forall next, bind_args ps args S m next = next (Scene E' (s_fn S) (s_room S) (s_chain S)) m') /\ only_adds m m' /\
    (forall z, ~ In z (map fa_name ps) -> assoc_get z E' = assoc_get z (s_env S)) /\
    (NoDup (map fa_name ps) -> forall i p, nth_error ps i = Some p -> holds E' (fa_name p) m' (nth i args VNull)).
Proof.
  induction ps as [|p r IH]; intros args S m U.
  - exists (s_env S), m. cbn [bind_args]. split; [now destruct S|split; [apply adds_refl|split; [auto|]]]. intros _ [|i] p H; discriminate.
  - inversion U as [|? ? U1 U2]; subst. set (v := hd VNull args). set (l := List.length (m_cells m)). set (m1 := set_cells (m_cells m ++ [Some v]) m).
    destruct (IH (tl args) (declare (fa_name p) l S) m1 U2) as (E' & m' & A & B & C & D). exists E', m'. split; [intros next; cbn [bind_args alloc]; rewrite U1; cbn [check]; exact (A next)|split; [|split]].
    + eapply adds_trans; [apply add_cells|exact B].
    + intros z Z. cbn [map In] in Z. rewrite C by (intros H; apply Z; now right). cbn [declare s_env assoc_get]. destruct (String.eqb_spec z (fa_name p)) as [->|N]; [|reflexivity]. destruct Z. now left.
    + cbn [map]. intros ND i q H. inversion ND as [|? ? N1 N2]; subst. destruct i as [|i].
      * cbn [nth_error] in H. injection H as <-. apply (adds_holds _ _ _ _ _ B). exists l. split.
        { rewrite (C _ N1). cbn [declare s_env assoc_get]. now rewrite String.eqb_refl. }
        { unfold m1, l. cbn [set_cells m_cells]. rewrite nth_error_app2 by lia. rewrite Nat.sub_diag. cbn [nth_error]. unfold v. now destruct args. }
      * cbn [nth_error] in H. pose proof (D N2 i q H) as K. destruct args as [|y args]; [|exact K]. cbn [tl] in K. now destruct i.
Qed.
Lemma function_runs I room m f n0 src E first args : function_value pg m f n0 src E first -> 1 + List.length args <= room ->
  call w (pg_lit pg) fn_eqb I room f args m = run_fn (pg_lit pg) I room n0 src E first args m.
Proof.
  intros A R. unfold call. replace (room <? 1 + List.length args) with false by (symmetry; apply Nat.ltb_ge; lia).
  destruct A as [f n src F G|a n src E F|r f n src E F N].
  - now rewrite F, G.
  - now rewrite F.
  - inversion F as [g n' src' F1 G1|a n' src' E' F1|r' g n' src' E' F1 N1]; subst.
    + now rewrite F1, G1.
    + now rewrite F1.
    + now destruct (N r' g).
Qed.
Theorem propagate_leaves m f n0 k E self first ps args x e rest t room :
  function_value pg m f n0 (Source self ps (Returning None) (begins_with x e rest t) k) E first ->
  Forall (fun p => fa_type p = None) ps -> 1 + List.length args + spare_slots (pg_lit pg n0) (List.length args) + enough <= room ->
  exists S m0, s_fn S = Some (Returning None) /\ s_chain S = false /\ enough <= s_room S /\
    (forall z, z <> self -> ~ In z (map fa_name ps) -> ~ In z (hoisted rest t) -> assoc_get z (s_env S) = assoc_get z E) /\
    (~ In self (map fa_name ps) -> ~ In self (hoisted rest t) -> holds (s_env S) self m0 first) /\
    (NoDup (map fa_name ps) -> forall i p, nth_error ps i = Some p -> ~ In (fa_name p) (hoisted rest t) -> holds (s_env S) (fa_name p) m0 (nth i args VNull)) /\
    only_adds m m0 /\
    forall v y m1, evaluates w pg (target S) k e m0 (AVal v m1) -> is_result m1 v false y -> calls w pg room f args m (AVal v m1).
Proof.
  intros A U R. set (room0 := room - (1 + List.length args + spare_slots (pg_lit pg n0) (List.length args))). set (l := List.length (m_cells m)).
  set (Sf := Scene ((self, l) :: E) (Some (Returning None)) room0 false). set (mf := set_cells (m_cells m ++ [Some first]) m).
  set (es := EVarDecl (Singular x) false (EErrorPropagate e) None :: rest).
  destruct (bind_adds ps args Sf mf U) as (Eb & mb & BA & BM & BE & BH).
  set (Sb := Scene Eb (s_fn Sf) (s_room Sf) (s_chain Sf)) in *.
  destruct (hoist_adds (hoisted es t) Sb mb) as (E' & HS & HE & HM). set (S0 := fst (hoist (hoisted es t) Sb mb)) in *. set (m0 := snd (hoist (hoisted es t) Sb mb)) in *.
  assert (SF : s_fn S0 = Some (Returning None)) by now rewrite HS. assert (RS : enough <= s_room S0) by (rewrite HS; cbn [s_room Sf Sb]; unfold room0, enough in *; lia).
  exists S0, m0. split; [exact SF|split; [now rewrite HS|split; [exact RS|split; [|split; [|split; [|split]]]]]].
  - intros z Z1 Z2 Z3. rewrite HS. cbn [s_env]. rewrite HE by exact Z3. cbn [Sb s_env]. rewrite BE by exact Z2. cbn [Sf s_env assoc_get]. now rewrite (proj2 (String.eqb_neq z self) Z1).
  - intros Z2 Z3. apply (adds_holds _ _ _ _ _ HM). apply (adds_holds mf mb _ _ _ BM). exists l. split.
    + rewrite HS. cbn [s_env]. rewrite HE by exact Z3. cbn [Sb s_env]. rewrite BE by exact Z2. cbn [Sf s_env assoc_get]. now rewrite String.eqb_refl.
    + unfold mf, l. cbn [set_cells m_cells]. rewrite nth_error_app2 by lia. now rewrite Nat.sub_diag.
  - intros ND i p H Z. apply (adds_holds _ _ _ _ _ HM). destruct (BH ND i p H) as (c & C1 & C2). exists c. split; [|exact C2]. rewrite HS. cbn [s_env]. now rewrite HE by exact Z.
  - eapply adds_trans; [apply add_cells|]. eapply adds_trans; [exact BM|exact HM].
  - intros v y m1 (_ & n & K) (P & _). split; [discriminate|]. exists (Datatypes.S (Datatypes.S n)). rewrite call_S. rewrite (function_runs _ _ _ _ _ _ _ _ _ A) by (unfold enough in R; lia). unfold run_fn. cbn [src_self src_args src_role src_body src_first].
    replace (room <? 1 + List.length args + spare_slots (pg_lit pg n0) (List.length args) + enough) with false by (symmetry; apply Nat.ltb_ge; unfold enough in *; lia).
    cbn [alloc begins_with body_parts]. fold l. fold room0. fold mf. fold Sf. rewrite BA. unfold block. fold es. rewrite (surjective_pairing (hoist (hoisted es t) Sb mb)). fold S0. fold m0. unfold es. cbn [items item declaration].
    rewrite propagate_S by exact RS. rewrite K. cbn [vbind]. rewrite (field_with _ _ _ _ _ _ P). cbn [as_condition]. rewrite SF. cbn [check]. unfold chained, vbind. reflexivity.
Qed.
End Propagate.

(** * or *)
Section Coalesce.
Variables (w : world) (pg : program).
Notation it n := (interpreter w pg n).
Lemma hidden_read S k key m l v y n : enough <= s_room S -> s_chain S = false -> assoc_get "#result" (s_env S) = Some l -> nth_error (m_cells m) l = Some (Some v) -> field_of v key m y m ->
  i_eval (it (2 + n)) S k (EFieldAccess (ELitIdent "#result") key) m = AVal y m.
Proof.
  intros R C L V F. change (2 + n) with (Datatypes.S (Datatypes.S n)). rewrite field_S by exact R. rewrite ident_S by exact R. cbn [target s_env]. rewrite (load_cell _ _ _ _ _ L V). cbn [vbind]. now rewrite (field_with _ _ _ _ _ _ F).
Qed.
Lemma more_result m v ok x xs : is_result m v ok x -> is_result (set_cells xs m) v ok x.
Proof.
  assert (H : forall key y, field_of v key m y m -> field_of v key (set_cells xs m) y (set_cells xs m)).
  { intros key y (s & A & B). assert (Hs : s = m_vm m) by (rewrite B; reflexivity). exists s. split; [exact A|]. now rewrite Hs. }
  intros [A B]. split; auto.
Qed.

Section Parts.
Variables (S : scene) (k : nat) (e : expr) (bs : list expr) (bt : option expr) (x : string) (m m1 : memory) (v : value) (c : nat).
Let b : expr := EBlock bs bt.
Hypothesis R : enough <= s_room S.
Hypothesis K : evaluates w pg (inner S) k e m (AVal v m1).
Hypothesis L : load (s_env S) "Result" m1 = AVal (VClass c) m1.
Hypothesis NN : v <> VNull.
Hypothesis IV : instance m1 v c.
Let l : nat := List.length (m_cells m1).
Let m2 : memory := set_cells (m_cells m1 ++ [Some v]) m1.
Let S2 : scene := declare "#result" l (inner S).
Lemma load_result : load (s_env S2) "Result" m2 = AVal (VClass c) m2.
Proof.
  clear K. unfold load in *. cbn [S2 declare inner s_env assoc_get]. change (String.eqb "Result" "#result") with false. cbn iota.
  destruct (assoc_get "Result" (s_env S)) as [j|].
  - destruct (nth_error (m_cells m1) j) as [[u|]|] eqn:N; try discriminate. cbn [m2 set_cells m_cells]. rewrite nth_error_app1 by (apply nth_error_Some; congruence). rewrite N. congruence.
  - cbn [m2 set_cells m_vm]. destruct (assoc_get "Result" (vm_globals (m_vm m1))); [congruence|discriminate].
Qed.
Lemma or_enters : exists n0, forall n, n0 <= n -> i_eval (it (Datatypes.S n)) S k (unwrapped e x b) m =
  i_eval (it n) S2 (k + fns e) (EIf (EFieldAccess (ELitIdent "#result") "is_ok") (EFieldAccess (ELitIdent "#result") "result")
             (Some (EBlock [EVarDecl (Singular x) false (EFieldAccess (ELitIdent "#result") "result") None] (Some b)))) m2.
Proof.
  destruct (ev_more _ _ _ _ _ _ _ 0 K) as (n0 & _ & H). exists n0. intros n Hn. unfold unwrapped. rewrite block_S by exact R. unfold block. cbn [hoisted statements flat_map hoisted_name app hoist items item declaration fns].
  rewrite (H n Hn). cbn [vbind alloc]. rewrite (check_passes _ (TypeAnn "Result" false) v _ _ c); [rewrite vbind_id; reflexivity|exact load_result|]. right. split; [exact NN|]. apply (adds_instance m1); [apply add_cells|exact IV].
Qed.
Lemma hidden2 : assoc_get "#result" (s_env S2) = Some l /\ nth_error (m_cells m2) l = Some (Some v).
Proof. split; [reflexivity|]. unfold m2, l. cbn [set_cells m_cells]. rewrite nth_error_app2 by lia. now rewrite Nat.sub_diag. Qed.
Lemma or_ok_ y : is_result m1 v true y -> evaluates w pg S k (unwrapped e x b) m (AVal y m2).
Proof.
  intros RV. destruct (more_result _ _ _ _ (m_cells m1 ++ [Some v]) RV) as [F1 F2]. destruct or_enters as (n0 & H). split; [discriminate|]. exists (Datatypes.S (3 + n0)). rewrite H by lia.
  destruct hidden2 as [HA HB]. change (3 + n0) with (Datatypes.S (2 + n0)). rewrite if_S by exact R. rewrite (hidden_read _ _ "is_ok" m2 l v (VBool true)) by auto. cbn [vbind as_condition].
  now rewrite (hidden_read _ _ "result" m2 l v y) by auto.
Qed.
Lemma or_err_ y a : is_result m1 v false y ->
  evaluates w pg (declare x (Datatypes.S l) S2) (k + fns e) b (set_cells (m_cells m1 ++ [Some v; Some y]) m1) a -> evaluates w pg S k (unwrapped e x b) m a.
Proof.
  intros RV B. destruct (ev_more _ _ _ _ _ _ _ 0 B) as (n1 & _ & HB). destruct B as (NU & _). destruct (more_result _ _ _ _ (m_cells m1 ++ [Some v]) RV) as [F1 F2]. destruct or_enters as (n0 & H). split; [exact NU|].
  exists (Datatypes.S (4 + n0 + n1)). rewrite H by lia. destruct hidden2 as [H2 H3].
  change (4 + n0 + n1) with (Datatypes.S (2 + (1 + n0 + n1))). rewrite if_S by exact R. rewrite (hidden_read _ _ "is_ok" m2 l v (VBool false)) by auto. cbn [vbind as_condition].
  change (2 + (1 + n0 + n1)) with (Datatypes.S (2 + (n0 + n1))). rewrite block_S by exact R. unfold block. cbn [hoisted statements flat_map hoisted_name app hoist items item declaration fns].
  unfold b at 1. cbn [hoisted_name app hoist]. rewrite !Nat.add_0_r. rewrite (hidden_read _ _ "result" m2 l v y) by auto. cbn [vbind alloc check]. unfold b. cbn [item declaration]. fold b. rewrite vbind_id.
  rewrite <- (HB (2 + (n0 + n1))) by lia. f_equal.
  - unfold m2, S2. cbn [set_cells m_cells declare inner s_env s_fn s_room s_chain]. rewrite app_length. cbn [List.length]. now rewrite Nat.add_1_r.
  - unfold m2, set_cells. cbn [m_cells m_vm m_closures m_fns]. now rewrite <- app_assoc.
Qed.
End Parts.
Theorem or_ok S k e bs bt x m m1 v c y : enough <= s_room S -> evaluates w pg (inner S) k e m (AVal v m1) ->
  load (s_env S) "Result" m1 = AVal (VClass c) m1 -> v <> VNull -> instance m1 v c -> is_result m1 v true y ->
  exists m2, evaluates w pg S k (unwrapped e x (EBlock bs bt)) m (AVal y m2) /\ only_adds m1 m2.
Proof. intros R K L NN IV RV. eexists. split; [eapply or_ok_; eauto|apply add_cells]. Qed.
Theorem or_err S k e bs bt x m m1 v c y : enough <= s_room S -> evaluates w pg (inner S) k e m (AVal v m1) ->
  load (s_env S) "Result" m1 = AVal (VClass c) m1 -> v <> VNull -> instance m1 v c -> is_result m1 v false y ->
  exists hidden m2, let S2 := declare x (List.length (m_cells m2)) (declare "#result" hidden (inner S)) in only_adds m1 m2 /\
    forall a, evaluates w pg S2 (k + fns e) (EBlock bs bt) (set_cells (m_cells m2 ++ [Some y]) m2) a ->
      evaluates w pg S k (unwrapped e x (EBlock bs bt)) m a.
Proof.
  intros R K L NN IV RV. exists (List.length (m_cells m1)), (set_cells (m_cells m1 ++ [Some v]) m1). split; [apply add_cells|]. intros a H. eapply or_err_; eauto.
  cbn [set_cells m_cells] in H. rewrite app_length in H. cbn [List.length] in H. rewrite Nat.add_1_r in H. unfold set_cells in H |- *. cbn [m_cells m_vm m_closures m_fns] in H. rewrite <- app_assoc in H. exact H.
Qed.
Theorem or_missing S k e b x m m1 v : enough <= s_room S -> evaluates w pg (inner S) k e m (AVal v m1) ->
  assoc_get "Result" (s_env S) = None -> assoc_get "Result" (vm_globals (m_vm m1)) = None ->
  exists m2, evaluates w pg S k (unwrapped e x b) m (AFail GLOBAL_VARIABLE_UNDEFINED m2).
Proof.
  intros R K L1 L2. destruct (ev_more _ _ _ _ _ _ _ 0 K) as (n0 & _ & H). eexists. split; [discriminate|]. exists (Datatypes.S n0). unfold unwrapped. rewrite block_S by exact R. unfold block.
  cbn [hoisted statements flat_map hoisted_name app hoist items item declaration fns]. rewrite (H n0 (le_n _)). cbn [vbind alloc check ta_name]. unfold load. cbn [declare inner s_env assoc_get]. change (String.eqb "Result" "#result") with false. cbn iota.
  rewrite L1. cbn [set_cells m_vm]. rewrite L2. reflexivity.
Qed.
End Coalesce.
