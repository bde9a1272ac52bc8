(** The operators of the prelude that make ranges. *)
From Verif.Spec Require Import RangeSpec.
From Verif.Proofs Require Import RangeP FlowP StackP ResultP RangeSampleP ModuleSampleP.
#[local] Open Scope string_scope.
#[local] Open Scope list_scope.
#[local] Open Scope nat_scope.

Section Operators.
Variable w : world.
Variable pg : program.
Notation it n := (interpreter w pg n).

Lemma same_range_class inclusive m m' c : m_vm m' = m_vm m -> m_fns m' = m_fns m -> is_range_class pg inclusive m c -> is_range_class pg inclusive m' c.
Proof.
  intros V F [(f & n & k & A & B) (f' & n' & k' & A' & B' & C')]. split.
  - exists f, n, k. rewrite V. split; [exact A|]. unfold plain_function in *. now rewrite F.
  - exists f', n', k'. rewrite V. split; [exact A'|]. split; [|exact C']. unfold plain_function in *. now rewrite F.
Qed.

Lemma operator_call inclusive m a b room : has_range_operator pg inclusive m -> 50 <= room ->
  exists f o m1, assoc_get (range_sign inclusive) (vm_globals (m_vm m)) = Some f /\
    calls w pg room f [a; b] m (AVal (VObject o) m1) /\ is_range_object pg inclusive m1 o a b.
Proof.
  intros (ad & n0 & k & E & l & c & G & A & B & El & Vl & RC) R.
  set (m0 := set_cells (m_cells m ++ [Some (VFnClosure ad); Some a; Some b]) m).
  assert (RC0 : is_range_class pg inclusive m0 c) by (exact (same_range_class _ m m0 _ eq_refl eq_refl RC)).
  assert (SP : spare_slots (pg_lit pg n0) 2 <= 8) by (unfold spare_slots; destruct (_ <? _); lia).
  set (room1 := room - (1 + 2 + spare_slots (pg_lit pg n0) 2)).
  destruct (range_made w pg inclusive m0 c a b room1 RC0 ltac:(unfold room1; lia)) as (o & m1 & C & O).
  exists (VFnClosure ad), o, m1. split; [exact G|]. split; [|exact O]. split; [discriminate|].
  destruct (cl_more _ _ _ _ _ _ _ C) as (n & Ec). exists (Datatypes.S (Datatypes.S (Datatypes.S n))).
  rewrite call_S. unfold call. cbn [List.length]. replace (room <? 1 + 2) with false by (symmetry; apply Nat.ltb_ge; lia).
  rewrite A. cbn [cl_number cl_source cl_env]. unfold run_fn. cbn [List.length src_self src_args src_role src_body src_first].
  replace (room <? 1 + 2 + spare_slots (pg_lit pg n0) 2 + enough) with false by (symmetry; apply Nat.ltb_ge; unfold enough; lia).
  fold room1. cbn [alloc]. cbn [op_body body_parts bind_args hd tl alloc check arg fa_type fa_name declare s_env s_fn s_room s_chain]. cbn [set_cells m_cells].
  unfold block. set (S0 := declare "end" _ _). set (m2 := set_cells _ _).
  assert (M2 : m2 = m0) by (unfold m2, m0; cbn [set_cells m_cells m_vm m_closures m_fns]; rewrite <- !app_assoc; reflexivity).
  rewrite M2. clear m2 M2.
  assert (HO : hoisted [] (Some (EFnCall (ELitIdent (range_name inclusive)) [ELitIdent "start"; ELitIdent "end"])) = []) by reflexivity.
  rewrite HO. cbn [hoist items item declaration].
  assert (RS : s_room S0 = room1) by reflexivity.
  assert (X : forall i x, nth_error [Some (VFnClosure ad); Some a; Some b] i = Some x -> nth_error (m_cells m0) (List.length (m_cells m) + i) = Some x).
  { intros i x Hx. unfold m0. cbn [set_cells m_cells]. rewrite nth_error_app2 by lia. now replace (List.length (m_cells m) + i - List.length (m_cells m)) with i by lia. }
  assert (Ea : assoc_get "start" (s_env S0) = Some (List.length (m_cells m) + 1)) by (cbn; rewrite app_length; reflexivity).
  assert (Eb : assoc_get "end" (s_env S0) = Some (List.length (m_cells m) + 2)) by (cbn; rewrite !app_length; cbn; f_equal; lia).
  assert (En : assoc_get (range_name inclusive) (s_env S0) = Some l) by (clear - El; unfold S0; destruct inclusive; exact El).
  assert (Ln : nth_error (m_cells m0) l = Some (Some (VClass c))).
  { unfold m0. cbn [set_cells m_cells]. rewrite nth_error_app1; [exact Vl|]. apply nth_error_Some. rewrite Vl. discriminate. }
  rewrite call_expr_S by (rewrite RS; unfold room1, enough; lia).
  rewrite ident_S by (cbn [target s_room]; rewrite RS; unfold room1, enough; lia).
  rewrite (load_cell (s_env (target S0)) _ _ _ _ En Ln). cbn [vbind eval_list].
  rewrite ident_S by (cbn [deep s_room]; rewrite RS; unfold room1, enough; lia).
  rewrite (load_cell (s_env (deep 1 S0)) _ _ _ _ Ea (X 1 _ eq_refl)). cbn [vbind].
  rewrite ident_S by (cbn [deep s_room]; rewrite RS; unfold room1, enough; lia).
  rewrite (load_cell (s_env (deep 1 (deep 1 S0))) _ _ _ _ Eb (X 2 _ eq_refl)). cbn [vbind].
  rewrite RS. rewrite Ec by lia. reflexivity.
Qed.

(** The operator between two expressions. *)
Theorem operator_makes inclusive S k l r m a m1 b m2 : 50 <= s_room S ->
  evaluates w pg (inner S) k l m (AVal a m1) -> evaluates w pg (deep 1 S) (k + fns l) r m1 (AVal b m2) ->
  field_of a (range_sign inclusive) m2 VNull m2 -> has_range_operator pg inclusive m2 ->
  exists o m3, evaluates w pg S k (EBinary (range_op inclusive) l r) m (AVal (VObject o) m3) /\ is_range_object pg inclusive m3 o a b.
Proof.
  intros R EL ER (s & GF & Es) OP. destruct (operator_call inclusive m2 a b (s_room S) OP R) as (f & o & m3 & G & C & O).
  exists o, m3. split; [|exact O]. split; [discriminate|].
  destruct (ev_more _ _ _ _ _ _ _ 0 EL) as (f1 & _ & E1). destruct (ev_more _ _ _ _ _ _ _ 0 ER) as (f2 & _ & E2). destruct (cl_more _ _ _ _ _ _ _ C) as (f3 & E3).
  exists (Datatypes.S (f1 + f2 + f3)). rewrite binary_S by (unfold enough; lia).
  assert (X : binary_op w (it (f1 + f2 + f3)) S k (range_op inclusive) l r m =
    vbind (i_eval (it (f1 + f2 + f3)) (inner S) k l m) (fun l0 m3 =>
    vbind (i_eval (it (f1 + f2 + f3)) (deep 1 S) (k + fns l) r m3) (fun r0 m4 => overload (it (f1 + f2 + f3)) (s_room S) (range_sign inclusive) l0 r0 m4))) by (destruct inclusive; reflexivity).
  rewrite X. rewrite E1 by lia. cbn [vbind]. rewrite E2 by lia. cbn [vbind]. unfold overload, with_vm. rewrite GF. rewrite <- Es. rewrite G. now rewrite E3 by lia.
Qed.
End Operators.

(** ** After the prelude is imported *)
Lemma prelude_operators : exists es t, parse (chars prelude) = Ok (EBlock es t) /\
  In (range_operator false) es /\ In (range_operator true) es.
Proof.
  exists prelude_items, prelude_last. split; [exact prelude_parsed|].
  assert (X : nth_error prelude_items 2 = Some (range_operator false) /\ nth_error prelude_items 3 = Some (range_operator true)) by (vm_compute; split; reflexivity).
  split; [exact (nth_error_In _ _ (proj1 X))|exact (nth_error_In _ _ (proj2 X))].
Qed.
Lemma has_operator pg inclusive m a n k E l c :
  assoc_get (range_sign inclusive) (vm_globals (m_vm m)) = Some (VFnClosure a) ->
  nth_error (m_closures m) a = Some (Some (Closure n (Source "" [arg "start"; arg "end"] (Returning None) (op_body inclusive) k) E)) ->
  (bc_slot_count (fn_code (pg_lit pg n)) <=? 8) = true ->
  assoc_get (range_name inclusive) E = Some l -> nth_error (m_cells m) l = Some (Some (VClass c)) -> is_range_class pg inclusive m c ->
  has_range_operator pg inclusive m.
Proof. intros A B C D F G. exists a, n, k, E, l, c. apply Nat.leb_le in C. auto 10. Qed.
Definition prelude_names : env := [("roll", 6); ("Err", 5); ("Ok", 4); ("Result", 3); ("RangeInclusive", 2); ("Range", 1); ("#export", 0)].
Lemma rg_operators : has_range_operator rg_program false rg_memory /\ has_range_operator rg_program true rg_memory.
Proof.
  split.
  - apply (has_operator rg_program false rg_memory 0 56 56 prelude_names 1 10); [vm_compute; reflexivity|vm_compute; reflexivity|vm_compute; reflexivity|reflexivity|vm_compute; reflexivity|exact (proj1 rg_class)].
  - apply (has_operator rg_program true rg_memory 1 57 57 prelude_names 2 11); [vm_compute; reflexivity|vm_compute; reflexivity|vm_compute; reflexivity|reflexivity|vm_compute; reflexivity|exact (proj2 rg_class)].
Qed.
Lemma field_here v f m x : get_field f v (m_vm m) = ROk x (m_vm m) -> field_of v f m x m.
Proof. intros H. exists (m_vm m). split; [exact H|]. now rewrite set_vm_same. Qed.
Lemma int_without f z c s : String.eqb f "new" = false -> kind_get KdInt (vm_kinds s) = Some c -> class_method c f (vm_heap s) = Ok None ->
  get_field f (VInt z) s = ROk VNull s.
Proof.
  intros N K M. assert (C : class_of_value (VInt z) s = ROk (Some c) s) by (rewrite <- K; reflexivity).
  unfold get_field. cbn [kind]. unfold rbind at 1, rret at 1. rewrite N. unfold rbind. rewrite C. unfold get_method, heap_get, rbind. now rewrite M.
Qed.
Lemma int_evaluates w pg S k z m : enough <= s_room S -> evaluates w pg S k (ELitInt z) m (AVal (VInt z) m).
Proof. intros H. split; [discriminate|]. exists 1. exact (int_S w pg 0 S k z m H). Qed.
Lemma rg_two_five inclusive : field_of (VInt 2) (range_sign inclusive) rg_memory VNull rg_memory.
Proof.
  apply field_here. assert (K : exists c, kind_get KdInt (vm_kinds (m_vm rg_memory)) = Some c /\
    class_method c (range_sign false) (vm_heap (m_vm rg_memory)) = Ok None /\ class_method c (range_sign true) (vm_heap (m_vm rg_memory)) = Ok None).
  { eexists. split; [vm_compute; reflexivity|]. split; vm_compute; reflexivity. }
  destruct K as (c & K & A & B). apply (int_without (range_sign inclusive) 2 c (m_vm rg_memory)); [destruct inclusive; reflexivity|exact K|destruct inclusive; [exact B|exact A]].
Qed.
Lemma rg_operator inclusive :
  evaluates rg_world rg_program (inner rg_scene) 0 (ELitInt 2) rg_memory (AVal (VInt 2) rg_memory) /\
  evaluates rg_world rg_program (deep 1 rg_scene) (0 + fns (ELitInt 2)) (ELitInt 5) rg_memory (AVal (VInt 5) rg_memory) /\
  field_of (VInt 2) (range_sign inclusive) rg_memory VNull rg_memory /\ has_range_operator rg_program inclusive rg_memory.
Proof.
  split; [apply int_evaluates; apply Nat.leb_le; vm_compute; reflexivity|].
  split; [apply int_evaluates; apply Nat.leb_le; vm_compute; reflexivity|].
  split; [exact (rg_two_five inclusive)|]. destruct inclusive; [exact (proj2 rg_operators)|exact (proj1 rg_operators)].
Qed.
