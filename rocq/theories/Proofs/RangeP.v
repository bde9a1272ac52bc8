(** Proofs about the ranges of the prelude. *)
From Verif.Spec Require Import RangeSpec.
From Verif.Proofs Require Import FlowP StackP MonoP.
#[local] Open Scope string_scope.
#[local] Open Scope list_scope.
#[local] Open Scope nat_scope.

(** * Single steps of the interpreter *)
Section Steps.
Variables (w : world) (pg : program).
Notation it n := (interpreter w pg n).

Lemma eval_S n S k e m : i_eval (it (Datatypes.S n)) S k e m = eval w (pg_lit pg) (it n) S k e m.
Proof. reflexivity. Qed.
Lemma call_S n room f args m : i_call (it (Datatypes.S n)) room f args m = call w (pg_lit pg) fn_eqb (it n) room f args m.
Proof. reflexivity. Qed.
Lemma ident_S n S k x m : enough <= s_room S -> i_eval (it (Datatypes.S n)) S k (ELitIdent x) m = load (s_env S) x m.
Proof. intros H. rewrite eval_S. unfold eval. apply Nat.ltb_ge in H. now rewrite H. Qed.
Lemma int_S n S k z m : enough <= s_room S -> i_eval (it (Datatypes.S n)) S k (ELitInt z) m = AVal (VInt z) m.
Proof. intros H. rewrite eval_S. unfold eval. apply Nat.ltb_ge in H. now rewrite H. Qed.
Lemma bool_S n S k z m : enough <= s_room S -> i_eval (it (Datatypes.S n)) S k (ELitBool z) m = AVal (VBool z) m.
Proof. intros H. rewrite eval_S. unfold eval. apply Nat.ltb_ge in H. now rewrite H. Qed.
Lemma field_S n S k x f m : enough <= s_room S -> i_eval (it (Datatypes.S n)) S k (EFieldAccess x f) m =
  chained S (vbind (i_eval (it n) (target S) k x m) (fun v m1 => with_vm (get_field f v) m1 AVal)).
Proof. intros H. rewrite eval_S. unfold eval. apply Nat.ltb_ge in H. now rewrite H. Qed.
Lemma block_S n S k es t m : enough <= s_room S -> i_eval (it (Datatypes.S n)) S k (EBlock es t) m = block (pg_lit pg) (it n) (inner S) k es t m.
Proof. intros H. rewrite eval_S. unfold eval. apply Nat.ltb_ge in H. now rewrite H. Qed.
Lemma if_S n S k c p s m : enough <= s_room S -> i_eval (it (Datatypes.S n)) S k (EIf c p s) m =
  vbind (i_eval (it n) (inner S) k c m) (fun v m1 => as_condition v m1 (fun b =>
      if b then i_eval (it n) (inner S) (k + fns c) p m1
      else match s with Some x => i_eval (it n) (inner S) (k + fns c + fns p) x m1 | None => AVal VUnit m1 end)).
Proof. intros H. rewrite eval_S. unfold eval. apply Nat.ltb_ge in H. now rewrite H. Qed.
Lemma object_S n S k fields m : enough <= s_room S -> i_eval (it (Datatypes.S n)) S k (ELitObject fields) m =
  with_vm new_any_object m (fun o m1 => eval_fields (it n) (deep 2 S) k o fields m1).
Proof. intros H. rewrite eval_S. unfold eval. apply Nat.ltb_ge in H. now rewrite H. Qed.
Lemma assign_S n S k op l r m : enough <= s_room S -> i_eval (it (Datatypes.S n)) S k (EAssignment op l r) m = assign w (it n) S k op l r m.
Proof. intros H. rewrite eval_S. unfold eval. apply Nat.ltb_ge in H. now rewrite H. Qed.
Lemma binary_S n S k op l r m : enough <= s_room S -> i_eval (it (Datatypes.S n)) S k (EBinary op l r) m = binary_op w (it n) S k op l r m.
Proof. intros H. rewrite eval_S. unfold eval. apply Nat.ltb_ge in H. now rewrite H. Qed.
Lemma lambda_S n S k args t b m : enough <= s_room S -> i_eval (it (Datatypes.S n)) S k (ELitAnonymousFn args t b) m =
  make_fn (pg_lit pg) k (Source "" args (Returning t) b (k + 1)) (s_env S) m.
Proof. intros H. rewrite eval_S. unfold eval. apply Nat.ltb_ge in H. now rewrite H. Qed.
End Steps.

(** ** Objects *)
(** A new object with the given class and fields. *)
Definition with_instance (k : option nat) (fs : value_map) (s : vm) : vm :=
  let h := vm_heap s in
  set_heap (hset_objects (h_objects h ++ [MkObject k (List.length (h_fields h))]) (hset_fields (h_fields h ++ [fs]) h)) s.
Definition new_object (s : vm) : value := VObject (List.length (h_objects (vm_heap s))).
Notation with_object fs s := (with_instance (Some (vm_any s)) fs s).
Lemma new_object_is s : new_any_object s = ROk (List.length (h_objects (vm_heap s))) (with_object [] s).
Proof. reflexivity. Qed.
Lemma set_nth_last {A} (l : list A) x y : set_nth (l ++ [x]) (List.length l) y = l ++ [y].
Proof. induction l as [|z l IH]; [reflexivity|]. cbn. now rewrite IH. Qed.
Lemma set_field_new k fs s key v : set_field key (new_object s) v (with_instance k fs s) = ROk tt (with_instance k (assoc_set key v fs) s).
Proof.
  unfold set_field, new_object, rbind, heap_get, as_object, VM.lift, heap_upd_, heap_upd, object_set_field, with_instance. cbn.
  rewrite nth_error_app2 by lia. rewrite Nat.sub_diag. cbn. rewrite nth_error_app2 by lia. rewrite Nat.sub_diag. cbn. now rewrite set_nth_last.
Qed.
Lemma get_field_new k fs s key v : assoc_get key fs = Some v -> get_field key (new_object s) (with_instance k fs s) = ROk v (with_instance k fs s).
Proof.
  intros H. unfold get_field, new_object, rbind, heap_get, as_object, VM.lift, object_field, with_instance. cbn.
  rewrite nth_error_app2 by lia. rewrite Nat.sub_diag. cbn. rewrite nth_error_app2 by lia. rewrite Nat.sub_diag. cbn. now rewrite H.
Qed.
Lemma old_field k fs s o key x : object_field o key (vm_heap s) = Ok x -> object_field o key (vm_heap (with_instance k fs s)) = Ok x.
Proof.
  unfold object_field, with_instance. cbn.
  destruct (nth_error (h_objects (vm_heap s)) o) as [ob|] eqn:E; [|discriminate]. destruct (nth_error (h_fields (vm_heap s)) (ob_fields ob)) as [f|] eqn:E2; [|discriminate]. intros H.
  rewrite (nth_error_app1 (h_objects (vm_heap s))) by (apply nth_error_Some; congruence). rewrite E. rewrite nth_error_app1 by (apply nth_error_Some; congruence). now rewrite E2.
Qed.
Lemma get_own o key v s : object_field o key (vm_heap s) = Ok (Some v) -> get_field key (VObject o) s = ROk v s.
Proof. intros H. unfold get_field, rbind, heap_get, as_object, VM.lift. cbn. now rewrite H. Qed.

Lemma missing_field fs s key : assoc_get key fs = None -> String.eqb key "new" = false -> class_method (vm_any s) key (vm_heap s) = Ok None ->
  get_field key (new_object s) (with_object fs s) = ROk VNull (with_object fs s).
Proof.
  intros H NW C. assert (F : object_field (List.length (h_objects (vm_heap s))) key (vm_heap (with_object fs s)) = Ok None).
  { unfold object_field, with_instance. cbn. rewrite nth_error_app2 by lia. rewrite Nat.sub_diag. cbn. rewrite nth_error_app2 by lia. rewrite Nat.sub_diag. cbn. now rewrite H. }
  assert (K : object_class (List.length (h_objects (vm_heap s))) (vm_heap (with_object fs s)) = Ok (Some (vm_any s))).
  { unfold object_class, with_instance. cbn. rewrite nth_error_app2 by lia. now rewrite Nat.sub_diag. }
  unfold get_field, rbind, heap_get, VM.lift, new_object. cbn [kind as_object]. rewrite F. rewrite NW. unfold class_of_value. cbn [as_object]. rewrite K.
  unfold get_method, rbind, heap_get, VM.lift. change (class_method (vm_any s) key (vm_heap (with_object fs s))) with (class_method (vm_any s) key (vm_heap s)). now rewrite C.
Qed.

(** * The next function *)
Definition has_next (inclusive : bool) (i last : Z) : bool := if inclusive then (i <=? last)%Z else (i <? last)%Z.
Definition next_fields (inclusive : bool) (i last : Z) : value_map :=
  if has_next inclusive i last then assoc_set (done_name inclusive) (VBool false) (assoc_set "value" (VInt i) [])
  else assoc_set (done_name inclusive) (VBool true) [].

Section Next.
Variables (w : world) (pg : program) (inclusive : bool).
Notation it n := (interpreter w pg n).
Lemma load_cell E x m l v : assoc_get x E = Some l -> nth_error (m_cells m) l = Some (Some v) -> load E x m = AVal v m.
Proof. intros H1 H2. unfold load. now rewrite H1, H2. Qed.

Section Body.
Variables (S : scene) (m : memory) (c l o : nat) (i last : Z).
Hypothesis Ec : assoc_get "current" (s_env S) = Some c.
Hypothesis El : assoc_get "self" (s_env S) = Some l.
Hypothesis Vc : nth_error (m_cells m) c = Some (Some (VInt i)).
Hypothesis Vl : nth_error (m_cells m) l = Some (Some (VObject o)).
Hypothesis Vo : object_field o "end" (vm_heap (m_vm m)) = Ok (Some (VInt last)).

Lemma current_eval S' n k : s_env S' = s_env S -> enough <= s_room S' -> i_eval (it (Datatypes.S n)) S' k (ELitIdent "current") m = AVal (VInt i) m.
Proof. intros H1 H2. rewrite ident_S by auto. rewrite H1. exact (load_cell _ _ _ _ _ Ec Vc). Qed.
Lemma set_vm_same m' : set_vm (m_vm m') m' = m'.
Proof. now destruct m'. Qed.
Lemma end_eval S' n k : s_env S' = s_env S -> enough <= s_room S' ->
  i_eval (it (Datatypes.S (Datatypes.S n))) S' k (EFieldAccess (ELitIdent "self") "end") m = AVal (VInt last) m.
Proof.
  intros H1 H2. rewrite field_S by auto. rewrite ident_S by exact H2. cbn [target s_env]. rewrite H1. rewrite (load_cell _ _ _ _ _ El Vl). cbn [vbind]. unfold with_vm. rewrite (get_own _ _ _ _ Vo).
  rewrite set_vm_same. reflexivity.
Qed.
Lemma condition_eval S' n k : s_env S' = s_env S -> 10 <= s_room S' ->
  i_eval (it (Datatypes.S (Datatypes.S (Datatypes.S n)))) S' k (EBinary (comparison inclusive) (ELitIdent "current") (EFieldAccess (ELitIdent "self") "end")) m = AVal (VBool (has_next inclusive i last)) m.
Proof.
  intros H1 H2. rewrite binary_S by (unfold enough; lia). unfold comparison, has_next. destruct inclusive; cbn [binary_op];
    (rewrite current_eval by (cbn [inner s_env s_room]; auto; unfold enough; lia); cbn [vbind]; rewrite end_eval by (cbn [deep s_env s_room]; auto; unfold enough; lia); reflexivity).
Qed.
Lemma result_eval S' n k : s_env S' = s_env S -> 10 <= s_room S' ->
  i_eval (it (4 + n)) S' k
    (EIf (EBinary (comparison inclusive) (ELitIdent "current") (EFieldAccess (ELitIdent "self") "end"))
          (EBlock [] (Some (ELitObject [("value", ELitIdent "current"); (done_name inclusive, ELitBool false)])))
          (Some (EBlock [] (Some (ELitObject [(done_name inclusive, ELitBool true)]))))) m
  = AVal (new_object (m_vm m)) (set_vm (with_object (next_fields inclusive i last) (m_vm m)) m).
Proof.
  intros H1 H2. change (4 + n) with (Datatypes.S (3 + n)). rewrite if_S by (unfold enough; lia).
  change (3 + n) with (Datatypes.S (Datatypes.S (Datatypes.S n))). rewrite condition_eval by (cbn [inner s_env s_room]; auto). cbn [vbind as_condition]. unfold next_fields. destruct (has_next inclusive i last).
  - rewrite block_S by (cbn [inner s_room]; unfold enough; lia). unfold block. cbn [hoisted statements flat_map hoisted_name app hoist items item declaration].
    rewrite object_S by (cbn [inner s_room]; unfold enough; lia). unfold with_vm at 1. rewrite new_object_is. cbn [eval_fields].
    rewrite ident_S by (cbn [deep inner s_room]; unfold enough; lia). cbn [deep inner s_env]. rewrite H1. rewrite (load_cell _ _ _ c (VInt i)) by auto. cbn [vbind]. unfold with_vm at 1. cbn [m_vm set_vm].
    fold (new_object (m_vm m)). rewrite set_field_new. rewrite bool_S by (cbn [deep inner s_room]; unfold enough; lia). cbn [vbind]. unfold with_vm. cbn [m_vm set_vm m_cells m_closures m_fns]. rewrite set_field_new. reflexivity.
  - rewrite block_S by (cbn [inner s_room]; unfold enough; lia). unfold block. cbn [hoisted statements flat_map hoisted_name app hoist items item declaration].
    rewrite object_S by (cbn [inner s_room]; unfold enough; lia). unfold with_vm at 1. rewrite new_object_is. cbn [eval_fields].
    rewrite bool_S by (cbn [deep inner s_room]; unfold enough; lia). cbn [vbind]. unfold with_vm. cbn [m_vm set_vm m_cells m_closures m_fns]. fold (new_object (m_vm m)). rewrite set_field_new. reflexivity.
Qed.
End Body.

Lemma bump_eval S m c i n k : 10 <= s_room S -> assoc_get "current" (s_env S) = Some c -> nth_error (m_cells m) c = Some (Some (VInt i)) ->
  (i64_min <= i)%Z -> (i < i64_max)%Z ->
  i_eval (it (2 + n)) S k (EAssignment AAdd (ELitIdent "current") (ELitInt 1)) m = AVal VUnit (write c (VInt (i + 1)) m).
Proof.
  intros R Ec Vc L H. change (2 + n) with (Datatypes.S (Datatypes.S n)). rewrite assign_S by (unfold enough; lia). cbn [assign compound].
  rewrite (load_cell _ _ _ _ _ Ec Vc). cbn [vbind]. rewrite int_S by (cbn [deep s_room]; unfold enough; lia). cbn [vbind operate builtin_binary].
  unfold int_result. replace (in_i64 (i + 1)) with true by (symmetry; unfold in_i64; apply andb_true_iff; split; apply Z.leb_le; lia). cbn [omap of_outcome vbind]. unfold store. now rewrite Ec.
Qed.

Lemma next_call m a n0 k E c l o i last room n :
  nth_error (m_closures m) a = Some (Some (Closure n0 (Source "" [] (Returning None) (next_body inclusive) k) E)) ->
  bc_slot_count (fn_code (pg_lit pg n0)) <= 8 -> 30 <= room ->
  assoc_get "current" E = Some c -> assoc_get "self" E = Some l -> 
  nth_error (m_cells m) c = Some (Some (VInt i)) -> nth_error (m_cells m) l = Some (Some (VObject o)) ->
  object_field o "end" (vm_heap (m_vm m)) = Ok (Some (VInt last)) -> (i64_min <= i)%Z -> (i < i64_max)%Z ->
  i_call (it (5 + n)) room (VFnClosure a) [] m =
    AVal (new_object (m_vm m))
      (Memory (with_object (next_fields inclusive i last) (m_vm m))
         (set_nth (m_cells m ++ [Some (VFnClosure a); Some (new_object (m_vm m))]) c (Some (VInt (i + 1)))) (m_closures m) (m_fns m)).
Proof.
  intros A B R Ec El Vc Vl Vo L H. change (5 + n) with (Datatypes.S (4 + n)). rewrite call_S. unfold call. cbn [List.length]. replace (room <? 1 + 0) with false by (symmetry; apply Nat.ltb_ge; lia).
  rewrite A. cbn [cl_number cl_source cl_env]. unfold run_fn. cbn [List.length src_self src_args src_role src_body src_first].
  assert (SP : spare_slots (pg_lit pg n0) 0 <= 8) by (unfold spare_slots; destruct (_ <? _); lia).
  replace (room <? 1 + 0 + spare_slots (pg_lit pg n0) 0 + enough) with false by (symmetry; apply Nat.ltb_ge; unfold enough; lia).
  cbn [alloc]. cbn [next_body body_parts bind_args]. unfold block. cbn [hoisted statements flat_map hoisted_name app hoist items item declaration].
  set (S0 := Scene _ _ _ _). set (m0 := set_cells _ m).
  assert (S0c : assoc_get "current" (s_env S0) = Some c) by (cbn [S0 s_env assoc_get]; exact Ec).
  assert (S0l : assoc_get "self" (s_env S0) = Some l) by (cbn [S0 s_env assoc_get]; exact El).
  assert (RS : 10 <= s_room S0) by (cbn [S0 s_room]; lia).
  assert (m0c : nth_error (m_cells m0) c = Some (Some (VInt i))) by (cbn [m0 m_cells set_cells]; rewrite nth_error_app1; auto; apply nth_error_Some; congruence).
  assert (m0l : nth_error (m_cells m0) l = Some (Some (VObject o))) by (cbn [m0 m_cells set_cells]; rewrite nth_error_app1; auto; apply nth_error_Some; congruence).
  rewrite (result_eval S0 m0 c l o i last S0c S0l m0c m0l Vo S0 n k eq_refl RS). cbn [vbind alloc]. cbn [check].
  set (S1 := declare _ _ S0). set (m1 := set_cells _ (set_vm _ m0)).
  assert (m1c : nth_error (m_cells m1) c = Some (Some (VInt i))) by (cbn [m1 m_cells set_cells set_vm]; rewrite nth_error_app1; auto; apply nth_error_Some; congruence).
  rewrite (bump_eval S1 m1 c i (2 + n)) by (auto; cbn [S1 declare s_room]; exact RS). cbn [vbind].
  change (4 + n) with (Datatypes.S (3 + n)). rewrite ident_S by (cbn [S1 declare s_room]; unfold enough; lia).
  assert (cl : c < List.length (m_cells m)) by (apply nth_error_Some; congruence).
  rewrite (load_cell (s_env S1) "result" _ (List.length (m_cells m0)) (new_object (m_vm m0))); cycle 1.
  { reflexivity. }
  { cbn [write m_cells set_cells m1 set_vm]. rewrite nth_error_set_nth_neq by (cbn [m0 set_cells m_cells]; rewrite app_length; cbn; lia). rewrite nth_error_app2 by lia. now rewrite Nat.sub_diag. }
  cbn [vbind]. unfold write, m1, m0. cbn [set_cells set_vm m_cells m_vm m_closures m_fns]. rewrite <- app_assoc. reflexivity.
Qed.

(** ** At the end of the integers *)
Lemma bump_crash S m c n k : 10 <= s_room S -> assoc_get "current" (s_env S) = Some c -> nth_error (m_cells m) c = Some (Some (VInt i64_max)) -> w_dbg w = true ->
  i_eval (it (2 + n)) S k (EAssignment AAdd (ELitIdent "current") (ELitInt 1)) m = ACrash.
Proof.
  intros R Ec Vc H. change (2 + n) with (Datatypes.S (Datatypes.S n)). rewrite assign_S by (unfold enough; lia). cbn [assign compound].
  rewrite (load_cell _ _ _ _ _ Ec Vc). cbn [vbind]. rewrite int_S by (cbn [deep s_room]; unfold enough; lia). cbn [vbind operate builtin_binary]. now rewrite H.
Qed.
Lemma next_crash m a n0 k E c l o last room n :
  nth_error (m_closures m) a = Some (Some (Closure n0 (Source "" [] (Returning None) (next_body inclusive) k) E)) ->
  bc_slot_count (fn_code (pg_lit pg n0)) <= 8 -> 30 <= room ->
  assoc_get "current" E = Some c -> assoc_get "self" E = Some l -> 
  nth_error (m_cells m) c = Some (Some (VInt i64_max)) -> nth_error (m_cells m) l = Some (Some (VObject o)) ->
  object_field o "end" (vm_heap (m_vm m)) = Ok (Some (VInt last)) -> w_dbg w = true ->
  i_call (it (5 + n)) room (VFnClosure a) [] m = ACrash.
Proof.
  intros A B R Ec El Vc Vl Vo H. change (5 + n) with (Datatypes.S (4 + n)). rewrite call_S. unfold call. cbn [List.length]. replace (room <? 1 + 0) with false by (symmetry; apply Nat.ltb_ge; lia).
  rewrite A. cbn [cl_number cl_source cl_env]. unfold run_fn. cbn [List.length src_self src_args src_role src_body src_first].
  assert (SP : spare_slots (pg_lit pg n0) 0 <= 8) by (unfold spare_slots; destruct (_ <? _); lia).
  replace (room <? 1 + 0 + spare_slots (pg_lit pg n0) 0 + enough) with false by (symmetry; apply Nat.ltb_ge; unfold enough; lia).
  cbn [alloc]. cbn [next_body body_parts bind_args]. unfold block. cbn [hoisted statements flat_map hoisted_name app hoist items item declaration].
  set (S0 := Scene _ _ _ _). set (m0 := set_cells _ m).
  assert (S0c : assoc_get "current" (s_env S0) = Some c) by (cbn [S0 s_env assoc_get]; exact Ec).
  assert (S0l : assoc_get "self" (s_env S0) = Some l) by (cbn [S0 s_env assoc_get]; exact El).
  assert (RS : 10 <= s_room S0) by (cbn [S0 s_room]; lia).
  assert (m0c : nth_error (m_cells m0) c = Some (Some (VInt i64_max))) by (cbn [m0 m_cells set_cells]; rewrite nth_error_app1; auto; apply nth_error_Some; congruence).
  assert (m0l : nth_error (m_cells m0) l = Some (Some (VObject o))) by (cbn [m0 m_cells set_cells]; rewrite nth_error_app1; auto; apply nth_error_Some; congruence).
  rewrite (result_eval S0 m0 c l o i64_max last S0c S0l m0c m0l Vo S0 n k eq_refl RS). cbn [vbind alloc]. cbn [check].
  set (S1 := declare _ _ S0). set (m1 := set_cells _ (set_vm _ m0)).
  assert (m1c : nth_error (m_cells m1) c = Some (Some (VInt i64_max))) by (cbn [m1 m_cells set_cells set_vm]; rewrite nth_error_app1; auto; apply nth_error_Some; congruence).
  rewrite (bump_crash S1 m1 c (2 + n)) by (auto; cbn [S1 declare s_room]; exact RS). reflexivity.
Qed.
Theorem next_overflows m next last room : next_gives inclusive pg m next i64_max last -> 30 <= room -> w_dbg w = true -> calls w pg room next [] m ACrash.
Proof.
  intros (a & n0 & k & E & c & l & o & -> & A & B & Ec & El & Ne & Vc & Vl & Vo) R H.
  split; [discriminate|]. exists 5. exact (next_crash m a n0 k E c l o last room 0 A B R Ec El Vc Vl Vo H).
Qed.

(** ** What it gives *)
Lemma next_step m next i last room : next_gives inclusive pg m next i last -> 30 <= room -> (i64_min <= i)%Z -> (i < i64_max)%Z ->
  exists m', calls w pg room next [] m (AVal (new_object (m_vm m)) m') /\ m_vm m' = with_object (next_fields inclusive i last) (m_vm m) /\
    next_gives inclusive pg m' next (i + 1) last /\ exists c, only_counts c m m'.
Proof.
  intros (a & n0 & k & E & c & l & o & -> & A & B & Ec & El & Ne & Vc & Vl & Vo) R L H.
  pose proof (next_call m a n0 k E c l o i last room 0 A B R Ec El Vc Vl Vo L H) as K.
  set (m' := Memory _ _ _ _) in K. exists m'. split; [|split; [reflexivity|split]].
  - split; [discriminate|]. now exists 5.
  - assert (lc : c < List.length (m_cells m)) by (apply nth_error_Some; congruence). assert (ll : l < List.length (m_cells m)) by (apply nth_error_Some; congruence).
    exists a, n0, k, E, c, l, o. cbn [m' m_closures m_cells m_vm]. repeat split; auto.
    + apply nth_error_set_nth_eq. rewrite app_length. lia.
    + rewrite nth_error_set_nth_neq by auto. rewrite nth_error_app1; auto.
    + now apply old_field.
  - exists c. unfold only_counts. cbn [m' m_closures m_cells m_vm m_fns]. split; [|split]; [| |repeat split; reflexivity].
    + intros j Hj Lj. rewrite nth_error_set_nth_neq by auto. now rewrite nth_error_app1.
    + intros o' f x. apply old_field.
Qed.
End Next.

Lemma calls_unique w pg room f args m v m1 v' m2 : calls w pg room f args m (AVal v m1) -> calls w pg room f args m (AVal v' m2) -> v = v' /\ m1 = m2.
Proof.
  intros A B. destruct (cl_more _ _ _ _ _ _ _ A) as (n & E). destruct (cl_more _ _ _ _ _ _ _ B) as (n' & E').
  pose proof (E (n + n') ltac:(lia)) as H. rewrite E' in H by lia. now inversion H.
Qed.

Definition after_next (w : world) (pg : program) (room : nat) (next : value) : memory -> value -> memory -> Prop :=
  fun m r m' => calls w pg room next [] m (AVal r m').
Lemma field_new r m fs f x : m_vm m = with_object fs r -> assoc_get f fs = Some x -> field_of (new_object r) f m x m.
Proof. intros H G. exists (m_vm m). rewrite H at 1 2. split; [now apply get_field_new|]. now rewrite set_vm_same. Qed.
Lemma field_of_new r m fs f x y m' : m_vm m = with_object fs r -> assoc_get f fs = Some x -> field_of (new_object r) f m y m' -> y = x /\ m' = m.
Proof. intros H G (s & E & ->). rewrite H in E. rewrite (get_field_new _ _ _ _ _ G) in E. injection E as <- <-. rewrite <- H. now rewrite set_vm_same. Qed.

Lemma next_fields_done i last : (i >= last)%Z -> assoc_get "is_done" (next_fields false i last) = Some (VBool true).
Proof. intros H. unfold next_fields, has_next. rewrite (proj2 (Z.ltb_ge i last)) by lia. reflexivity. Qed.
Lemma next_fields_more i last : (i < last)%Z -> assoc_get "is_done" (next_fields false i last) = Some (VBool false) /\ assoc_get "value" (next_fields false i last) = Some (VInt i).
Proof. intros H. unfold next_fields, has_next. rewrite (proj2 (Z.ltb_lt i last)) by lia. split; reflexivity. Qed.

Theorem range_next w pg m next i last room : next_gives false pg m next i last -> 30 <= room -> (i64_min <= i)%Z -> (i < i64_max)%Z ->
  exists r m', calls w pg room next [] m (AVal r m') /\ next_gives false pg m' next (i + 1) last /\ (exists c, only_counts c m m') /\
    ((i < last)%Z -> field_of r "is_done" m' (VBool false) m' /\ field_of r "value" m' (VInt i) m') /\
    ((i >= last)%Z -> field_of r "is_done" m' (VBool true) m').
Proof.
  intros N R L H. destruct (next_step w pg false m next i last room N R L H) as (m' & C & V & N' & O). exists (new_object (m_vm m)), m'. split; [exact C|split; [exact N'|split; [exact O|split]]].
  - intros LT. destruct (next_fields_more i last LT) as [A B]. split; eapply field_new; eassumption.
  - intros GE. eapply field_new; [exact V|]. now apply next_fields_done.
Qed.

Theorem range_values w pg room next last : 30 <= room -> (last < i64_max)%Z -> forall vs m m', 
  draining (fun m r m' => calls w pg room next [] m (AVal r m')) (fun _ m m' => leaves_range false pg next last m m') vs m m' ->
  forall i, next_gives false pg m next i last -> (i64_min <= i)%Z -> (i < i64_max)%Z -> vs = integers i (Z.to_nat (last - i)).
Proof.
  intros R LM vs m m' D. induction D as [m r m1 m2 C F|m r m1 m2 v m3 m4 vs m5 C F G P _ IH]; intros i N L H;
    destruct (next_step w pg false m next i last room N R L H) as (mm & C' & V & N' & _); destruct (calls_unique _ _ _ _ _ _ _ _ _ _ C C') as [-> ->].
  - destruct (Z.ltb_spec i last) as [LT|GE].
    + destruct (next_fields_more i last LT) as [A _]. destruct (field_of_new _ _ _ _ _ _ _ V A F) as [X _]. discriminate X.
    + replace (Z.to_nat (last - i)) with 0 by lia. reflexivity.
  - destruct (Z.ltb_spec i last) as [LT|GE].
    + destruct (next_fields_more i last LT) as [A B]. destruct (field_of_new _ _ _ _ _ _ _ V A F) as [_ ->]. destruct (field_of_new _ _ _ _ _ _ _ V B G) as [-> ->].
      replace (Z.to_nat (last - i)) with (Datatypes.S (Z.to_nat (last - (i + 1)))) by lia. cbn [integers]. f_equal. apply IH; try lia. apply P. exact N'.
    + destruct (field_of_new _ _ _ _ _ _ _ V (next_fields_done i last ltac:(lia)) F) as [X _]. discriminate X.
Qed.

Theorem range_drains w pg room next last (step : value -> memory -> memory) : 30 <= room -> (last < i64_max)%Z ->
  (forall v m, leaves_range false pg next last m (step v m)) ->
  forall n i m, n = Z.to_nat (last - i) -> next_gives false pg m next i last -> (i64_min <= i)%Z -> (i < i64_max)%Z ->
  exists m', draining (fun m r m' => calls w pg room next [] m (AVal r m')) (fun v m m' => m' = step v m) (integers i n) m m'.
Proof.
  intros R LM P. induction n as [|n IH]; intros i m Hn N L H; destruct (next_step w pg false m next i last room N R L H) as (mm & C & V & N' & _).
  - exists mm. eapply dr_done; [exact C|]. eapply field_new; [exact V|]. apply next_fields_done. lia.
  - destruct (next_fields_more i last ltac:(lia)) as [A B]. destruct (IH (i + 1)%Z (step (VInt i) mm)) as (m' & D); try lia; [now apply P|].
    exists m'. cbn [integers]. eapply dr_next; [exact C|eapply field_new; eassumption|eapply field_new; eassumption|reflexivity|exact D].
Qed.

(** * Making a range, and its iterator *)
Lemma float_eqb_refl x : float_eqb x x = true.
Proof. destruct x as [[]|[]| |[] ? ?]; cbn; rewrite ?Pos.eqb_refl, ?Z.eqb_refl; reflexivity. Qed.
Fixpoint fn_eqb_refl (f : fn_bytecode) {struct f} : fn_eqb f f = true.
Proof.
  destruct f as [i a [d s u cs]]. cbn [fn_eqb]. rewrite !Nat.eqb_refl, String.eqb_refl. destruct (list_eq_dec Nat.eq_dec d d) as [_|N]; [|now destruct N]. cbn [andb].
  induction cs as [|c cs IH]; [reflexivity|]. destruct c as [x|x|x|x|x]; rewrite IH, andb_true_r.
  - apply Z.eqb_refl.
  - apply float_eqb_refl.
  - apply String.eqb_refl.
  - apply String.eqb_refl.
  - apply fn_eqb_refl.
Qed.

Section Make.
Variables (w : world) (pg : program).
Notation it n := (interpreter w pg n).
Lemma bound_call n room m f n0 src self args : plain_function pg m f n0 src -> 1 + List.length args <= room ->
  i_call (it (Datatypes.S n)) room (VFnBound self f) args m = run_fn (pg_lit pg) (it n) room n0 src [] self args m.
Proof.
  intros (-> & F & _) R. rewrite call_S. unfold call. replace (room <? 1 + List.length args) with false by (symmetry; now apply Nat.ltb_ge).
  rewrite F. now rewrite fn_eqb_refl.
Qed.

Lemma iter_call inclusive m f n0 k o a room n :
  plain_function pg m f n0 (Source "self" [] (Returning None) (iter_body inclusive) k) -> bc_upvalue_count (fn_code (pg_lit pg k)) <> 0 -> 
  30 <= room -> object_field o "start" (vm_heap (m_vm m)) = Ok (Some a) ->
  i_call (it (4 + n)) room (VFnBound (VObject o) f) [] m =
    AVal (new_object (m_vm m))
      (Memory (with_object [("next", VFnClosure (List.length (m_closures m)))] (m_vm m))
         (m_cells m ++ [Some (VObject o); Some a])
         (m_closures m ++ [Some (Closure k (Source "" [] (Returning None) (next_body inclusive) (k + 1))
            [("current", Datatypes.S (List.length (m_cells m))); ("self", List.length (m_cells m))])]) (m_fns m)).
Proof.
  intros F U R Vo. change (4 + n) with (Datatypes.S (3 + n)). rewrite (bound_call _ _ _ _ _ _ _ _ F) by (cbn; lia). destruct F as (_ & _ & B).
  unfold run_fn. cbn [List.length src_self src_args src_role src_body src_first].
  assert (SP : spare_slots (pg_lit pg n0) 0 <= 8) by (unfold spare_slots; destruct (_ <? _); lia).
  replace (room <? 1 + 0 + spare_slots (pg_lit pg n0) 0 + enough) with false by (symmetry; apply Nat.ltb_ge; unfold enough; lia).
  cbn [alloc]. cbn [iter_body body_parts bind_args]. unfold block. cbn [hoisted statements flat_map hoisted_name app hoist items item declaration].
  set (S0 := Scene _ _ _ _). set (m0 := set_cells _ m).
  assert (RS : 10 <= s_room S0) by (cbn [S0 s_room]; lia).
  change (3 + n) with (Datatypes.S (2 + n)). rewrite field_S by (unfold enough; lia). change (2 + n) with (Datatypes.S (1 + n)). rewrite ident_S by (cbn [target s_room]; unfold enough; lia).
  rewrite (load_cell (s_env (target S0)) "self" m0 (List.length (m_cells m)) (VObject o)); [|reflexivity|cbn [m0 set_cells m_cells]; rewrite nth_error_app2 by lia; now rewrite Nat.sub_diag].
  cbn [vbind]. unfold with_vm at 1. rewrite (get_own o "start" a (m_vm m0) Vo). rewrite set_vm_same. cbn [chained vbind alloc check].
  rewrite object_S by (cbn [declare s_room]; unfold enough; lia). unfold with_vm at 1. rewrite new_object_is. cbn [eval_fields]. change (1 + n) with (Datatypes.S n). rewrite lambda_S by (cbn [deep declare s_room]; unfold enough; lia).
  cbn [fns]. rewrite Nat.add_0_r. unfold make_fn. rewrite (proj2 (Nat.eqb_neq _ _) U). cbn [vbind]. unfold with_vm, m0. cbn [m_vm set_vm set_cells m_cells m_closures m_fns]. fold (new_object (m_vm m)).
  rewrite set_field_new. cbn [deep declare s_env S0]. cbn [m_cells set_cells set_vm m_vm m_closures m_fns]. rewrite app_length. cbn [List.length]. rewrite (Nat.add_1_r (List.length (m_cells m))), <- app_assoc. reflexivity.
Qed.

Theorem range_iterates_ inclusive m o a b room : is_range_object pg inclusive m o (VInt a) (VInt b) -> 30 <= room ->
  exists f r m1 next, field_of (VObject o) "iter" m f m /\ calls w pg room f [] m (AVal r m1) /\ field_of r "next" m1 next m1 /\
    next_gives inclusive pg m1 next a b /\ exists fs, m_vm m1 = with_object fs (m_vm m).
Proof.
  intros [HS HE HI (c & HC & [_ (f & n0 & k & CM & F & U & B)])] R.
  pose proof (iter_call inclusive m f n0 k o (VInt a) room 0 F U R HS) as K. set (m1 := Memory _ _ _ _) in K.
  exists (VFnBound (VObject o) f), (new_object (m_vm m)), m1, (VFnClosure (List.length (m_closures m))). split; [|split; [|split; [|split]]].
  - exists (m_vm m). split; [|now rewrite set_vm_same]. unfold get_field, rbind, heap_get, as_object, VM.lift. cbn. rewrite HI. unfold class_of_value. cbn [as_object]. rewrite HC.
    unfold get_method, rbind, heap_get, VM.lift. now rewrite CM.
  - split; [discriminate|]. now exists 4.
  - eapply field_new; reflexivity.
  - exists (List.length (m_closures m)), k, (k + 1), [("current", Datatypes.S (List.length (m_cells m))); ("self", List.length (m_cells m))], (Datatypes.S (List.length (m_cells m))), (List.length (m_cells m)), o.
    cbn [m1 m_closures m_cells m_vm]. repeat split; auto.
    + rewrite nth_error_app2 by lia. now rewrite Nat.sub_diag.
    + rewrite nth_error_app2 by lia. now replace (Datatypes.S (List.length (m_cells m)) - List.length (m_cells m)) with 1 by lia.
    + rewrite nth_error_app2 by lia. now rewrite Nat.sub_diag.
    + now apply old_field.
  - eexists. reflexivity.
Qed.
Theorem range_iterates inclusive m o a b room : is_range_object pg inclusive m o (VInt a) (VInt b) -> 30 <= room ->
  exists f r m1 next, field_of (VObject o) "iter" m f m /\ calls w pg room f [] m (AVal r m1) /\ field_of r "next" m1 next m1 /\
    next_gives inclusive pg m1 next a b.
Proof. intros A B. destruct (range_iterates_ inclusive m o a b room A B) as (f & r & m1 & next & X & Y & Z & T & _). now exists f, r, m1, next. Qed.

Lemma store_field S x f y n k m l v lv o : enough + 1 <= s_room S -> s_chain S = false -> 
  assoc_get x (s_env S) = Some l -> nth_error (m_cells m) l = Some (Some (VObject o)) -> assoc_get y (s_env S) = Some lv -> nth_error (m_cells m) lv = Some (Some v) ->
  i_eval (it (2 + n)) S k (EAssignment AAssign (EFieldAccess (ELitIdent x) f) (ELitIdent y)) m =
    with_vm (set_field f (VObject o) v) m (fun _ m3 => AVal v m3).
Proof.
  intros R C X1 X2 Y1 Y2. change (2 + n) with (Datatypes.S (Datatypes.S n)). rewrite assign_S by (unfold enough in *; lia). cbn [assign compound].
  rewrite ident_S by (cbn [inner s_room]; unfold enough in *; lia). cbn [inner s_env]. rewrite (load_cell _ _ _ _ _ X1 X2). cbn [vbind].
  rewrite ident_S by (cbn [deep s_room]; unfold enough in *; lia). cbn [deep s_env]. rewrite (load_cell _ _ _ _ _ Y1 Y2). reflexivity.
Qed.

Lemma new_call m c f n0 k a b room n : class_method c "new" (vm_heap (m_vm m)) = Ok (Some f) ->
  plain_function pg m f n0 (Source "self" [arg "start"; arg "end"] Constructing new_body k) -> 30 <= room ->
  i_call (it (4 + n)) room (VClass c) [a; b] m =
    AVal (new_object (m_vm m))
      (Memory (with_instance (Some c) [("start", a); ("end", b)] (m_vm m)) (m_cells m ++ [Some (new_object (m_vm m)); Some a; Some b]) (m_closures m) (m_fns m)).
Proof.
  intros CM F R. change (4 + n) with (Datatypes.S (3 + n)). rewrite call_S. unfold call. cbn [List.length]. replace (room <? 1 + 2) with false by (symmetry; apply Nat.ltb_ge; lia).
  unfold construct, with_vm at 1. assert (AL : heap_alloc (object_new (Some c)) (m_vm m) = ROk (List.length (h_objects (vm_heap (m_vm m)))) (with_instance (Some c) [] (m_vm m))) by reflexivity.
  rewrite AL. fold (new_object (m_vm m)).
  unfold initialize, with_vm at 1. cbn [m_vm set_vm]. unfold heap_get at 1. assert (CM' : class_method c "new" (vm_heap (with_instance (Some c) [] (m_vm m))) = Ok (Some f)) by exact CM. cbv beta. rewrite CM'. cbn [VM.lift].
  change (3 + n) with (Datatypes.S (2 + n)). rewrite (bound_call _ _ (set_vm (with_instance (Some c) [] (m_vm m)) m) _ _ _ _ _ F) by (cbn; lia). destruct F as (_ & _ & B).
  unfold run_fn. cbn [List.length src_self src_args src_role src_body src_first].
  assert (SP : spare_slots (pg_lit pg n0) 2 <= 8) by (unfold spare_slots; destruct (_ <? _); lia).
  replace (room <? 1 + 2 + spare_slots (pg_lit pg n0) 2 + enough) with false by (symmetry; apply Nat.ltb_ge; unfold enough; lia).
  cbn [alloc]. cbn [new_body body_parts bind_args hd tl alloc check arg fa_type fa_name declare s_env s_fn s_room s_chain]. cbn [set_cells m_cells]. unfold block. cbn [hoisted statements flat_map hoisted_name app hoist items item declaration].
  set (S0 := declare "end" _ _). set (m0 := set_cells _ _).
  assert (RS : 10 <= s_room S0) by (cbn [S0 declare s_room]; lia).
  assert (C0 : m_cells m0 = m_cells m ++ [Some (new_object (m_vm m)); Some a; Some b]) by (unfold m0; cbn [set_cells m_cells set_vm]; rewrite <- !app_assoc; reflexivity).
  assert (X : forall i x, nth_error [Some (new_object (m_vm m)); Some a; Some b] i = Some x -> nth_error (m_cells m0) (List.length (m_cells m) + i) = Some x).
  { intros i x Hx. rewrite C0. rewrite nth_error_app2 by lia. now replace (List.length (m_cells m) + i - List.length (m_cells m)) with i by lia. }
  assert (Es : assoc_get "self" (s_env S0) = Some (List.length (m_cells m) + 0)) by (rewrite Nat.add_0_r; reflexivity).
  assert (Ea : assoc_get "start" (s_env S0) = Some (List.length (m_cells m) + 1)) by (cbn; rewrite app_length; reflexivity).
  assert (Eb : assoc_get "end" (s_env S0) = Some (List.length (m_cells m) + 2)) by (cbn; rewrite !app_length; cbn; f_equal; lia).
  rewrite (store_field S0 "self" "start" "start" n k m0 _ a _ _ ltac:(unfold enough; lia) eq_refl Es (X 0 _ eq_refl) Ea (X 1 _ eq_refl)).
  unfold with_vm at 1. change (m_vm m0) with (with_instance (Some c) [] (m_vm m)). fold (new_object (m_vm m)). rewrite set_field_new. cbn [vbind].
  set (m1 := set_vm _ m0).
  rewrite (store_field S0 "self" "end" "end" n _ m1 _ b _ _ ltac:(unfold enough; lia) eq_refl Es (X 0 _ eq_refl) Eb (X 2 _ eq_refl)).
  unfold with_vm at 1. change (m_vm m1) with (with_instance (Some c) (assoc_set "start" a []) (m_vm m)). fold (new_object (m_vm m)). rewrite set_field_new. cbn [vbind].
  change (m_cells (set_vm (with_instance (Some c) (assoc_set "end" b (assoc_set "start" a [])) (m_vm m)) m1)) with (m_cells m0).
  replace (nth_error (m_cells m0) (List.length (m_cells (set_vm (with_instance (Some c) [] (m_vm m)) m)))) with (Some (Some (new_object (m_vm m)))); cycle 1.
  { rewrite C0. cbn [set_vm m_cells]. rewrite nth_error_app2 by lia. now rewrite Nat.sub_diag. }
  f_equal. change (m_closures m) with (m_closures m0). change (m_fns m) with (m_fns m0). rewrite <- C0. reflexivity.
Qed.

Theorem range_made inclusive m c a b room : is_range_class pg inclusive m c -> 30 <= room ->
  exists o m1, calls w pg room (VClass c) [a; b] m (AVal (VObject o) m1) /\ is_range_object pg inclusive m1 o a b.
Proof.
  intros [(f & n0 & k & CM & F) HI] R. pose proof (new_call m c f n0 k a b room 0 CM F R) as K. set (m1 := Memory _ _ _ _) in K.
  exists (List.length (h_objects (vm_heap (m_vm m)))), m1. split; [split; [discriminate|now exists 4]|].
  assert (G : forall key, object_field (List.length (h_objects (vm_heap (m_vm m)))) key (vm_heap (m_vm m1)) = Ok (assoc_get key [("start", a); ("end", b)])).
  { intros key. unfold object_field, m1, with_instance. cbn. rewrite nth_error_app2 by lia. rewrite Nat.sub_diag. cbn. rewrite nth_error_app2 by lia. rewrite Nat.sub_diag. reflexivity. }
  split; [exact (G "start")|exact (G "end")|exact (G "iter")|]. exists c. split.
  - unfold object_class, m1, with_instance. cbn. rewrite nth_error_app2 by lia. now rewrite Nat.sub_diag.
  - split; [exists f, n0, k; split; [exact CM|exact F]|exact HI].
Qed.

(** * Loops *)
Lemma draining_mono N (P Q : value -> memory -> memory -> Prop) vs m m' : (forall v m m', P v m m' -> Q v m m') -> draining N P vs m m' -> draining N Q vs m m'.
Proof. intros H D. induction D as [m r m1 m2 C F|m r m1 m2 v m3 m4 vs m5 C F G X _ IH]; [eapply dr_done; eassumption|]. apply H in X. eapply dr_next; eassumption. Qed.
Theorem range_for S k x e body m o a b m1 : 35 <= s_room S -> is_range e = false -> (i64_min <= a)%Z -> (a < i64_max)%Z -> (b < i64_max)%Z ->
  evaluates w pg (inner S) k e m (AVal (VObject o) m1) -> is_range_object pg false m1 o (VInt a) (VInt b) ->
  exists next m2, next_gives false pg m2 next a b /\
    forall vs m3, draining (fun m r m' => calls w pg (s_room S - 1) next [] m (AVal r m'))
        (fun v m m' => pass w pg (deep 1 S) (k + fns e) x body v m m' /\ leaves_range false pg next b m m') vs m2 m3 ->
      vs = integers a (Z.to_nat (b - a)) /\ evaluates w pg S k (EFor x e body) m (AVal VUnit m3).
Proof.
  intros R NR La Ha Hb EV RO. destruct (range_iterates false m1 o a b (s_room S) RO ltac:(lia)) as (f & r & m2 & next & FI & C & FN & NG).
  exists next, m2. split; [exact NG|]. intros vs m3 D. split.
  - eapply (range_values w pg (s_room S - 1) next b); [lia|exact Hb| |exact NG|exact La|exact Ha].
    eapply draining_mono; [|exact D]. intros v m' m'' [_ LR]. exact LR.
  - eapply for_iter_eval; [unfold enough; lia|exact NR|exact EV|exact FI|exact C|exact FN|].
    eapply draining_mono; [|exact D]. intros v m' m'' [HP _]. exact HP.
Qed.

(** ** Inclusive ranges *)
Theorem inclusive_fails S k x e body m o a b m1 : 35 <= s_room S -> is_range e = false -> (i64_min <= a)%Z -> (a < i64_max)%Z ->
  evaluates w pg (inner S) k e m (AVal (VObject o) m1) -> is_range_object pg true m1 o (VInt a) (VInt b) ->
  class_method (vm_any (m_vm m1)) "is_done" (vm_heap (m_vm m1)) = Ok None ->
  exists m', evaluates w pg S k (EFor x e body) m (AFail INVALID_BOOL_CONVERSION m').
Proof.
  intros R NR La Ha EV RO CM. destruct (range_iterates_ true m1 o a b (s_room S) RO ltac:(lia)) as (f & r & m2 & next & FI & C & FN & NG & fs & V2).
  destruct (next_step w pg true m2 next a b (s_room S - 1) NG ltac:(lia) La Ha) as (m3 & C3 & V3 & _).
  destruct (ev_more _ _ _ _ _ _ _ 0 EV) as (f1 & _ & E1). destruct (cl_more _ _ _ _ _ _ _ C) as (f2 & E2). destruct (cl_more _ _ _ _ _ _ _ C3) as (f3 & E3).
  destruct FI as (s1 & G1 & X1). destruct FN as (s2 & G2 & X2).
  assert (G3 : get_field "is_done" (new_object (m_vm m2)) (m_vm m3) = ROk VNull (m_vm m3)).
  { rewrite V3. apply missing_field.
    - unfold next_fields. destruct (has_next true a b); reflexivity.
    - reflexivity.
    - rewrite V2. exact CM. }
  exists m3. split; [discriminate|]. exists (Datatypes.S (Datatypes.S (f1 + f2 + f3))).
  assert (E : forall n, i_eval (interpreter w pg (Datatypes.S n)) S k (EFor x e body) m =
    vbind (i_eval (interpreter w pg n) (inner S) k e m) (fun v m1 =>
      with_vm (get_field "iter" v) m1 (fun f m2 =>
      vbind (i_call (interpreter w pg n) (s_room S) f [] m2) (fun it m3 =>
      with_vm (get_field "next" it) m3 (fun next m4 => i_iter (interpreter w pg n) (inner S) (k + fns e) x body next m4))))).
  { intros n. cbn [interpreter i_eval]. unfold eval. rewrite (proj2 (Nat.ltb_ge _ _)) by (unfold enough; lia). destruct e; try reflexivity. destruct op; try reflexivity; discriminate NR. }
  rewrite E. rewrite E1 by lia. cbn [vbind]. unfold with_vm at 1. rewrite G1. rewrite <- X1. rewrite E2 by lia. cbn [vbind]. unfold with_vm at 1. rewrite G2. rewrite <- X2.
  change (i_iter (it (Datatypes.S (f1 + f2 + f3)))) with (EvalSpec.iter (it (f1 + f2 + f3))). unfold EvalSpec.iter. cbn [inner s_room]. rewrite (proj2 (Nat.ltb_ge _ _)) by (unfold enough; lia).
  rewrite E3 by lia. cbn [vbind]. unfold with_vm. rewrite G3. rewrite set_vm_same. reflexivity.
Qed.
End Make.
