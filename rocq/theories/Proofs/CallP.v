(** Calls: frames, constructors, and the state of the stack after a run. *)
From Verif.Spec Require Export CallSpec.
From Verif.Proofs Require Export StoreP.

(** Entering a function. *)
Lemma enter_script w r below temps callee args f ups slot0 receiver s (k : value -> run unit) :
  (receiver = None /\ slot0 = callee \/ receiver = Some slot0) ->
  room_for_call f (below ++ rev temps) (List.length args) ->
  (let* v := call_fn_script w r (List.length args) receiver f ups in k v)
    (with_stack below (rev args ++ callee :: temps) s)
  = (let* v := execute w r (fn_code f) (call_frame f (List.length (below ++ rev temps)) (List.length args)) ups in
     on_stack_ (stack_release VNull (w_dbg w) (call_frame f (List.length (below ++ rev temps)) (List.length args))) >>>
     k v) (with_stack ((below ++ rev temps) ++ call_cells f slot0 args) [] s).
Proof.
  intros HR R. unfold room_for_call in R. unfold call_fn_script.
  fold (spare_slots f (List.length args)). set (n := spare_slots f (List.length args)) in *.
  assert (L : List.length (rev args ++ callee :: temps) = List.length args + S (List.length temps))
    by (rewrite app_length, rev_length; reflexivity).
  rewrite app_length, rev_length in R.
  unfold rbind at 1 2. rewrite (reserve_ws (w_dbg w)) by (unfold fits; rewrite L; lia).
  unfold rbind at 1, lift, frame_prepend. cbn [fr_start fr_end]. rewrite L.
  match goal with |- context [?a <? ?b] => destruct (Nat.ltb_spec a b) end; [lia|].
  replace (List.length below + (List.length args + S (List.length temps)) - (List.length args + 1))
    with (List.length (below ++ rev temps)) by (rewrite app_length, rev_length; lia).
  replace (Frame (List.length (below ++ rev temps)) (List.length below + (List.length args + S (List.length temps)) + n))
    with (call_frame f (List.length (below ++ rev temps)) (List.length args))
    by (unfold call_frame; f_equal; fold n; rewrite app_length, rev_length; lia).
  set (fr := call_frame f (List.length (below ++ rev temps)) (List.length args)).
  assert (C : below ++ rev (rev args ++ callee :: temps) ++ repeat VNull n
              = (below ++ rev temps) ++ call_cells f callee args).
  { rewrite rev_app_distr, rev_involutive. cbn [rev]. unfold call_cells. fold n. rewrite <- !app_assoc. reflexivity. }
  rewrite C. clear C.
  assert (S0 : (match receiver with Some v => frame_set fr 0 v | None => rret tt end)
                 (with_stack ((below ++ rev temps) ++ call_cells f callee args) [] s)
               = ROk tt (with_stack ((below ++ rev temps) ++ call_cells f slot0 args) [] s)).
  { destruct HR as [[-> ->]| ->]; [reflexivity|].
    rewrite frame_set_ws.
    - cbn [fr fr_start call_frame]. rewrite set_nth_app_r. reflexivity.
    - unfold fr, call_frame. cbn [fr_start fr_end]. lia.
    - unfold fr, call_frame, call_cells. fold n. cbn [fr_end]. rewrite !app_length. cbn [List.length]. rewrite app_length, repeat_length. lia.
    - unfold fits, call_cells. fold n. rewrite !app_length. cbn [List.length]. rewrite app_length, repeat_length, rev_length. lia. }
  unfold rbind at 1. rewrite S0. unfold rbind. destruct (execute _ _ _ _ _ _) as [v s1|e s1| |]; try reflexivity.
  destruct (on_stack_ _ s1) as [[] s2|e s2| |]; reflexivity.
Qed.

Lemma call_fn_enter w r below temps callee args f ups slot0 s :
  calls_code (vm_heap s) callee f ups slot0 ->
  room_for_call f (below ++ rev temps) (List.length args) ->
  call_fn w r (List.length args) (with_stack below (rev args ++ callee :: temps) s)
  = (let* v := execute w r (fn_code f) (call_frame f (List.length (below ++ rev temps)) (List.length args)) ups in
     on_stack_ (stack_release VNull (w_dbg w) (call_frame f (List.length (below ++ rev temps)) (List.length args))) >>>
     push v) (with_stack ((below ++ rev temps) ++ call_cells f slot0 args) [] s).
Proof.
  intros HC R. unfold call_fn. rewrite rbind_ok with (a := callee) (s' := with_stack below (rev args ++ callee :: temps) s).
  2:{ apply peek_ws. rewrite nth_error_app2, rev_length, Nat.sub_diag by (rewrite rev_length; lia). reflexivity. }
  inversion HC as [v f' ups' HV|rc v f' ups' HV]; subst.
  - inversion HV as [f'|a f' ups' E]; subst.
    + rewrite <- (enter_script w r below temps (VFnScript f) args f None (VFnScript f) None) by auto. reflexivity.
    + rewrite <- (enter_script w r below temps (VFnClosure a) args f (Some ups') (VFnClosure a) None) by auto.
      unfold rbind, heap_get, lift. cbn [vm_heap with_stack set_stack]. rewrite E. reflexivity.
  - inversion HV as [f'|a f' ups' E]; subst.
    + rewrite <- (enter_script w r below temps (VFnBound slot0 (VFnScript f)) args f None slot0 (Some slot0)) by auto. reflexivity.
    + rewrite <- (enter_script w r below temps (VFnBound slot0 (VFnClosure a)) args f (Some ups') slot0 (Some slot0)) by auto.
      unfold rbind, heap_get, lift. cbn [vm_heap with_stack set_stack]. rewrite E. reflexivity.
Qed.

(** A body that ends with one value above its frame. *)
Lemma call_returns w n below temps callee args f ups slot0 s caller' cells' v s' :
  calls_code (vm_heap s) callee f ups slot0 ->
  room_for_call f (below ++ rev temps) (List.length args) ->
  r_loop (machine w n) (fn_code f) (call_frame f (List.length (below ++ rev temps)) (List.length args)) ups 0%Z
    (with_stack ((below ++ rev temps) ++ call_cells f slot0 args) [] s)
  = ROk tt (with_stack (caller' ++ cells') [v] s') ->
  List.length caller' = List.length (below ++ rev temps) ->
  List.length cells' = List.length (call_cells f slot0 args) ->
  r_call (machine w (S n)) (List.length args) (with_stack below (rev args ++ callee :: temps) s)
  = ROk tt (with_stack caller' [v] s').
Proof.
  intros HC R E L1 L2. cbn [machine r_call]. rewrite (call_fn_enter _ _ _ _ _ _ _ _ _ _ HC R).
  assert (LC : List.length (call_cells f slot0 args) = 1 + List.length args + spare_slots f (List.length args)).
  { unfold call_cells. cbn [List.length]. rewrite app_length, repeat_length. lia. }
  unfold room_for_call in R.
  unfold rbind at 1. unfold execute at 1. unfold rbind at 1. rewrite E. rewrite !ptr_ws.
  assert (B : negb (Nat.eqb (List.length (caller' ++ cells') + List.length [v])
                (S (List.length ((below ++ rev temps) ++ call_cells f slot0 args) + @List.length value []))) = false).
  { rewrite !app_length in *. cbn [List.length]. rewrite negb_false_iff. apply Nat.eqb_eq. lia. }
  rewrite B, andb_false_r. rewrite pop_ws by (unfold fits; rewrite app_length, L1, L2, LC; cbn [List.length]; lia).
  unfold call_frame. rewrite <- L1, <- LC, <- L2.
  unfold rbind at 1. rewrite release_ws by (rewrite L1, ?L2, ?LC; lia).
  rewrite push_ws by (unfold fits; cbn [List.length]; lia). reflexivity.
Qed.

(** A body that fails: the error and the state are passed on, nothing is taken off the stack. *)
Lemma call_fails w n below temps callee args f ups slot0 s e s' :
  calls_code (vm_heap s) callee f ups slot0 ->
  room_for_call f (below ++ rev temps) (List.length args) ->
  r_loop (machine w n) (fn_code f) (call_frame f (List.length (below ++ rev temps)) (List.length args)) ups 0%Z
    (with_stack ((below ++ rev temps) ++ call_cells f slot0 args) [] s) = RErr e s' ->
  r_call (machine w (S n)) (List.length args) (with_stack below (rev args ++ callee :: temps) s) = RErr e s'.
Proof.
  intros HC R E. cbn [machine r_call]. rewrite (call_fn_enter _ _ _ _ _ _ _ _ _ _ HC R).
  unfold rbind at 1. unfold execute at 1. unfold rbind at 1. rewrite E. reflexivity.
Qed.

(** Slots of the frame. *)
Lemma call_cells_slots f slot0 args i : i < List.length (call_cells f slot0 args) ->
  nth_error (call_cells f slot0 args) i
  = Some (match i with 0 => slot0 | S j => match nth_error args j with Some v => v | None => VNull end end).
Proof.
  intros H. destruct i as [|j]; [reflexivity|]. unfold call_cells in *. cbn [nth_error List.length] in *.
  rewrite app_length, repeat_length in H.
  destruct (Nat.lt_ge_cases j (List.length args)) as [L|L].
  - rewrite nth_error_app1 by assumption. destruct (nth_error args j) eqn:E; [reflexivity|]. apply nth_error_None in E. lia.
  - rewrite nth_error_app2 by assumption. rewrite (proj2 (nth_error_None args j)) by assumption.
    destruct (nth_error (repeat VNull (spare_slots f (List.length args))) (j - List.length args)) eqn:E.
    + apply nth_error_In, repeat_spec in E. now subst.
    + apply nth_error_None in E. rewrite repeat_length in E. lia.
Qed.
Lemma call_cells_enough f slot0 args : bc_slot_count (fn_code f) < List.length (call_cells f slot0 args).
Proof.
  unfold call_cells, spare_slots. cbn [List.length]. rewrite app_length, repeat_length.
  destruct (Nat.ltb_spec (List.length args) (bc_slot_count (fn_code f))); lia.
Qed.

(** Constructors. *)
Lemma object_new_one_more s c : let (o, h') := object_new (Some c) (vm_heap s) in one_more_object s c o (set_heap h' s).
Proof.
  unfold object_new, one_more_object. cbn [h_objects hset_objects hset_fields h_fields h_arrays h_classes h_closures h_upvalues vm_heap set_heap].
  split; [reflexivity|]. split; [eauto|].
  split. { econstructor; cbn [vm_heap set_heap h_objects hset_objects]; [rewrite nth_error_app2, Nat.sub_diag by lia; reflexivity|reflexivity]. }
  split. { intros name. unfold field. cbn [h_objects h_fields hset_objects hset_fields]. rewrite nth_error_app2, Nat.sub_diag by lia. cbn [nth_error ob_fields].
    rewrite nth_error_app2, Nat.sub_diag by lia. reflexivity. }
  split. { intros o' H. now rewrite nth_error_app1. }
  split. { intros t H. now rewrite nth_error_app1. }
  auto.
Qed.

Lemma class_method_some h c name m : method h c name = Some m -> class_method c name h = Ok (Some m).
Proof.
  unfold method, class_method, class_get. destruct (nth_error (h_classes h) c); cbn [omap]; congruence.
Qed.
Lemma class_method_none h c name : c < List.length (h_classes h) -> method h c name = None -> class_method c name h = Ok None.
Proof.
  unfold method, class_method, class_get. intros H. destruct (nth_error (h_classes h) c) eqn:E; cbn [omap]; [congruence|].
  apply nth_error_None in E. lia.
Qed.

Lemma peek_callee below args callee temps s :
  peek (List.length args) (with_stack below (rev args ++ callee :: temps) s)
  = ROk callee (with_stack below (rev args ++ callee :: temps) s).
Proof. apply peek_ws. rewrite nth_error_app2, rev_length, Nat.sub_diag by (rewrite rev_length; lia). reflexivity. Qed.
Lemma poke_callee below args callee temps s v : fits below temps (S (List.length args)) ->
  poke (List.length args) v (with_stack below (rev args ++ callee :: temps) s)
  = ROk tt (with_stack below (rev args ++ v :: temps) s).
Proof.
  intros F. unfold fits in F. rewrite poke_ws; [|rewrite app_length, rev_length; cbn [List.length]; lia|unfold fits; rewrite app_length, rev_length; cbn [List.length]; lia].
  replace (List.length args) with (List.length (rev args) + 0) by (rewrite rev_length; lia).
  rewrite set_nth_app_r. reflexivity.
Qed.

Lemma construct_alloc w r below temps args c s :
  exists o s', one_more_object s c o s' /\
    call_fn w r (List.length args) (with_stack below (rev args ++ VClass c :: temps) s)
    = (let* v := call_class_constructor r (List.length args) c (VObject o) in push v)
        (with_stack below (rev args ++ VClass c :: temps) s').
Proof.
  pose proof (object_new_one_more s c) as H. destruct (object_new (Some c) (vm_heap s)) as [o h'] eqn:E.
  exists o, (set_heap h' s). split; [exact H|]. unfold call_fn. rewrite (rbind_ok _ _ _ _ _ (peek_callee _ _ _ _ _)).
  unfold rbind at 1 2. unfold heap_alloc. cbn [vm_heap with_stack set_stack]. rewrite E. reflexivity.
Qed.

Lemma construct_without_new w n below temps args c s :
  c < List.length (h_classes (vm_heap s)) -> method (vm_heap s) c "new" = None ->
  (args <> [] \/ match base_of (vm_heap s) c with Some b => b < List.length (h_classes (vm_heap s)) /\ method (vm_heap s) b "new" = None | None => True end) ->
  fits below temps (S (List.length args)) ->
  exists o s', one_more_object s c o s' /\
    r_call (machine w (S n)) (List.length args) (with_stack below (rev args ++ VClass c :: temps) s)
    = ROk tt (with_stack below (VObject o :: temps) s').
Proof.
  intros Hc Hm Ha F. cbn [machine r_call]. destruct (construct_alloc w (machine w n) below temps args c s) as (o & s' & O & ->).
  exists o, s'. split; [exact O|]. destruct O as (_ & (h' & ->) & _ & _ & _ & _ & _ & Hcl & _). cbn [vm_heap set_heap] in Hcl.
  assert (Hm' : class_method c "new" h' = Ok None) by (apply class_method_none; unfold method; rewrite Hcl; assumption).
  unfold call_class_constructor. unfold fits in F.
  unfold rbind at 1 2. unfold heap_get at 1. cbn [vm_heap with_stack set_stack set_heap]. rewrite Hm'. cbn [lift].
  destruct args as [|a args].
  - cbn [List.length Nat.ltb Nat.leb rev app]. destruct Ha as [Ha|Ha]; [congruence|].
    assert (E : exists k, nth_error (h_classes h') c = Some k /\ cl_base k = base_of (vm_heap s) c).
    { unfold base_of. rewrite Hcl. destruct (nth_error (h_classes (vm_heap s)) c) eqn:E; [eauto|]. apply nth_error_None in E. lia. }
    destruct E as (k & Ek & Eb). unfold rbind at 1 2. unfold heap_get at 1, class_get at 1. cbn [vm_heap with_stack set_stack set_heap].
    rewrite Ek. cbn [lift]. rewrite Eb. cbn [List.length] in F.
    destruct (base_of (vm_heap s) c) as [b|].
    + destruct Ha as [Hb Hn]. unfold rbind at 1 2. unfold heap_get. cbn [vm_heap with_stack set_stack set_heap].
      rewrite class_method_none by (unfold method; rewrite Hcl; assumption). cbn [lift]. unfold rret at 1.
      change (with_stack below (VClass c :: temps) (set_heap h' s)) with (with_stack below (VClass c :: temps) (set_heap h' s)).
      unfold rbind; rewrite pop_ws by (unfold fits; lia). unfold rret. apply push_ws. unfold fits; lia.
    + unfold rret at 1. unfold rbind; rewrite pop_ws by (unfold fits; lia). unfold rret. apply push_ws. unfold fits; lia.
  - destruct (Nat.ltb_spec 0 (List.length (a :: args))) as [_|Hl]; [|cbn in Hl; lia].
    unfold rbind at 1 2. rewrite pop_count_ws; [|apply rev_length|unfold fits; cbn [List.length] in *; lia].
    unfold rret at 1. unfold rbind; rewrite pop_ws by (unfold fits; lia). unfold rret. apply push_ws. unfold fits; lia.
Qed.

Lemma construct_base_new w n below temps c b m s : 
  method (vm_heap s) c "new" = None -> base_of (vm_heap s) c = Some b -> method (vm_heap s) b "new" = Some m ->
  exists s', r_call (machine w (S n)) 0 (with_stack below (VClass c :: temps) s) = RErr CLASS_MUST_HAVE_NEW_IF_SUPER_HAS_NEW s'.
Proof.
  intros Hm Hb Hbm. cbn [machine r_call].
  destruct (construct_alloc w (machine w n) below temps [] c s) as (o & s' & O & E). cbn [List.length rev app] in E. rewrite E. clear E.
  destruct O as (_ & (h' & ->) & _ & _ & _ & _ & _ & Hcl & _). cbn [vm_heap set_heap] in Hcl.
  assert (Ek : exists k, nth_error (h_classes h') c = Some k /\ cl_base k = Some b).
  { unfold base_of in Hb. rewrite Hcl. destruct (nth_error (h_classes (vm_heap s)) c) eqn:E; [eauto|discriminate]. }
  destruct Ek as (k & Ek & Eb).
  assert (Hm' : class_method c "new" h' = Ok None).
  { apply class_method_none; [|unfold method; rewrite Hcl; assumption]. apply nth_error_Some. rewrite Ek. discriminate. }
  eexists. unfold call_class_constructor. unfold rbind at 1 2. unfold heap_get at 1. cbn [vm_heap with_stack set_stack set_heap]. rewrite Hm'. cbn [lift].
  cbn [Nat.ltb Nat.leb]. unfold rbind at 1 2. unfold heap_get at 1, class_get at 1. cbn [vm_heap with_stack set_stack set_heap]. rewrite Ek. cbn [lift]. rewrite Eb.
  unfold rbind at 1. unfold heap_get. cbn [vm_heap with_stack set_stack set_heap].
  rewrite (class_method_some h' b "new" m) by (unfold method; rewrite Hcl; assumption). cbn [lift]. reflexivity.
Qed.

Lemma construct_with_new w n below temps args c m s :
  method (vm_heap s) c "new" = Some m -> fits below temps (S (List.length args)) ->
  exists o s', one_more_object s c o s' /\
    forall below' v temps' s2, fits below' temps' 1 ->
    r_call (machine w n) (List.length args) (with_stack below (rev args ++ VFnBound (VObject o) m :: temps) s')
    = ROk tt (with_stack below' (v :: temps') s2) ->
    r_call (machine w (S n)) (List.length args) (with_stack below (rev args ++ VClass c :: temps) s)
    = ROk tt (with_stack below' (v :: temps') s2).
Proof.
  intros Hm F. destruct (construct_alloc w (machine w n) below temps args c s) as (o & s' & O & E).
  exists o, s'. split; [exact O|]. intros below' v temps' s2 F' C. cbn [machine r_call]. rewrite E. clear E.
  destruct O as (_ & (h' & ->) & _ & _ & _ & _ & _ & Hcl & _). cbn [vm_heap set_heap] in Hcl.
  assert (Hm' : class_method c "new" h' = Ok (Some m)) by (apply class_method_some; unfold method; rewrite Hcl; exact Hm).
  unfold call_class_constructor. unfold rbind at 1 2. unfold heap_get at 1. cbn [vm_heap with_stack set_stack set_heap]. rewrite Hm'. cbn [lift].
  unfold rbind at 1 2. rewrite poke_callee by assumption. unfold rbind; rewrite C. rewrite (peek_ws 0 below' (v :: temps') v) by reflexivity.
  unfold rbind; rewrite pop_ws by assumption. unfold rret. now apply push_ws.
Qed.

Lemma construct_new_fails w n below temps args c m s :
  method (vm_heap s) c "new" = Some m -> fits below temps (S (List.length args)) ->
  exists o s', one_more_object s c o s' /\
    forall e s2,
    r_call (machine w n) (List.length args) (with_stack below (rev args ++ VFnBound (VObject o) m :: temps) s') = RErr e s2 ->
    r_call (machine w (S n)) (List.length args) (with_stack below (rev args ++ VClass c :: temps) s) = RErr e s2.
Proof.
  intros Hm F. destruct (construct_alloc w (machine w n) below temps args c s) as (o & s' & O & E).
  exists o, s'. split; [exact O|]. intros e s2 C. cbn [machine r_call]. rewrite E. clear E.
  destruct O as (_ & (h' & ->) & _ & _ & _ & _ & _ & Hcl & _). cbn [vm_heap set_heap] in Hcl.
  assert (Hm' : class_method c "new" h' = Ok (Some m)) by (apply class_method_some; unfold method; rewrite Hcl; exact Hm).
  unfold call_class_constructor. unfold rbind at 1 2. unfold heap_get at 1. cbn [vm_heap with_stack set_stack set_heap]. rewrite Hm'. cbn [lift].
  unfold rbind at 1 2. rewrite poke_callee by assumption. unfold rbind; rewrite C. reflexivity.
Qed.
