(** The methods of arrays. *)
From Verif.Spec Require Import ArraySpec.
From Verif.Proofs Require Import FitsP StoreP VmPrimP StackP CallP.
#[local] Open Scope string_scope.
#[local] Open Scope list_scope.
#[local] Open Scope nat_scope.

(** ** Calling a native *)
Lemma answers_bound w n below temps a m args s v s' : fits below temps (S (List.length args)) ->
  call_native w (machine w n) m (VArray a :: args) (with_stack below temps s) = ROk v (with_stack below temps s') ->
  answers w (S n) below temps (method_of a m) args s v s'.
Proof.
  intros F H. unfold answers. cbn [machine r_call]. unfold call_fn. unfold rbind at 1.
  rewrite (peek_callee below args (method_of a m) temps s). unfold method_of. unfold call_fn_native. unfold rbind at 1 2.
  rewrite Nat.add_1_r. 
  assert (E : rev args ++ VFnBound (VArray a) (VFnNative m) :: temps = rev (VFnBound (VArray a) (VFnNative m) :: args) ++ temps) by (cbn [rev]; now rewrite <- app_assoc).
  rewrite E. rewrite pop_count_ws; [|now rewrite rev_length|exact F]. rewrite rev_involutive. rewrite H. rewrite push_ws; [reflexivity|]. unfold fits in *. lia.
Qed.
Lemma answers_plain w n below temps m args s v s' : fits below temps (S (List.length args)) ->
  call_native w (machine w n) m (VFnNative m :: args) (with_stack below temps s) = ROk v (with_stack below temps s') ->
  answers w (S n) below temps (VFnNative m) args s v s'.
Proof.
  intros F H. unfold answers. cbn [machine r_call]. unfold call_fn. unfold rbind at 1.
  rewrite (peek_callee below args (VFnNative m) temps s). unfold call_fn_native. unfold rbind at 1 2.
  rewrite Nat.add_1_r.
  assert (E : rev args ++ VFnNative m :: temps = rev (VFnNative m :: args) ++ temps) by (cbn [rev]; now rewrite <- app_assoc).
  rewrite E. rewrite pop_count_ws; [|now rewrite rev_length|exact F]. rewrite rev_involutive. rewrite H. rewrite push_ws; [reflexivity|]. unfold fits in *. lia.
Qed.

Section Methods.
Variables (w : world) (n : nat) (below temps : list value).

Lemma elements_nth h a vs : elements h a = Some vs -> exists ar, nth_error (h_arrays h) a = Some ar /\ ar_elements ar = vs.
Proof. unfold elements. destruct (nth_error _ a) as [ar|]; [|discriminate]. intros [= <-]. eauto. Qed.

Lemma set_array a vs s ar : nth_error (h_arrays (vm_heap s)) a = Some ar ->
  elements_become a vs s (set_heap (hset_arrays (set_nth (h_arrays (vm_heap s)) a (MkArray vs (ar_object ar) 0)) (vm_heap s)) s).
Proof.
  intros E. assert (L : a < List.length (h_arrays (vm_heap s))) by (apply nth_error_Some; congruence).
  split; [eexists; reflexivity|]. cbn [vm_heap set_heap hset_arrays h_arrays]. split; [apply set_nth_len|]. split.
  - unfold elements. cbn [hset_arrays h_arrays]. rewrite nth_error_set_nth_eq by exact L. reflexivity.
  - split.
    + intros b N. apply nth_error_set_nth_neq; congruence.
    + intros _. eexists. cbn [hset_arrays h_arrays]. rewrite nth_error_set_nth_eq by exact L. split; reflexivity.
Qed.

Theorem array_push_method a vs x s : fits below temps 2 -> elements (vm_heap s) a = Some vs -> unborrowed (vm_heap s) a ->
  exists s', answers w (S n) below temps (method_of a NArrayPush) [x] s VUnit s' /\ elements_become a (vs ++ [x]) s s'.
Proof.
  intros F E (ar & E1 & B). destruct (elements_nth _ _ _ E) as (ar' & E2 & <-). rewrite E1 in E2. injection E2 as <-.
  eexists. split; [apply answers_bound; [exact F|]|eapply set_array; exact E1].
  cbn [call_native]. unfold heap_upd_, heap_upd, rbind. rewrite ws_heap. unfold array_push, array_elements, array_update. rewrite E1. cbn [obind].
  rewrite B. cbn [Nat.eqb omap]. reflexivity.
Qed.

Theorem array_pop_method a vs x s : fits below temps 1 -> elements (vm_heap s) a = Some (vs ++ [x]) -> unborrowed (vm_heap s) a ->
  exists s', answers w (S n) below temps (method_of a NArrayPop) [] s x s' /\ elements_become a vs s s'.
Proof.
  intros F E (ar & E1 & B). destruct (elements_nth _ _ _ E) as (ar' & E2 & E3). rewrite E1 in E2. injection E2 as <-.
  eexists. split; [apply answers_bound; [exact F|]|eapply set_array; exact E1].
  cbn [call_native]. unfold heap_upd, rbind. rewrite ws_heap. unfold array_pop, array_elements, array_update. rewrite E1. cbn [obind].
  rewrite B. cbn [Nat.eqb omap]. rewrite E3, app_length. cbn [List.length]. rewrite Nat.add_sub, nth_error_app2, Nat.sub_diag by lia. cbn [nth_error].
  rewrite firstn_app, Nat.sub_diag, firstn_all, app_nil_r. reflexivity.
Qed.
Theorem array_pop_empty a s : fits below temps 1 -> elements (vm_heap s) a = Some [] -> unborrowed (vm_heap s) a ->
  exists s', answers w (S n) below temps (method_of a NArrayPop) [] s VUnit s' /\ elements_become a [] s s'.
Proof.
  intros F E (ar & E1 & B). destruct (elements_nth _ _ _ E) as (ar' & E2 & E3). rewrite E1 in E2. injection E2 as <-.
  eexists. split; [apply answers_bound; [exact F|]|eapply set_array; exact E1].
  cbn [call_native]. unfold heap_upd, rbind. rewrite ws_heap. unfold array_pop, array_elements, array_update. rewrite E1. cbn [obind].
  rewrite B, E3. reflexivity.
Qed.
Theorem array_length_method a vs s : fits below temps 1 -> elements (vm_heap s) a = Some vs ->
  answers w (S n) below temps (method_of a NArrayLength) [] s (VInt (Z.of_nat (List.length vs))) s.
Proof.
  intros F E. destruct (elements_nth _ _ _ E) as (ar & E2 & <-). apply answers_bound; [exact F|].
  cbn [call_native]. unfold heap_get, rbind. rewrite ws_heap. unfold array_elements. rewrite E2. reflexivity.
Qed.

(** ** map and filter *)
Notation call_of := (answers_with w n below temps).
Lemma call_function_ok f v s y s' : fits below temps 2 -> call_of f v s y s' ->
  call_function (machine w n) f [v] (with_stack below temps s) = ROk y (with_stack below temps s').
Proof.
  intros F H. unfold fits in F. unfold call_function, rbind. rewrite push_ws by (unfold fits; lia).
  unfold on_stack_. assert (P := push_multiple_ws [v] below (f :: temps) s). unfold on_stack_ in P. rewrite P by (unfold fits; cbn [List.length]; lia).
  unfold answers_with, answers in H. cbn [rev app List.length] in *. rewrite H. rewrite pop_ws by (unfold fits; lia). reflexivity.
Qed.
Lemma map_elements_ok f vs s ys s' : fits below temps 2 -> in_turn (call_of f) vs s ys s' ->
  map_elements (machine w n) f vs (with_stack below temps s) = ROk ys (with_stack below temps s').
Proof.
  intros F H. induction H as [s|v vs s y s1 ys s2 H _ IH]; [reflexivity|]. cbn [map_elements]. unfold rbind, try_ok. rewrite (call_function_ok f v s y s1 F H).
  rewrite IH. reflexivity.
Qed.
Lemma filter_elements_ok f vs s ys s' : fits below temps 2 -> in_turn (call_of f) vs s ys s' ->
  filter_elements (machine w n) f vs (with_stack below temps s) = ROk (chosen vs ys) (with_stack below temps s').
Proof.
  intros F H. induction H as [s|v vs s y s1 ys s2 H _ IH]; [reflexivity|]. cbn [filter_elements]. unfold rbind, call_predicate, try_ok, rbind. rewrite (call_function_ok f v s y s1 F H).
  destruct y as [| |[]| | | | | | | | | | |]; cbn [rret]; rewrite IH; reflexivity.
Qed.
Lemma find_elements_ok f vs s r s' : fits below temps 2 -> until_true (call_of f) vs s r s' ->
  find_elements (machine w n) f vs (with_stack below temps s) = ROk (match r with Some v => v | None => VNull end) (with_stack below temps s').
Proof.
  intros F H. induction H as [s|v vs s s1 H|v vs s y s1 r s2 H N _ IH]; [reflexivity| |]; cbn [find_elements]; unfold rbind, call_predicate, try_ok, rbind; rewrite (call_function_ok f v s _ s1 F H).
  - reflexivity.
  - destruct y as [| |[]| | | | | | | | | | |]; cbn [rret]; try exact IH. now elim N.
Qed.
(** Shared part: reading the elements while calling. *)
Lemma reading_ok {A} a (g : list value -> run A) vs s s1 x s2 :
  elements (vm_heap s) a = Some vs -> starts_reading a s s1 -> a < List.length (h_arrays (vm_heap s2)) ->
  g vs (with_stack below temps s1) = ROk x (with_stack below temps s2) ->
  exists s3, with_elements a g (with_stack below temps s) = ROk x (with_stack below temps s3) /\ stops_reading a s2 s3.
Proof.
  intros E ((arrays & B1) & B2 & B3 & B4 & B5) L H. destruct (elements_nth _ _ _ E) as (ar & E1 & E2).
  assert (LA : a < List.length (h_arrays (vm_heap s))) by (apply nth_error_Some; congruence).
  destruct (nth_error (h_arrays (vm_heap s2)) a) as [ar2|] eqn:E3; [|apply nth_error_None in E3; lia].
  assert (B : array_set_borrows S a (vm_heap s) = Ok (vm_heap s1)).
  { unfold array_set_borrows. rewrite E1. subst s1. cbn [vm_heap set_heap hset_arrays h_arrays] in *. do 2 f_equal. symmetry.
    apply FitsP.nth_ext. intros i. destruct (Nat.eq_dec i a) as [->|N].
    - rewrite nth_error_set_nth_eq by exact LA. rewrite E1 in B5. unfold readers in B3. rewrite E1 in B3. cbn [hset_arrays h_arrays] in *.
      destruct (nth_error arrays a) as [[e o b]|]; [|discriminate]. cbn in B3, B5. injection B5 as -> ->. now rewrite B3.
    - rewrite nth_error_set_nth_neq by congruence. now apply B4. }
  assert (B6 : set_heap (vm_heap s1) s = s1) by (subst s1; reflexivity).
  unfold with_elements, rbind, heap_upd_, heap_upd. rewrite ws_heap, B. cbn [omap]. rewrite set_heap_ws, B6.
  unfold heap_get. rewrite ws_heap.
  assert (EV : array_elements a (vm_heap s1) = Ok vs).
  { unfold array_set_borrows in B. rewrite E1 in B. injection B as <-. unfold array_elements. cbn [h_arrays hset_arrays].
    rewrite nth_error_set_nth_eq by exact LA. cbn [ar_elements]. now rewrite E2. }
  rewrite EV. cbn [lift]. rewrite H. rewrite ws_heap. unfold array_set_borrows at 1. rewrite E3. cbn [omap]. unfold rret. rewrite set_heap_ws.
  eexists. split; [reflexivity|]. split; [eexists; reflexivity|]. cbn [vm_heap set_heap]. split; [cbn [hset_arrays h_arrays]; apply set_nth_len|].
  split; intros b.
  - unfold elements. cbn [h_arrays hset_arrays]. destruct (Nat.eq_dec b a) as [->|N]; [rewrite nth_error_set_nth_eq by exact L; rewrite E3; reflexivity|]. rewrite nth_error_set_nth_neq by congruence. reflexivity.
  - unfold readers. cbn [h_arrays hset_arrays]. destruct (Nat.eqb_spec b a) as [->|N]; [rewrite nth_error_set_nth_eq by exact L; rewrite E3; reflexivity|]. rewrite nth_error_set_nth_neq by congruence. reflexivity.
Qed.
Lemma new_array_ok vs s : exists v s', new_array vs (with_stack below temps s) = ROk v (with_stack below temps s') /\ new_array_of vs s v s'.
Proof.
  unfold new_array, rbind, heap_alloc, array_from_vec, object_new. rewrite ws_heap. rewrite set_heap_ws. eexists. eexists. split; [reflexivity|].
  cbn [vm_heap set_heap]. split; [reflexivity|]. split; [|split].
  - unfold elements. cbn [vm_heap set_heap h_arrays hset_arrays hset_objects hset_fields]. rewrite nth_error_app2, Nat.sub_diag by lia. reflexivity.
  - intros b Hb. cbn [vm_heap set_heap h_arrays hset_arrays hset_objects hset_fields]. now rewrite nth_error_app1 by exact Hb.
  - eexists. split; [reflexivity|]. cbn [h_fields h_objects h_classes h_closures h_upvalues h_iters hset_arrays hset_objects hset_fields].
    rewrite !firstn_app, !Nat.sub_diag, !firstn_all, !firstn_O, !app_nil_r. repeat split.
Qed.
Theorem array_map_method a vs f s s1 ys s2 : fits below temps 2 -> elements (vm_heap s) a = Some vs -> starts_reading a s s1 ->
  in_turn (call_of f) vs s1 ys s2 -> a < List.length (h_arrays (vm_heap s2)) ->
  exists s3 v s', answers w (S n) below temps (method_of a NArrayMap) [f] s v s' /\ stops_reading a s2 s3 /\ new_array_of ys s3 v s'.
Proof.
  intros F E B H L. destruct (reading_ok a (map_elements (machine w n) f) vs s s1 ys s2 E B L (map_elements_ok _ _ _ _ _ F H)) as (s3 & R & T).
  destruct (new_array_ok ys s3) as (v & s' & R2 & N). exists s3, v, s'. split; [|split; [exact T|exact N]]. apply answers_bound; [exact F|].
  cbn [call_native]. unfold rbind at 1. rewrite R. exact R2.
Qed.
Theorem array_filter_method a vs f s s1 ys s2 : fits below temps 2 -> elements (vm_heap s) a = Some vs -> starts_reading a s s1 ->
  in_turn (call_of f) vs s1 ys s2 -> a < List.length (h_arrays (vm_heap s2)) ->
  exists s3 v s', answers w (S n) below temps (method_of a NArrayFilter) [f] s v s' /\ stops_reading a s2 s3 /\ new_array_of (chosen vs ys) s3 v s'.
Proof.
  intros F E B H L. destruct (reading_ok a (filter_elements (machine w n) f) vs s s1 _ s2 E B L (filter_elements_ok _ _ _ _ _ F H)) as (s3 & R & T).
  destruct (new_array_ok (chosen vs ys) s3) as (v & s' & R2 & N). exists s3, v, s'. split; [|split; [exact T|exact N]]. apply answers_bound; [exact F|].
  cbn [call_native]. unfold rbind at 1. rewrite R. exact R2.
Qed.
Theorem array_first_method a vs f s s1 r s2 : fits below temps 2 -> elements (vm_heap s) a = Some vs -> starts_reading a s s1 ->
  until_true (call_of f) vs s1 r s2 -> a < List.length (h_arrays (vm_heap s2)) ->
  exists s', answers w (S n) below temps (method_of a NArrayFirst) [f] s (match r with Some v => v | None => VNull end) s' /\ stops_reading a s2 s'.
Proof.
  intros F E B H L. destruct (reading_ok a (find_elements (machine w n) f) vs s s1 _ s2 E B L (find_elements_ok _ _ _ _ _ F H)) as (s3 & R & T).
  exists s3. split; [|exact T]. apply answers_bound; [exact F|]. exact R.
Qed.
Theorem array_first_plain a vs s : fits below temps 1 -> elements (vm_heap s) a = Some vs ->
  answers w (S n) below temps (method_of a NArrayFirst) [] s (nth 0 vs VNull) s.
Proof.
  intros F E. destruct (elements_nth _ _ _ E) as (ar & E2 & <-). apply answers_bound; [exact F|].
  cbn [call_native]. unfold heap_get, rbind. rewrite ws_heap. unfold array_elements. rewrite E2. cbn [lift]. unfold rret. destruct (ar_elements ar); reflexivity.
Qed.

(** ** iter *)
(** [h] with a new object, of class [c] and with fields [m], and iterators [its]. *)
Definition grown (h : heap) (c : nat) (m : value_map) (its : list (nat * nat)) : heap :=
  MkHeap (h_fields h ++ [m]) (h_objects h ++ [MkObject (Some c) (List.length (h_fields h))]) (h_arrays h) (h_classes h) (h_closures h) (h_upvalues h) its.
Lemma set_nth_end {A} (l : list A) x y : set_nth (l ++ [x]) (List.length l) y = l ++ [y].
Proof. induction l as [|z l IH]; [reflexivity|]. cbn [app List.length set_nth]. now rewrite IH. Qed.
Lemma grown_set h c m its name x : object_set_field (List.length (h_objects h)) name x (grown h c m its) = Ok (grown h c (assoc_set name x m) its).
Proof.
  unfold object_set_field, grown. cbn [h_objects h_fields]. rewrite nth_error_app2, Nat.sub_diag by lia. cbn [nth_error ob_fields].
  rewrite nth_error_app2, Nat.sub_diag by lia. cbn [nth_error hset_fields h_objects h_arrays h_classes h_closures h_upvalues h_iters].
  now rewrite set_nth_end.
Qed.
Lemma grown_field h c m its name : field (grown h c m its) (List.length (h_objects h)) name = assoc_get name m.
Proof.
  unfold field, grown. cbn [h_objects h_fields]. rewrite nth_error_app2, Nat.sub_diag by lia. cbn [nth_error ob_fields].
  rewrite nth_error_app2, Nat.sub_diag by lia. reflexivity.
Qed.
Lemma grown_iters h c m its : h_iters (grown h c m its) = its. Proof. reflexivity. Qed.
Lemma grown_arrays h c m its : h_arrays (grown h c m its) = h_arrays h. Proof. reflexivity. Qed.
Lemma new_object_grown s : new_any_object s = ROk (List.length (h_objects (vm_heap s))) (set_heap (grown (vm_heap s) (vm_any s) [] (h_iters (vm_heap s))) s).
Proof. reflexivity. Qed.

Theorem array_iter_method a s : fits below temps 1 ->
  exists o c s', answers w (S n) below temps (method_of a NArrayIter) [] s (VObject o) s' /\
    field (vm_heap s') o "next" = Some (VFnNative (NArrayNext c)) /\ iter_at s' c a 0 /\
    c = List.length (h_iters (vm_heap s)) /\ h_arrays (vm_heap s') = h_arrays (vm_heap s).
Proof.
  intros F. set (h1 := hset_iters (h_iters (vm_heap s) ++ [(a, 0)]) (vm_heap s)).
  exists (List.length (h_objects (vm_heap s))), (List.length (h_iters (vm_heap s))).
  exists (set_heap (grown h1 (vm_any s) (assoc_set "next" (VFnNative (NArrayNext (List.length (h_iters (vm_heap s))))) []) (h_iters h1)) s).
  split; [|cbn [vm_heap set_heap]; split; [|split; [|split; reflexivity]]].
  - apply answers_bound; [exact F|]. cbn [call_native]. unfold rbind, heap_alloc. rewrite ws_heap. fold h1.
    rewrite new_object_grown. unfold heap_upd_, heap_upd. cbn [vm_heap set_heap vm_any with_stack set_stack].
    change (h_objects h1) with (h_objects (vm_heap s)).
    assert (G := grown_set h1 (vm_any s) [] (h_iters h1) "next" (VFnNative (NArrayNext (List.length (h_iters (vm_heap s)))))).
    change (h_objects h1) with (h_objects (vm_heap s)) in G. rewrite G. reflexivity.
  - assert (G := grown_field h1 (vm_any s) (assoc_set "next" (VFnNative (NArrayNext (List.length (h_iters (vm_heap s))))) []) (h_iters h1) "next").
    change (h_objects h1) with (h_objects (vm_heap s)) in G. rewrite G. reflexivity.
  - unfold iter_at. cbn [vm_heap set_heap grown h_iters h1 hset_iters]. rewrite nth_error_app2, Nat.sub_diag by lia. reflexivity.
Qed.
Theorem array_next_method a c i vs s : fits below temps 1 -> iter_at s c a i -> elements (vm_heap s) a = Some vs ->
  exists o s', answers w (S n) below temps (VFnNative (NArrayNext c)) [] s (VObject o) s' /\
    h_arrays (vm_heap s') = h_arrays (vm_heap s) /\
    (forall c', c' <> c -> nth_error (h_iters (vm_heap s')) c' = nth_error (h_iters (vm_heap s)) c') /\
    match nth_error vs i with
    | Some v => field (vm_heap s') o "is_done" = Some (VBool false) /\ field (vm_heap s') o "value" = Some v /\ iter_at s' c a (S i)
    | None => field (vm_heap s') o "is_done" = Some (VBool true) /\ iter_at s' c a i
    end.
Proof.
  intros F P E. destruct (elements_nth _ _ _ E) as (ar & E1 & <-). unfold iter_at in P.
  destruct (nth_error (ar_elements ar) i) as [v|] eqn:EV.
  - exists (List.length (h_objects (vm_heap s))).
    exists (set_heap (grown (vm_heap s) (vm_any s) (assoc_set "is_done" (VBool false) (assoc_set "value" v [])) (set_nth (h_iters (vm_heap s)) c (a, S i))) s).
    split; [|cbn [vm_heap set_heap]; split; [reflexivity|]; split; [|rewrite !grown_field; split; [reflexivity|split; [reflexivity|]]]].
    + apply answers_plain; [exact F|]. cbn [call_native]. unfold rbind at 1. rewrite new_object_grown. cbn [vm_heap set_heap vm_any with_stack set_stack].
      unfold heap_get, rbind, heap_upd_, heap_upd. cbn [vm_heap set_heap]. rewrite grown_iters. cbn [vm_heap set_heap with_stack set_stack]. rewrite P. cbn [lift vm_heap set_heap].
      unfold array_elements. rewrite grown_arrays. cbn [vm_heap set_heap with_stack set_stack]. rewrite E1. cbn [lift vm_heap set_heap]. rewrite EV.
      cbn [vm_heap set_heap]. rewrite grown_set. cbn [omap vm_heap set_heap]. rewrite grown_set. cbn [omap vm_heap set_heap]. reflexivity.
    + intros c' N. cbn [grown h_iters]. apply nth_error_set_nth_neq; congruence.
    + unfold iter_at. cbn [vm_heap set_heap grown h_iters]. apply nth_error_set_nth_eq. apply nth_error_Some. congruence.
  - exists (List.length (h_objects (vm_heap s))).
    exists (set_heap (grown (vm_heap s) (vm_any s) (assoc_set "is_done" (VBool true) []) (h_iters (vm_heap s))) s).
    split; [|cbn [vm_heap set_heap]; split; [reflexivity|]; split; [reflexivity|rewrite !grown_field; split; [reflexivity|exact P]]].
    apply answers_plain; [exact F|]. cbn [call_native]. unfold rbind at 1. rewrite new_object_grown. cbn [vm_heap set_heap vm_any with_stack set_stack].
    unfold heap_get, rbind, heap_upd_, heap_upd. cbn [vm_heap set_heap]. rewrite grown_iters. cbn [vm_heap set_heap with_stack set_stack]. rewrite P. cbn [lift vm_heap set_heap].
    unfold array_elements. rewrite grown_arrays. cbn [vm_heap set_heap with_stack set_stack]. rewrite E1. cbn [lift vm_heap set_heap]. rewrite EV.
    cbn [vm_heap set_heap]. rewrite grown_set. reflexivity.
Qed.
End Methods.

Theorem array_yields w a c : forall k i vs s, List.length vs = i + k -> iter_at s c a i -> elements (vm_heap s) a = Some vs -> yields w a c (skipn i vs) s.
Proof.
  induction k as [|k IH]; intros i vs s L P E.
  - rewrite skipn_all2 by lia. apply yl_done. intros n below temps F.
    destruct (array_next_method w n below temps a c i vs s F P E) as (o & s' & A & _ & _ & M).
    rewrite (proj2 (nth_error_None vs i)) in M by lia. exists o, s'. split; [exact A|exact (proj1 M)].
  - destruct (nth_error vs i) as [v|] eqn:EV; [|apply nth_error_None in EV; lia].
    assert (SK : skipn i vs = v :: skipn (S i) vs).
    { revert EV. clear. revert vs. induction i as [|i IH]; intros [|x vs]; cbn [nth_error skipn]; try discriminate; [now intros [= ->]|]. intros H. rewrite (IH _ H). reflexivity. }
    rewrite SK. apply yl_next. intros n below temps F.
    destruct (array_next_method w n below temps a c i vs s F P E) as (o & s' & A & AR & _ & M). rewrite EV in M. destruct M as (M1 & M2 & M3).
    exists o, s'. split; [exact A|]. split; [exact M1|]. split; [exact M2|]. intros s'' (U1 & U2). apply IH; [lia| |].
    + unfold iter_at. now rewrite U2.
    + rewrite U1. unfold elements in *. now rewrite AR.
Qed.
Theorem array_iter_yields w n below temps a vs s : fits below temps 1 -> elements (vm_heap s) a = Some vs ->
  exists o c s', answers w (S n) below temps (method_of a NArrayIter) [] s (VObject o) s' /\
    field (vm_heap s') o "next" = Some (VFnNative (NArrayNext c)) /\ h_arrays (vm_heap s') = h_arrays (vm_heap s) /\
    forall s'', undisturbed a c s' s'' -> yields w a c vs s''.
Proof.
  intros F E. destruct (array_iter_method w n below temps a s F) as (o & c & s' & A & FN & P & _ & AR). exists o, c, s'. split; [exact A|]. split; [exact FN|]. split; [exact AR|].
  intros s'' (U1 & U2). apply (array_yields w a c (List.length vs) 0 vs s''); [reflexivity| |].
  - unfold iter_at. now rewrite U2.
  - rewrite U1. unfold elements in *. now rewrite AR.
Qed.

(** ** Samples *)
Lemma bool_call w n below temps v s : fits below temps 2 -> answers w (S n) below temps (VFnNative NBoolNew) [v] s
  (match v with VBool b => VBool b | VString x => if String.eqb x "true" then VBool true else if String.eqb x "false" then VBool false else VNull | _ => VNull end) s.
Proof.
  intros F. apply answers_plain; [exact F|]. cbn [call_native]. destruct v; try reflexivity.
Qed.
Definition four_words : list value := [VString "true"; VString "maybe"; VBool false; VBool true].
(** Any state can get an array of these words. *)
Definition with_array (vs : list value) (s : vm) : vm := set_heap (snd (array_from_vec vs (vm_heap s))) s.
Definition its_array (s : vm) : nat := List.length (h_arrays (vm_heap s)).
Lemma with_array_ok vs s : elements (vm_heap (with_array vs s)) (its_array s) = Some vs /\ unborrowed (vm_heap (with_array vs s)) (its_array s).
Proof.
  unfold with_array, its_array, elements, unborrowed, array_from_vec, object_new. cbn [fst snd vm_heap set_heap h_arrays hset_arrays hset_objects hset_fields].
  rewrite nth_error_app2, Nat.sub_diag by lia. split; [reflexivity|]. eexists. split; reflexivity.
Qed.
Lemma can_read a vs s : elements (vm_heap s) a = Some vs -> exists s1, starts_reading a s s1 /\ a < List.length (h_arrays (vm_heap s1)).
Proof.
  intros E. destruct (elements_nth _ _ _ E) as (ar & E1 & E2). assert (L : a < List.length (h_arrays (vm_heap s))) by (apply nth_error_Some; congruence).
  exists (set_heap (hset_arrays (set_nth (h_arrays (vm_heap s)) a (MkArray vs (ar_object ar) (S (ar_borrows ar)))) (vm_heap s)) s).
  split; [|cbn [vm_heap set_heap h_arrays hset_arrays]; now rewrite set_nth_len].
  split; [eexists; reflexivity|]. cbn [vm_heap set_heap h_arrays hset_arrays]. split; [apply set_nth_len|]. unfold readers. cbn [vm_heap set_heap h_arrays hset_arrays].
  rewrite nth_error_set_nth_eq by exact L. rewrite E1. split; [reflexivity|]. split; [|cbn [option_map ar_elements ar_object]; now rewrite E2].
  intros b N. apply nth_error_set_nth_neq. congruence.
Qed.
Lemma words_in_turn w n below temps s : fits below temps 2 ->
  in_turn (answers_with w (S n) below temps (VFnNative NBoolNew)) four_words s [VBool true; VNull; VBool false; VBool true] s.
Proof.
  intros F. unfold four_words. eapply it_call; [exact (bool_call w n below temps _ s F)|]. eapply it_call; [exact (bool_call w n below temps _ s F)|].
  eapply it_call; [exact (bool_call w n below temps _ s F)|]. eapply it_call; [exact (bool_call w n below temps _ s F)|]. constructor.
Qed.
Lemma words_until w n below temps s : fits below temps 2 ->
  until_true (answers_with w (S n) below temps (VFnNative NBoolNew)) (tl four_words) s (Some (VBool true)) s.
Proof.
  intros F. unfold four_words. eapply ut_next; [exact (bool_call w n below temps _ s F)|discriminate|].
  eapply ut_next; [exact (bool_call w n below temps _ s F)|discriminate|]. apply ut_found. exact (bool_call w n below temps _ s F).
Qed.
Lemma words_sample w n below temps s : fits below temps 2 -> exists s0 a s1, elements (vm_heap s0) a = Some four_words /\ unborrowed (vm_heap s0) a /\ starts_reading a s0 s1 /\
  in_turn (answers_with w (S n) below temps (VFnNative NBoolNew)) four_words s1 [VBool true; VNull; VBool false; VBool true] s1 /\ a < List.length (h_arrays (vm_heap s1)) /\
  chosen four_words [VBool true; VNull; VBool false; VBool true] = [VString "true"; VBool true] /\ s0 = with_array four_words s.
Proof.
  intros F. destruct (with_array_ok four_words s) as (E & U). destruct (can_read _ _ _ E) as (s1 & R & L).
  exists (with_array four_words s), (its_array s), s1. split; [exact E|]. split; [exact U|]. split; [exact R|]. split; [exact (words_in_turn w n below temps s1 F)|]. split; [exact L|]. split; reflexivity.
Qed.
