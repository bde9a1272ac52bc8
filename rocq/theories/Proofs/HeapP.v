(** What the elementary changes do to the heap; invariants of reachable heaps. *)
From Verif.Spec Require Export VmHistory ClassSpec.
From Verif.Proofs Require Export VmStepsP VmPrimP.

Lemma final_sound {A} (m : run A) s s' : sound m -> final_state (m s) = Some s' -> vm_steps s s'.
Proof. intros H E. specialize (H s). destruct (m s); cbn in E; try discriminate; injection E as <-; exact H. Qed.

Lemma executes_steps w s s' : executes w s s' -> vm_steps s s'.
Proof.
  induction 1 as [s|s n bc fr ups i p s1 s2 E _ IH|s n bc fr ups p s1 s2 E _ IH|s n k s1 s2 E _ IH|s n bc s1 s2 E _ IH].
  - constructor.
  - eapply vs_trans; [|exact IH]. eapply final_sound; [|exact E]. destruct (machine_sound w n). now apply sound_step.
  - eapply vs_trans; [|exact IH]. eapply final_sound; [|exact E]. destruct (machine_sound w n). auto.
  - eapply vs_trans; [|exact IH]. eapply final_sound; [|exact E]. destruct (machine_sound w n). auto.
  - eapply vs_trans; [|exact IH]. eapply final_sound; [|exact E]. unfold runtime_run. destruct (machine_sound w n).
    now apply sound_run_script.
Qed.
Lemma session_executes w s s' : session w s s' -> executes w s s'.
Proof. induction 1; [constructor|]. eapply ex_run; eauto. Qed.
Lemma executes_trans w s1 s2 s3 : executes w s1 s2 -> executes w s2 s3 -> executes w s1 s3.
Proof.
  induction 1 as [s|s n bc fr ups i p sa sb E _ IH|s n bc fr ups p sa sb E _ IH|s n k sa sb E _ IH|s n bc sa sb E _ IH];
    intros; [assumption| | | |].
  - eapply ex_instruction; eauto.
  - eapply ex_code; eauto.
  - eapply ex_call; eauto.
  - eapply ex_run; eauto.
Qed.

(** Association lists. *)
Lemma assoc_get_set {V} k k' (v : V) m :
  assoc_get k (assoc_set k' v m) = if String.eqb k k' then Some v else assoc_get k m.
Proof.
  induction m as [|[k1 v1] m IH]; cbn [assoc_set assoc_get]; [reflexivity|].
  destruct (String.eqb_spec k' k1) as [->|N]; cbn [assoc_get].
  - destruct (String.eqb_spec k k1); reflexivity.
  - destruct (String.eqb_spec k k1) as [->|N1]; [|exact IH].
    destruct (String.eqb_spec k1 k'); [congruence|reflexivity].
Qed.
Lemma assoc_get_filter_new {V} name (m : list (string * V)) :
  assoc_get name (filter (fun kv => negb (String.eqb (fst kv) "new")) m)
  = if String.eqb name "new" then None else assoc_get name m.
Proof.
  induction m as [|[k v] m IH]; cbn [filter assoc_get fst]; [now destruct (String.eqb name "new")|].
  destruct (String.eqb_spec k "new") as [->|N]; cbn [negb].
  - rewrite IH. destruct (String.eqb_spec name "new"); reflexivity.
  - cbn [assoc_get]. rewrite IH. destruct (String.eqb_spec name k) as [->|N1]; [|reflexivity].
    destruct (String.eqb_spec k "new"); [congruence|reflexivity].
Qed.

(** Inverting the operations. *)
Lemma object_set_field_inv o name v h h' : object_set_field o name v h = Ok h' ->
  exists ob m, nth_error (h_objects h) o = Some ob /\ nth_error (h_fields h) (ob_fields ob) = Some m /\
    h' = hset_fields (set_nth (h_fields h) (ob_fields ob) (assoc_set name v m)) h.
Proof.
  unfold object_set_field. destruct (nth_error (h_objects h) o) as [ob|]; [|discriminate].
  destruct (nth_error (h_fields h) (ob_fields ob)) as [m|] eqn:E; [|discriminate].
  intros E1; injection E1 as <-. eauto 6.
Qed.
Lemma array_update_inv a vs h h' : array_update a vs h = Ok h' ->
  exists ar, nth_error (h_arrays h) a = Some ar /\ ar_borrows ar = 0 /\
    h' = hset_arrays (set_nth (h_arrays h) a (MkArray vs (ar_object ar) 0)) h.
Proof.
  unfold array_update. destruct (nth_error (h_arrays h) a) as [ar|]; [|discriminate].
  destruct (Nat.eqb_spec (ar_borrows ar) 0); [|discriminate]. intros E; injection E as <-. eauto.
Qed.
Lemma array_set_borrows_inv f a h h' : array_set_borrows f a h = Ok h' ->
  exists ar, nth_error (h_arrays h) a = Some ar /\
    h' = hset_arrays (set_nth (h_arrays h) a (MkArray (ar_elements ar) (ar_object ar) (f (ar_borrows ar)))) h.
Proof.
  unfold array_set_borrows. destruct (nth_error (h_arrays h) a) as [ar|]; [|discriminate]. intros E; injection E as <-. eauto.
Qed.
Lemma class_with_base_inv name base h c h' : class_with_base name base h = Ok (c, h') ->
  exists b ob, nth_error (h_classes h) base = Some b /\ nth_error (h_objects h) (cl_object b) = Some ob /\
    c = List.length (h_classes h) /\
    h' = hset_classes (h_classes h ++ [MkClass name (filter (fun kv => negb (String.eqb (fst kv) "new")) (cl_methods b))
                                         (List.length (h_objects h)) c (c :: cl_type_ids b) (Some base)])
           (hset_objects (h_objects h ++ [MkObject (ob_class ob) (ob_fields ob)]) h).
Proof.
  unfold class_with_base, object_deep_clone. destruct (nth_error (h_classes h) base) as [b|]; [|discriminate].
  destruct (nth_error (h_objects h) (cl_object b)) as [ob|] eqn:Eob; [|discriminate]. cbn [obind h_classes hset_objects].
  intros E. injection E as <- <-. exists b, ob. repeat split; auto.
Qed.
Lemma class_set_method_inv c name m h h' : class_set_method c name m h = Ok h' ->
  kind m = KdFunction /\ exists k, nth_error (h_classes h) c = Some k /\
    h' = hset_classes (set_nth (h_classes h) c
           (MkClass (cl_name k) (assoc_set name m (cl_methods k)) (cl_object k) (cl_type_id k) (cl_type_ids k) (cl_base k))) h.
Proof.
  unfold class_set_method, class_get. destruct (vkind_eqb (kind m) KdFunction) eqn:K; [|discriminate].
  destruct (nth_error (h_classes h) c) as [k|]; [|discriminate]. cbn [omap]. intros E; injection E as <-.
  split; [destruct m; cbn in *; congruence|]. eauto.
Qed.
Lemma upvalue_write_inv u x h h' : upvalue_write u x h = Ok h' ->
  u < List.length (h_upvalues h) /\ h' = hset_upvalues (set_nth (h_upvalues h) u x) h.
Proof.
  unfold upvalue_write. destruct (Nat.ltb_spec u (List.length (h_upvalues h))); [|discriminate].
  intros E; injection E as <-. auto.
Qed.

Ltac inv_change H :=
  destruct H as [h class o h' E|h o name v h' E|h vs a h' E|h a vs h' E|h f a h' E|h name base c h' E|h c name m h' E
                |h f ups c h' E|h slot u h' E|h u x h' E|h l];
  [ unfold object_new in E; injection E as <- <-
  | apply object_set_field_inv in E as (ob & m & Eo & Em & ->)
  | unfold array_from_vec, object_new in E; injection E as <- <-
  | apply array_update_inv in E as (ar & Ea & Eb & ->)
  | apply array_set_borrows_inv in E as (ar & Ea & ->)
  | apply class_with_base_inv in E as (b & ob & Eb & Eo & -> & ->)
  | apply class_set_method_inv in E as (Km & k & Ec & ->)
  | unfold closure_new in E; injection E as <- <-
  | unfold upvalue_new_open in E; injection E as <- <-
  | apply upvalue_write_inv in E as (Hu & ->)
  | ]; cbn [h_fields h_objects h_arrays h_classes h_closures h_upvalues h_iters hset_fields hset_objects
            hset_arrays hset_classes hset_closures hset_upvalues hset_iters].

(** Objects are never removed and never change their class or field table. *)
Lemma change_objects h h' : heap_change h h' -> exists l, h_objects h' = h_objects h ++ l.
Proof.
  intros H. inv_change H; try (exists []; symmetry; apply app_nil_r); eauto.
Qed.

(** The part of a class fixed at creation. *)
Definition shape (k : class_inner) := (cl_type_id k, cl_type_ids k, cl_base k, cl_object k, cl_name k).
Definition shapes (h : heap) := map shape (h_classes h).

Lemma map_set_nth {A B} (f : A -> B) l i x y : nth_error l i = Some y -> f x = f y -> map f (set_nth l i x) = map f l.
Proof.
  revert i. induction l as [|a l IH]; intros [|i] H E; cbn in *; try discriminate.
  - injection H as ->. now rewrite E.
  - f_equal. now apply IH.
Qed.

Lemma change_shapes h h' : heap_change h h' ->
  shapes h' = shapes h \/
  exists name base kb, nth_error (h_classes h) base = Some kb /\
    let n := List.length (h_classes h) in
    shapes h' = shapes h ++ [(n, n :: cl_type_ids kb, Some base, List.length (h_objects h), name)] /\
    exists ob, nth_error (h_objects h) (cl_object kb) = Some ob /\
               h_objects h' = h_objects h ++ [MkObject (ob_class ob) (ob_fields ob)].
Proof.
  unfold shapes. intros H. inv_change H; try (left; reflexivity).
  - right. exists name, base, b. split; [assumption|]. cbn. split; [now rewrite map_app|]. eauto.
  - left. eapply map_set_nth; [eassumption|]. reflexivity.
Qed.
