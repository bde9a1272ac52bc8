(** Lemmas for the class properties. *)
From Verif.Proofs Require Export HeapInvP.
From Verif.Proofs Require Import ArithP.

Lemma type_ids_spec h : heap_inv h -> forall c k d, nth_error (h_classes h) c = Some k ->
  (In d (cl_type_ids k) <-> derives h c d).
Proof.
  intros I c. induction c as [c IH] using lt_wf_ind. intros k d Hk.
  destruct (hi_class h I c k Hk) as (Ht & Hb).
  destruct (cl_base k) as [b|] eqn:Eb.
  - destruct Hb as (L & kb & Hkb & ->). specialize (IH b L kb d Hkb). cbn [In]. rewrite IH. split.
    + intros [<-|D]; [apply derives_self; now apply nth_error_lt in Hk|]. eapply derives_base; eauto.
    + intros D. inversion D as [c0 Hc|c0 k0 b0 d0 Hk0 Hb0 D0]; subst; [now left|right].
      rewrite Hk in Hk0. injection Hk0 as <-. rewrite Eb in Hb0. now injection Hb0 as <-.
  - rewrite Hb. cbn [In]. split.
    + intros [<-|[]]. apply derives_self. now apply nth_error_lt in Hk.
    + intros D. inversion D as [c0 Hc|c0 k0 b0 d0 Hk0 Hb0 D0]; subst; [now left|].
      rewrite Hk in Hk0. injection Hk0 as <-. congruence.
Qed.

Lemma is_class_spec h c d : heap_inv h -> c < List.length (h_classes h) -> d < List.length (h_classes h) ->
  exists b, class_is_class c d h = Ok b /\ (b = true <-> derives h c d).
Proof.
  intros I Hc Hd. unfold class_is_class, class_get.
  destruct (nth_error (h_classes h) c) as [k|] eqn:Ec; [|apply nth_error_None in Ec; lia].
  destruct (nth_error (h_classes h) d) as [k'|] eqn:Ed; [|apply nth_error_None in Ed; lia].
  cbn [obind]. eexists. split; [reflexivity|]. destruct (hi_class h I d k' Ed) as (-> & _).
  rewrite <- (type_ids_spec h I c k d Ec). rewrite existsb_exists. split.
  - intros (x & H & E). apply Nat.eqb_eq in E. now subst.
  - intros H. exists d. split; [assumption|apply Nat.eqb_refl].
Qed.

Lemma derives_refl h c : c < List.length (h_classes h) -> derives h c c.
Proof. apply derives_self. Qed.
Lemma derives_trans h a b c : derives h a b -> derives h b c -> derives h a c.
Proof. induction 1; intros; [assumption|]. eapply derives_base; eauto. Qed.
Lemma derives_le h : heap_inv h -> forall a b, derives h a b -> b <= a.
Proof.
  intros I a b. induction 1 as [c Hc|c k b d Hk Hb D IH]; [lia|].
  destruct (hi_class h I c k Hk) as (_ & H). rewrite Hb in H. lia.
Qed.
Lemma derives_antisym h a b : heap_inv h -> derives h a b -> derives h b a -> a = b.
Proof. intros I H1 H2. apply derives_le in H1, H2; auto. lia. Qed.
Lemma derives_target h a b : derives h a b -> b < List.length (h_classes h).
Proof. induction 1; auto. Qed.
Lemma derives_source h a b : derives h a b -> a < List.length (h_classes h).
Proof. intros H. inversion H; subst; [assumption|]. now apply nth_error_lt in H0. Qed.

(** Stability: creation-time data of existing classes and objects survives. *)
Lemma nth_error_prefix {A} (l l' : list A) i x : nth_error l i = Some x -> nth_error (l ++ l') i = Some x.
Proof. intros H. rewrite nth_error_app1; [assumption|]. apply nth_error_Some. congruence. Qed.

Lemma change_shape_kept h h' c : heap_change h h' -> c < List.length (h_classes h) ->
  nth_error (shapes h') c = nth_error (shapes h) c.
Proof.
  intros H Hc. apply change_shapes in H as [->|(name & base & kb & _ & -> & _)]; [reflexivity|].
  rewrite nth_error_app1; [reflexivity|]. unfold shapes. now rewrite map_length.
Qed.
Lemma change_shapes_len h h' : heap_change h h' -> List.length (h_classes h) <= List.length (h_classes h').
Proof.
  intros H. rewrite <- (map_length shape (h_classes h)), <- (map_length shape (h_classes h')).
  apply change_shapes in H as [E|(name & base & kb & _ & E & _)]; unfold shapes in *; cbv zeta in E; rewrite E; [lia|].
  rewrite app_length. lia.
Qed.

Lemma steps_shapes s s' : vm_steps s s' -> exists l, shapes (vm_heap s') = shapes (vm_heap s) ++ l.
Proof.
  induction 1 as [s|s1 s2 s3 H _ (l & IH)]; [exists []; symmetry; apply app_nil_r|].
  assert (G : exists l', shapes (vm_heap s2) = shapes (vm_heap s1) ++ l').
  { destruct H; try (exists []; symmetry; apply app_nil_r). cbn [vm_heap set_heap].
    apply change_shapes in H as [->|(name & base & kb & _ & -> & _)]; [exists []; symmetry; apply app_nil_r|eauto]. }
  destruct G as (l' & G). exists (l' ++ l). now rewrite IH, G, app_assoc.
Qed.
Lemma steps_objects s s' : vm_steps s s' -> exists l, h_objects (vm_heap s') = h_objects (vm_heap s) ++ l.
Proof.
  induction 1 as [s|s1 s2 s3 H _ (l & IH)]; [exists []; symmetry; apply app_nil_r|].
  assert (G : exists l', h_objects (vm_heap s2) = h_objects (vm_heap s1) ++ l').
  { destruct H; try (exists []; symmetry; apply app_nil_r). cbn [vm_heap set_heap]. eapply change_objects; eauto. }
  destruct G as (l' & G). exists (l' ++ l). now rewrite IH, G, app_assoc.
Qed.

Lemma derives_shapes h c d : derives h c d <->
  exists n, (fix path n c := match n with
    | O => c = d /\ c < List.length (shapes h)
    | S n => exists ti tis b o name, nth_error (shapes h) c = Some (ti, tis, Some b, o, name) /\ path n b end) n c.
Proof.
  split.
  - induction 1 as [c Hc|c k b d Hk Hb D (n & IH)].
    + exists 0. split; [reflexivity|]. unfold shapes. now rewrite map_length.
    + exists (S n). apply shape_nth in Hk. unfold shape in Hk. rewrite Hb in Hk. eauto 8.
  - intros (n & H). revert c H. induction n as [|n IH]; intros c H.
    + destruct H as (<- & H). apply derives_self. unfold shapes in H. now rewrite map_length in H.
    + destruct H as (ti & tis & b & o & name & H & P). apply nth_error_map_inv in H as (k & Hk & S).
      eapply derives_base; [exact Hk| |apply IH; exact P]. unfold shape in S. now injection S.
Qed.

Lemma derives_kept_shapes h h' l c d : heap_inv h -> shapes h' = shapes h ++ l -> c < List.length (h_classes h) ->
  (derives h' c d <-> derives h c d).
Proof.
  intros I E Hc.
  assert (L : List.length (h_classes h) <= List.length (h_classes h')).
  { rewrite <- (map_length shape (h_classes h)), <- (map_length shape (h_classes h')).
    unfold shapes in E. rewrite E, app_length. lia. }
  assert (K : forall x k, nth_error (h_classes h) x = Some k -> exists k', nth_error (h_classes h') x = Some k' /\ cl_base k' = cl_base k).
  { intros x k Hk. apply shape_nth in Hk. assert (S : nth_error (shapes h') x = Some (shape k)).
    { rewrite E. now apply nth_error_prefix. }
    apply nth_error_map_inv in S as (k' & Hk' & S). exists k'. split; [assumption|]. unfold shape in S. now injection S. }
  split.
  - intros D. revert Hc. induction D as [c Hc'|c k' b d Hk' Hb D IH]; intros Hc; [now apply derives_self|].
    destruct (nth_error (h_classes h) c) as [k|] eqn:Ek; [|apply nth_error_None in Ek; lia].
    destruct (K c k Ek) as (k2 & Hk2 & Eb). rewrite Hk' in Hk2. injection Hk2 as <-. rewrite Hb in Eb.
    eapply derives_base; [exact Ek|symmetry; exact Eb|]. apply IH.
    destruct (hi_class h I c k Ek) as (_ & H). rewrite <- Eb in H. lia.
  - intros D. induction D as [c Hc'|c k b d Hk Hb D IH]; [apply derives_self; lia|].
    destruct (K c k Hk) as (k' & Hk' & Eb). eapply derives_base; [exact Hk'|rewrite Eb; exact Hb|]. apply IH.
    destruct (hi_class h I c k Hk) as (_ & H). rewrite Hb in H. lia.
Qed.

Lemma derives_stable w s s' c d : reachable w s -> executes w s s' -> c < List.length (h_classes (vm_heap s)) ->
  (derives (vm_heap s') c d <-> derives (vm_heap s) c d).
Proof.
  intros R E Hc. apply executes_steps, steps_shapes in E as (l & E). eapply derives_kept_shapes; eauto. eapply reachable_inv; eauto.
Qed.
Lemma has_class_stable w s s' v c : executes w s s' -> live (vm_heap s) v -> (has_class s' v c <-> has_class s v c).
Proof.
  intros E Lv. apply executes_steps in E. pose proof (steps_objects _ _ E) as (l & Eo). apply steps_kinds in E as (Ek & _).
  split; intros H; inversion H; subst.
  - cbn in Lv. destruct Lv as (ob0 & E0 & _).
    rewrite Eo, (nth_error_prefix _ _ _ _ E0) in H0. injection H0 as ->. econstructor; eauto.
  - rewrite Ek in H1. now apply class_of_other.
  - econstructor; [|eassumption]. rewrite Eo. now apply nth_error_prefix.
  - rewrite <- Ek in H1. now apply class_of_other.
Qed.

(** The class of a value. *)
Lemma kind_get_In k m c : NoDup (map fst m) -> (kind_get k m = Some c <-> In (k, c) m).
Proof.
  induction m as [|[k' c'] m IH]; cbn [kind_get map fst]; intros N.
  - split; [discriminate|intros []].
  - inversion N as [|x y N1 N2]; subst. specialize (IH N2).
    destruct (vkind_eqb k k') eqn:E.
    + assert (k = k') by (destruct k, k'; cbn in E; congruence). subst k'. split.
      * intros H; injection H as ->. now left.
      * intros [H|H]; [now injection H as ->|]. exfalso. apply N1. change k with (fst (k, c)). now apply in_map.
    + rewrite IH. split; [now right|]. intros [H|H]; [|assumption]. injection H as -> _.
      exfalso. destruct k; discriminate.
Qed.

Definition kind_keys := [KdArray; KdBool; KdClass; KdFloat; KdFunction; KdInt; KdString; KdUnit].
Lemma reachable_nodup s : map fst (vm_kinds s) = kind_keys -> NoDup (map fst (vm_kinds s)).
Proof.
  intros R. rewrite R. unfold kind_keys. repeat constructor; cbn; intuition discriminate.
Qed.

(** The classes of values exist. *)
Definition classes_exist (s : vm) : Prop :=
  (forall k c, In (k, c) (vm_kinds s) -> c < List.length (h_classes (vm_heap s))) /\
  vm_any s < List.length (h_classes (vm_heap s)) /\
  vm_module_class s < List.length (h_classes (vm_heap s)).

(** What the class lemmas need; it does not depend on the stack. *)
Definition state_inv (s : vm) : Prop :=
  heap_inv (vm_heap s) /\ map fst (vm_kinds s) = kind_keys /\ classes_exist s.

Lemma class_of_value_spec s v : state_inv s -> live (vm_heap s) v ->
  exists oc, class_of_value v s = ROk oc s /\ forall c, oc = Some c <-> has_class s v c.
Proof.
  intros (I & R & _) L. pose proof (reachable_nodup s R) as N.
  assert (K : forall c, kind v <> KdObject -> (kind_get (kind v) (vm_kinds s) = Some c <-> has_class s v c)).
  { intros c Hv. rewrite (kind_get_In _ _ _ N). split.
    - intros H. now apply class_of_other.
    - intros H. inversion H; subst; [now cbn in Hv|assumption]. }
  unfold class_of_value. destruct v; cbn [as_object]; try (eexists; split; [reflexivity|]; intros c; apply K; discriminate).
  - (* array *)
    cbn in L. destruct (nth_error (h_arrays (vm_heap s)) addr) as [ar|] eqn:E; [|apply nth_error_None in E; lia].
    destruct (hi_array_object _ I _ _ E) as (ob & Ho & Hc). unfold object_class. rewrite Ho, Hc.
    eexists; split; [reflexivity|]. intros c. apply K. discriminate.
  - (* object *)
    cbn in L. unfold object_class. destruct L as (ob & E & _). rewrite E.
    destruct (ob_class ob) as [c0|] eqn:Ec.
    + eexists; split; [reflexivity|]. intros c. split.
      * intros H; injection H as <-. econstructor; eauto.
      * intros H. inversion H; subst; [congruence|now cbn in H0].
    + eexists; split; [reflexivity|]. intros c. split.
      * intros H. apply (kind_get_In _ _ _ N) in H. exfalso.
        assert (In KdObject (map fst (vm_kinds s))) by (change KdObject with (fst (KdObject, c)); now apply in_map).
        rewrite R in H0. cbn in H0. intuition discriminate.
      * intros H. inversion H; subst; [congruence|now cbn in H0].
  - (* class *)
    cbn in L. destruct (nth_error (h_classes (vm_heap s)) addr) as [ar|] eqn:E; [|apply nth_error_None in E; lia].
    destruct (hi_class_object _ I _ _ E) as (ob & Ho & Hc). unfold object_class. rewrite Ho, Hc.
    eexists; split; [reflexivity|]. intros c. apply K. discriminate.
Qed.

Lemma steps_classes_len s s' : vm_steps s s' -> List.length (h_classes (vm_heap s)) <= List.length (h_classes (vm_heap s')).
Proof.
  intros H. apply steps_shapes in H as (l & E).
  rewrite <- (map_length shape (h_classes (vm_heap s))), <- (map_length shape (h_classes (vm_heap s'))).
  unfold shapes in E. rewrite E, app_length. lia.
Qed.
Lemma runtime_new_classes : omap (fun s => (vm_kinds s, vm_any s, vm_module_class s, List.length (h_classes (vm_heap s)))) runtime_new
  = Ok ([(KdArray, 2); (KdBool, 3); (KdClass, 4); (KdFloat, 5); (KdFunction, 6); (KdInt, 7); (KdString, 8); (KdUnit, 9)], 0, 1, 10).
Proof. vm_compute. reflexivity. Qed.
Lemma reachable_classes w s : reachable w s -> classes_exist s.
Proof.
  intros (s0 & E0 & E). apply executes_steps in E. pose proof (steps_classes_len _ _ E) as L.
  apply steps_kinds in E as (Ek & Ea & Em). pose proof runtime_new_classes as K. rewrite E0 in K. cbn [omap] in K.
  injection K as K1 K2 K3 K4. unfold classes_exist. rewrite Ek, Ea, Em, K1, K2, K3. rewrite K4 in L. repeat split; try lia.
  intros k c H. cbn in H. repeat destruct H as [H|H]; try (injection H as _ <-; lia). contradiction.
Qed.

Lemma reachable_state w s : reachable w s -> state_inv s.
Proof. intros R. exact (conj (reachable_inv w s R) (conj (reachable_kinds w s R) (reachable_classes w s R))). Qed.

Lemma has_class_exists s v c : state_inv s -> live (vm_heap s) v -> has_class s v c -> c < List.length (h_classes (vm_heap s)).
Proof.
  intros R L H. inversion H; subst.
  - destruct L as (ob' & E & Hc). rewrite H0 in E. injection E as <-. auto.
  - destruct R as (_ & _ & A & _). eapply A; eauto.
Qed.

Lemma is_value_of_type_spec s v d : state_inv s -> live (vm_heap s) v -> d < List.length (h_classes (vm_heap s)) ->
  exists b, is_value_of_type v d s = ROk b s /\ (b = true <-> instance_of s v d).
Proof.
  intros R L Hd. destruct (class_of_value_spec s v R L) as (oc & E & H). unfold is_value_of_type, rbind. rewrite E.
  unfold instance_of. destruct oc as [c|].
  - pose proof (proj1 (H c) eq_refl) as Hc. pose proof (has_class_exists s v c R L Hc) as Lc.
    destruct (is_class_spec _ c d (proj1 R) Lc Hd) as (b & Eb & S). exists b. unfold heap_get. rewrite Eb. split; [reflexivity|].
    rewrite S. split; [eauto|]. intros (c' & Hc' & D). apply H in Hc'. now injection Hc' as <-.
  - exists false. split; [reflexivity|]. split; [discriminate|]. intros (c & Hc & _). apply H in Hc. discriminate.
Qed.

Lemma state_inv_ws b t s : state_inv (with_stack b t s) <-> state_inv s.
Proof. reflexivity. Qed.
Lemma instance_ws b t s v d : instance_of (with_stack b t s) v d <-> instance_of s v d.
Proof.
  unfold instance_of. split; intros (c & H & D); exists c; (split; [|exact D]); inversion H; subst; econstructor; eauto.
Qed.

(** The [is] instruction. *)
Lemma step_is w r bc fr ups p b t v d s : state_inv s -> live (vm_heap s) v -> d < List.length (h_classes (vm_heap s)) -> fits b t 2 ->
  exists x, step w r bc fr ups (INone OpIs) p (with_stack b (VClass d :: v :: t) s)
            = ROk (Continue p) (with_stack b (VBool x :: t) s) /\ (x = true <-> instance_of s v d).
Proof.
  intros I L Hd F. destruct (is_value_of_type_spec (with_stack b (v :: t) s) v d I L Hd) as (x & E & S).
  exists x. split; [|now rewrite <- (instance_ws b (v :: t))].
  cbn [step]. unfold rbind. rewrite pop_ws by fit. cbn [as_class lift].
  rewrite (peek_ws 0 b (v :: t) v) by reflexivity. rewrite E. rewrite poke_ws by fit. reflexivity.
Qed.

(** The type assertions. *)
Lemma assert_type_spec s v d : state_inv s -> live (vm_heap s) v -> d < List.length (h_classes (vm_heap s)) ->
  (instance_of s v d /\ assert_type d v s = ROk tt s) \/
  (~ instance_of s v d /\ assert_type d v s = RErr TYPE_ASSERTION_FAILURE s).
Proof.
  intros I L Hd. destruct (is_value_of_type_spec s v d I L Hd) as (x & E & S). unfold assert_type, rbind. rewrite E.
  destruct x; [left|right]; (split; [intuition congruence|reflexivity]).
Qed.

(** Derivation. *)
Lemma step_inherit_ok w r bc fr ups c p b t base s s' name : 
  nth_error (bc_constants bc) c = Some (CSymbol name) -> fits b t 1 ->
  step w r bc fr ups (IByte OpInheritClass c) p (with_stack b (VClass base :: t) s) = ROk (Continue p) s' ->
  exists h', class_with_base name base (vm_heap s) = Ok (List.length (h_classes (vm_heap s)), h') /\
    s' = with_stack b (VClass (List.length (h_classes (vm_heap s))) :: t) (set_heap h' s).
Proof.
  intros Ec F. cbn [step]. unfold rbind at 1, rbind at 1. unfold symbol_at, const_at, rbind at 1. rewrite Ec. cbn [rret value_of_const as_symbol lift].
  unfold inherit_class, rbind at 1. rewrite pop_ws by fit. unfold rbind at 1. cbn [as_class lift].
  unfold rbind at 1. cbn [vm_any with_stack set_stack vm_heap].
  change (vm_any (with_stack b t s)) with (vm_any s). change (vm_heap (with_stack b t s)) with (vm_heap s).
  change (vm_kinds (with_stack b t s)) with (vm_kinds s).
  destruct (class_eqb base (vm_any s) (vm_heap s)) as [same|e| |]; try discriminate. cbn [lift].
  unfold rbind at 1. change (vm_kinds (with_stack b t s)) with (vm_kinds s). change (vm_heap (with_stack b t s)) with (vm_heap s).
  destruct (is_value_class base (vm_kinds s) (vm_heap s)) as [bad|e| |]; try discriminate. cbn [lift].
  destruct (negb same && bad)%bool; [discriminate|]. unfold rbind at 1, heap_upd.
  change (vm_heap (with_stack b t s)) with (vm_heap s).
  destruct (class_with_base name base (vm_heap s)) as [[k h']|e| |] eqn:Ek; try discriminate.
  pose proof Ek as Ek'. apply class_with_base_inv in Ek' as (_ & _ & _ & _ & -> & _).
  rewrite set_heap_ws, push_ws by fit. intros E. injection E as <-. eauto.
Qed.

Lemma inherit_methods name base h c h' : class_with_base name base h = Ok (c, h') ->
  c = List.length (h_classes h) /\ derives h' c base /\
  (forall m, method h' c m = if String.eqb m "new" then None else method h base m) /\
  (forall d m, d < List.length (h_classes h) -> method h' d m = method h d m).
Proof.
  intros E. apply class_with_base_inv in E as (kb & ob & Eb & Eo & -> & ->). split; [reflexivity|].
  assert (Lb : base < List.length (h_classes h)) by (now apply nth_error_lt in Eb).
  repeat split.
  - eapply derives_base; [cbn [h_classes hset_classes]; apply nth_error_new|reflexivity|].
    apply derives_self. cbn [h_classes hset_classes]. rewrite app_length. lia.
  - intros m. unfold method. cbn [h_classes hset_classes]. rewrite nth_error_new, Eb. cbn [cl_methods]. apply assoc_get_filter_new.
  - intros d m Hd. unfold method. cbn [h_classes hset_classes]. now rewrite nth_error_app1 by assumption.
Qed.

Lemma set_method_spec c name m h h' : class_set_method c name m h = Ok h' ->
  forall d n, method h' d n = if (Nat.eqb d c && String.eqb n name)%bool then Some m else method h d n.
Proof.
  intros E d n. apply class_set_method_inv in E as (_ & k & Ek & ->). unfold method. cbn [h_classes hset_classes].
  assert (Lc : c < List.length (h_classes h)) by (now apply nth_error_lt in Ek).
  destruct (Nat.eqb_spec d c) as [->|N]; cbn [andb].
  - rewrite nth_error_set_nth_eq by assumption. cbn [cl_methods]. rewrite assoc_get_set, Ek. reflexivity.
  - now rewrite nth_error_set_nth_neq by congruence.
Qed.

Lemma change_methods h h' c : heap_change h h' -> c < List.length (h_classes h) ->
  (exists name m, class_set_method c name m h = Ok h') \/ (forall n, method h' c n = method h c n).
Proof.
  intros H Hc. destruct H as [h class o h' E|h o name v h' E|h vs a h' E|h a vs h' E|h f a h' E|h name base c1 h' E|h c1 name m h' E
                |h f ups c1 h' E|h slot u h' E|h u x h' E|h l].
  7: { destruct (Nat.eq_dec c c1) as [->|N]; [left; eauto|right; intros n].
       rewrite (set_method_spec _ _ _ _ _ E). apply Nat.eqb_neq in N. now rewrite N. }
  all: right; intros n.
  - unfold object_new in E; injection E as <- <-. reflexivity.
  - apply object_set_field_inv in E as (ob & m & Eo & Em & ->). reflexivity.
  - unfold array_from_vec, object_new in E; injection E as <- <-. reflexivity.
  - apply array_update_inv in E as (ar & Ea & Eb & ->). reflexivity.
  - apply array_set_borrows_inv in E as (ar & Ea & ->). reflexivity.
  - apply inherit_methods in E as (_ & _ & _ & E). now apply E.
  - unfold closure_new in E; injection E as <- <-. reflexivity.
  - unfold upvalue_new_open in E; injection E as <- <-. reflexivity.
  - apply upvalue_write_inv in E as (Hu & ->). reflexivity.
  - reflexivity.
Qed.

Lemma steps_methods s s' c n : vm_steps s s' -> c < List.length (h_classes (vm_heap s)) ->
  method (vm_heap s') c n = method (vm_heap s) c n \/
  exists s1 s2 m, vm_steps s s1 /\ class_set_method c n m (vm_heap s1) = Ok (vm_heap s2) /\ vm_steps s2 s'.
Proof.
  intros H. induction H as [s|s1 s2 s3 H H' IH]; intros Hc; [now left|].
  assert (L : List.length (h_classes (vm_heap s1)) <= List.length (h_classes (vm_heap s2))).
  { eapply steps_classes_len. now apply vs_one. }
  destruct (IH ltac:(lia)) as [E|(sa & sb & m & A & B & C)].
  - destruct H as [s st|s h' Hh|s l|s name v Hv|s name v Hv]; try (left; exact E).
    cbn [vm_heap set_heap] in *.
    destruct (change_methods _ _ c Hh Hc) as [(name & m & S)|S]; [|left; now rewrite E, S].
    pose proof (set_method_spec _ _ _ _ _ S c n) as Q. rewrite Nat.eqb_refl in Q. cbn [andb] in Q.
    destruct (String.eqb_spec n name) as [->|N]; [|left; now rewrite E, Q].
    right. exists s, (set_heap h' s), m. split; [constructor|]. split; [exact S|exact H'].
  - right. exists sa, sb, m. split; [|split; assumption]. exact (vs_trans _ _ _ (vs_one _ _ H) A).
Qed.
