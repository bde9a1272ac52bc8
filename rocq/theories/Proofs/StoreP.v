(** Lemmas for arrays, fields, static fields and type assertions. *)
From Verif.Spec Require Export StoreSpec.
From Verif.Proofs Require Export GlobalsP.
From Verif.Proofs Require Import ArithP.

Lemma heap_get_ok {A} (f : heap -> outcome A) a s : f (vm_heap s) = Ok a -> heap_get f s = ROk a s.
Proof. intros E. unfold heap_get. now rewrite E. Qed.
Lemma heap_upd__ok (f : heap -> outcome heap) h' s : f (vm_heap s) = Ok h' -> heap_upd_ f s = ROk tt (set_heap h' s).
Proof. intros E. unfold heap_upd_, heap_upd. now rewrite E. Qed.

(** Arrays. *)
Section Arrays.
Variables (w : world) (r : rec) (bc : bytecode) (fr : frame) (ups : option (list nat)) (p : pos).

Lemma step_load_index b t a i vs s : elements (vm_heap s) a = Some vs -> fits b t 2 ->
  step w r bc fr ups (INone OpLoadIndex) p (with_stack b (VInt i :: VArray a :: t) s)
  = ROk (Continue p) (with_stack b ((if (0 <=? i)%Z then match nth_error vs (Z.to_nat i) with Some v => v | None => VNull end else VNull) :: t) s).
Proof.
  intros E F. cbn [step]. unfold load_index, rbind. rewrite pop_ws by fit.
  rewrite (peek_ws 0 b (VArray a :: t) (VArray a)) by reflexivity.
  rewrite (heap_get_ok (array_elements a) vs).
  2:{ cbn [vm_heap with_stack set_stack]. unfold elements in E. unfold array_elements. destruct (nth_error _ a); now inversion E. }
  cbn [rret]. rewrite poke_ws by fit. cbn [set_nth]. unfold rret. do 4 f_equal. unfold element_at.
  destruct (Z.ltb_spec i 0), (Z.leb_spec 0 i); try lia; reflexivity.
Qed.

Lemma step_write_index (assign : bool) b t a i x vs s :
  elements (vm_heap s) a = Some vs -> unborrowed (vm_heap s) a -> (0 <= i < Z.of_nat (List.length vs))%Z -> fits b t 3 ->
  exists h', step w r bc fr ups (INone (if assign then OpAssignIndex else OpStoreIndex)) p (with_stack b (x :: VInt i :: VArray a :: t) s)
    = ROk (Continue p) (with_stack b ((if assign then VUnit else x) :: t) (set_heap h' s)) /\
    (forall a', elements h' a' = if Nat.eqb a' a then Some (set_nth vs (Z.to_nat i) x) else elements (vm_heap s) a') /\
    h_fields h' = h_fields (vm_heap s) /\ h_objects h' = h_objects (vm_heap s) /\ h_classes h' = h_classes (vm_heap s) /\
    h_closures h' = h_closures (vm_heap s) /\ h_upvalues h' = h_upvalues (vm_heap s).
Proof.
  intros E (ar & Ea & Eb) Hi F. unfold elements in E. rewrite Ea in E. injection E as E.
  set (h' := hset_arrays (set_nth (h_arrays (vm_heap s)) a (MkArray (set_nth vs (Z.to_nat i) x) (ar_object ar) 0)) (vm_heap s)).
  exists h'. split; [|split; [|repeat split]].
  - assert (S : step w r bc fr ups (INone (if assign then OpAssignIndex else OpStoreIndex)) p
             = (write_index assign >>> rret (Continue p))) by (destruct assign; reflexivity).
    rewrite S. unfold write_index, rbind. rewrite pop_ws by fit. rewrite pop_ws by fit.
    rewrite (peek_ws 0 b (VArray a :: t) (VArray a)) by reflexivity.
    rewrite (heap_get_ok (array_elements a) vs) by (cbn [vm_heap with_stack set_stack]; unfold array_elements; rewrite Ea; now rewrite E).
    unfold element_at. destruct (Z.ltb_spec i 0); [lia|].
    destruct (nth_error vs (Z.to_nat i)) as [y|] eqn:En; [|apply nth_error_None in En; lia].
    rewrite (heap_upd__ok _ h') by (cbn [vm_heap with_stack set_stack]; unfold array_update; rewrite Ea, Eb; reflexivity).
    rewrite set_heap_ws, poke_ws by fit. reflexivity.
  - intros a'. unfold elements, h'. cbn [h_arrays hset_arrays]. destruct (Nat.eqb_spec a' a) as [->|N].
    + rewrite nth_error_set_nth_eq by (now apply nth_error_lt in Ea). reflexivity.
    + now rewrite nth_error_set_nth_neq by congruence.
Qed.

Lemma step_write_index_out (assign : bool) b t a i x vs s :
  elements (vm_heap s) a = Some vs -> (i < 0 \/ Z.of_nat (List.length vs) <= i)%Z -> fits b t 3 ->
  step w r bc fr ups (INone (if assign then OpAssignIndex else OpStoreIndex)) p (with_stack b (x :: VInt i :: VArray a :: t) s) = RPanic.
Proof.
  intros E Hi F.
  assert (S : step w r bc fr ups (INone (if assign then OpAssignIndex else OpStoreIndex)) p
             = (write_index assign >>> rret (Continue p))) by (destruct assign; reflexivity).
  rewrite S. unfold write_index, rbind. rewrite pop_ws by fit. rewrite pop_ws by fit.
  rewrite (peek_ws 0 b (VArray a :: t) (VArray a)) by reflexivity.
  rewrite (heap_get_ok (array_elements a) vs).
  2:{ cbn [vm_heap with_stack set_stack]. unfold elements in E. unfold array_elements. destruct (nth_error _ a); now inversion E. }
  unfold element_at. destruct (Z.ltb_spec i 0); [reflexivity|].
  destruct (nth_error vs (Z.to_nat i)) as [y|] eqn:En; [|reflexivity].
  apply nth_error_lt in En. lia.
Qed.
End Arrays.

Lemma change_elements h h' a : heap_change h h' -> a < List.length (h_arrays h) ->
  (exists vs, array_update a vs h = Ok h') \/ elements h' a = elements h a.
Proof.
  intros H Ha. destruct H as [h class o h' E|h o name v h' E|h vs a1 h' E|h a1 vs h' E|h f a1 h' E|h name base c1 h' E|h c1 name m h' E
                |h f ups c1 h' E|h slot u h' E|h u x h' E|h l].
  4: { destruct (Nat.eq_dec a a1) as [->|N]; [left; eauto|right].
       apply array_update_inv in E as (ar & Ea & Eb & ->). unfold elements. cbn [h_arrays hset_arrays].
       now rewrite nth_error_set_nth_neq by congruence. }
  all: right.
  - unfold object_new in E; injection E as <- <-. reflexivity.
  - apply object_set_field_inv in E as (ob & m & Eo & Em & ->). reflexivity.
  - unfold array_from_vec, object_new in E; injection E as <- <-. unfold elements. cbn [h_arrays hset_arrays hset_objects hset_fields].
    now rewrite nth_error_app1 by assumption.
  - apply array_set_borrows_inv in E as (ar & Ea & ->). unfold elements. cbn [h_arrays hset_arrays].
    destruct (Nat.eq_dec a a1) as [->|N].
    + rewrite nth_error_set_nth_eq by assumption. now rewrite Ea.
    + now rewrite nth_error_set_nth_neq by congruence.
  - apply class_with_base_inv in E as (b & ob & Eb & Eo & -> & ->). reflexivity.
  - apply class_set_method_inv in E as (Km & k & Ec & ->). reflexivity.
  - unfold closure_new in E; injection E as <- <-. reflexivity.
  - unfold upvalue_new_open in E; injection E as <- <-. reflexivity.
  - apply upvalue_write_inv in E as (Hu & ->). reflexivity.
  - reflexivity.
Qed.

(** Fields. *)
Lemma rbind_ok {A B} (m : run A) (f : A -> run B) a s s' : m s = ROk a s' -> rbind m f s = f a s'.
Proof. intros E. unfold rbind. now rewrite E. Qed.
Lemma own_field_get s v name : heap_inv (vm_heap s) -> live (vm_heap s) v ->
  match kind v with
  | KdObject | KdClass | KdArray => let* o := heap_get (as_object v) in heap_get (object_field o name)
  | _ => rret None
  end s = ROk (own_field (vm_heap s) v name) s.
Proof.
  intros I L.
  assert (G : forall o ob, nth_error (h_objects (vm_heap s)) o = Some ob -> heap_get (object_field o name) s = ROk (field (vm_heap s) o name) s).
  { intros o ob E. apply heap_get_ok. unfold object_field, field. rewrite E.
    pose proof (hi_fields _ I _ _ E) as F. destruct (nth_error (h_fields (vm_heap s)) (ob_fields ob)) eqn:Ef; [reflexivity|].
    apply nth_error_None in Ef. lia. }
  unfold own_field. destruct v; cbn [kind carrier]; try reflexivity; unfold rbind; cbn [live] in L.
  - destruct (nth_error (h_arrays (vm_heap s)) addr) as [ar|] eqn:E; [|apply nth_error_None in E; lia].
    destruct (hi_array_object _ I _ _ E) as (ob & Eo & _).
    rewrite (heap_get_ok _ (ar_object ar)) by (cbn [as_object]; now rewrite E). now rewrite (G _ _ Eo).
  - destruct L as (ob & Eo & _). rewrite (heap_get_ok _ addr) by reflexivity. now rewrite (G _ _ Eo).
  - destruct (nth_error (h_classes (vm_heap s)) addr) as [k|] eqn:E; [|apply nth_error_None in E; lia].
    destruct (hi_class_object _ I _ _ E) as (ob & Eo & _).
    rewrite (heap_get_ok _ (cl_object k)) by (cbn [as_object]; now rewrite E). now rewrite (G _ _ Eo).
Qed.

Lemma get_field_spec s v name : state_inv s -> live (vm_heap s) v ->
  match own_field (vm_heap s) v name with
  | Some x => get_field name v s = ROk x s
  | None =>
      if String.eqb name "new" then get_field name v s = RErr NEW_FUNCTION_CANNOT_BE_ACCESS_DIRECTLY s
      else exists x, get_field name v s = ROk x s /\
        ((exists c m, has_class s v c /\ method (vm_heap s) c name = Some m /\ x = VFnBound v m) \/
         ((forall c, has_class s v c -> method (vm_heap s) c name = None) /\ x = VNull))
  end.
Proof.
  intros I L. unfold get_field. rewrite (rbind_ok _ _ _ _ _ (own_field_get s v name (proj1 I) L)).
  destruct (own_field (vm_heap s) v name) as [x|]; [reflexivity|].
  destruct (String.eqb name "new"); [reflexivity|].
  destruct (class_of_value_spec s v I L) as (oc & E & H). rewrite (rbind_ok _ _ _ _ _ E). unfold get_method.
  destruct oc as [c|].
  - pose proof (proj1 (H c) eq_refl) as Hc. pose proof (has_class_exists s v c I L Hc) as Lc.
    unfold rbind. rewrite (heap_get_ok _ (method (vm_heap s) c name)).
    2:{ unfold class_method, class_get, method. destruct (nth_error _ c) eqn:Ec; [reflexivity|]. apply nth_error_None in Ec. lia. }
    destruct (method (vm_heap s) c name) as [m|] eqn:Em.
    + eexists; split; [reflexivity|]. left. eauto.
    + eexists; split; [reflexivity|]. right. split; [|reflexivity]. intros c' Hc'. apply H in Hc'. now injection Hc' as <-.
  - eexists; split; [reflexivity|]. right. split; [|reflexivity]. intros c' Hc'. apply H in Hc'. discriminate.
Qed.

Lemma live_ws b t s v : live (vm_heap (with_stack b t s)) v <-> live (vm_heap s) v.
Proof. reflexivity. Qed.
Lemma has_class_ws b t s v c : has_class (with_stack b t s) v c <-> has_class s v c.
Proof. split; intros H; inversion H; subst; econstructor; eauto. Qed.

Lemma step_load_field w r bc fr ups p c name b t v s : nth_error (bc_constants bc) c = Some (CSymbol name) ->
  state_inv s -> live (vm_heap s) v -> fits b t 1 ->
  let go x := step w r bc fr ups (IByte OpLoadField c) p (with_stack b (v :: t) s) = ROk (Continue p) (with_stack b (x :: t) s) in
  match own_field (vm_heap s) v name with
  | Some x => go x
  | None =>
      if String.eqb name "new"
      then step w r bc fr ups (IByte OpLoadField c) p (with_stack b (v :: t) s) = RErr NEW_FUNCTION_CANNOT_BE_ACCESS_DIRECTLY (with_stack b t s)
      else (exists k m, has_class s v k /\ method (vm_heap s) k name = Some m /\ go (VFnBound v m)) \/
           ((forall k, has_class s v k -> method (vm_heap s) k name = None) /\ go VNull)
  end.
Proof.
  intros Ec I L F go. pose proof (get_field_spec (with_stack b t s) v name I L) as G.
  change (vm_heap (with_stack b t s)) with (vm_heap s) in G.
  assert (K : forall q, get_field name v (with_stack b t s) = q ->
    step w r bc fr ups (IByte OpLoadField c) p (with_stack b (v :: t) s)
    = match q with ROk x s1 => (push x >>> rret (Continue p)) s1 | RErr e s1 => RErr e s1 | RPanic => RPanic | RNoFuel => RNoFuel end).
  { intros q Eq. cbn [step]. unfold rbind. rewrite (symbol_at_ok _ _ _ _ Ec), pop_ws by fit. rewrite Eq. destruct q; reflexivity. }
  assert (P : forall x, get_field name v (with_stack b t s) = ROk x (with_stack b t s) -> go x).
  { intros x Ex. unfold go. rewrite (K _ Ex). unfold rbind. rewrite push_ws by fit. reflexivity. }
  destruct (own_field (vm_heap s) v name) as [x|]; [now apply P|].
  destruct (String.eqb name "new"); [now rewrite (K _ G)|].
  destruct G as (x & Ex & [(k & m & Hk & Hm & ->)|(Hn & ->)]); [left|right].
  - exists k, m. split; [now apply has_class_ws in Hk|]. split; [assumption|now apply P].
  - split; [|now apply P]. intros k Hk. apply Hn. now apply has_class_ws.
Qed.

(** Effect of a field store. *)
Lemma object_set_field_spec o name x h h' : heap_inv h -> object_set_field o name x h = Ok h' ->
  (forall c k, nth_error (h_classes h) c = Some k -> cl_object k <> o) ->
  (forall o' n', field h' o' n' = if (Nat.eqb o' o && String.eqb n' name)%bool then Some x else field h o' n').
Proof.
  intros I E N o' n'. apply object_set_field_inv in E as (ob & m & Eo & Em & ->). unfold field. cbn [h_objects hset_fields h_fields].
  destruct (Nat.eqb_spec o' o) as [->|Nq]; cbn [andb].
  - rewrite Eo, nth_error_set_nth_eq by (eapply hi_fields; eauto). rewrite Em, assoc_get_set. reflexivity.
  - destruct (nth_error (h_objects h) o') as [ob'|] eqn:Eo'; [|reflexivity].
    destruct (Nat.eq_dec (ob_fields ob) (ob_fields ob')) as [Ef|Nf].
    + destruct (hi_tables h I _ _ _ _ Eo Eo' (fun e => Nq (eq_sym e)) Ef) as (c & k & Hk & Ek). now apply N in Hk.
    + now rewrite nth_error_set_nth_neq by congruence.
Qed.

Lemma step_store_field w r bc fr ups op c p name b t x o ob s :
  (op = OpStoreField \/ op = OpAssignField) -> nth_error (bc_constants bc) c = Some (CSymbol name) ->
  heap_inv (vm_heap s) -> nth_error (h_objects (vm_heap s)) o = Some ob -> fits b t 2 ->
  exists h', object_set_field o name x (vm_heap s) = Ok h' /\
    step w r bc fr ups (IByte op c) p (with_stack b (x :: VObject o :: t) s)
    = ROk (Continue p) (with_stack b (match op with OpStoreField => x | _ => VUnit end :: t) (set_heap h' s)).
Proof.
  intros Hop Ec I Eo F.
  assert (exists h', object_set_field o name x (vm_heap s) = Ok h') as (h' & Eh).
  { unfold object_set_field. rewrite Eo. destruct (nth_error (h_fields (vm_heap s)) (ob_fields ob)) eqn:Ef; [eauto|].
    apply nth_error_None in Ef. pose proof (hi_fields _ I _ _ Eo). lia. }
  exists h'. split; [assumption|].
  destruct Hop as [-> | ->]; cbn [step]; unfold rbind; rewrite (symbol_at_ok _ _ _ _ Ec); unfold write_field, rbind;
    rewrite pop_ws by fit; rewrite pop_ws by fit; cbn [heap_get as_object lift];
    rewrite (heap_upd__ok _ h') by (exact Eh); rewrite set_heap_ws, push_ws by fit; reflexivity.
Qed.

(** Sequences of stores. *)
Lemma has_class_not_static h c k o ob : heap_inv h -> nth_error (h_objects h) o = Some ob -> ob_class ob <> None ->
  nth_error (h_classes h) c = Some k -> cl_object k <> o.
Proof. intros I Eo N Ec <-. destruct (hi_class_object _ I _ _ Ec) as (ob' & E & Z). congruence. Qed.

Lemma object_set_field_change o name x s h' : object_set_field o name x (vm_heap s) = Ok h' -> vm_steps s (set_heap h' s).
Proof. intros E. eapply vs_step; [|apply vs_refl]. apply CHeap. now apply HSetField with (o := o) (name := name) (v := x). Qed.

Lemma stores_field_heap s o name x s' : heap_inv (vm_heap s) -> stores_field s (VObject o) name x s' ->
  (exists ob, nth_error (h_objects (vm_heap s)) o = Some ob) ->
  exists h', object_set_field o name x (vm_heap s) = Ok h' /\ vm_heap s' = h'.
Proof.
  intros I (w & r & bc & fr & ups & op & c & p & b & t & Ho & Ec & F & Es & Ef) (ob & Eo).
  destruct (step_store_field w r bc fr ups op c p name b t x o ob s Ho Ec I Eo F) as (h' & E1 & E2).
  exists h'. split; [assumption|]. rewrite Es, E2 in Ef. injection Ef as <-. reflexivity.
Qed.

Lemma field_stores_spec s l s' : field_stores s l s' -> inv_of (vm_heap s) ->
  (forall o name x, In (o, name, x) l -> exists ob, nth_error (h_objects (vm_heap s)) o = Some ob /\ ob_class ob <> None) ->
  forall o name, field (vm_heap s') o name = last_store o name l (field (vm_heap s) o name).
Proof.
  induction 1 as [s|s st l s' _ IH|s o1 n1 x1 s1 l s' H _ IH]; intros I A o name.
  - reflexivity.
  - now apply IH.
  - destruct (A o1 n1 x1 (or_introl eq_refl)) as (ob & Eo & Nc).
    pose proof (inv_of_inv _ I) as I'. destruct (stores_field_heap s o1 n1 x1 s1 I' H (ex_intro _ _ Eo)) as (h' & E1 & E2).
    assert (Objs : h_objects (vm_heap s1) = h_objects (vm_heap s)).
    { rewrite E2. apply object_set_field_inv in E1 as (? & ? & _ & _ & ->). reflexivity. }
    rewrite IH.
    + cbn [last_store]. f_equal. rewrite E2. apply (object_set_field_spec _ _ _ _ _ I' E1).
      intros c k Ec. eapply has_class_not_static; eauto.
    + rewrite E2. eapply inv_change; [eapply HSetField; exact E1|exact I].
    + intros o2 n2 x2 Hin. rewrite Objs. eapply A. right. exact Hin.
Qed.

Lemma reachable_inv_of w s : reachable w s -> inv_of (vm_heap s).
Proof. intros (s0 & E0 & E). eapply steps_inv; [eapply executes_steps; exact E|]. now apply runtime_new_inv. Qed.

Lemma change_field h h' o n ob : inv_of h -> heap_change h h' -> nth_error (h_objects h) o = Some ob -> ob_class ob <> None ->
  field h' o n = field h o n \/ exists x, object_set_field o n x h = Ok h'.
Proof.
  intros I H Eo Nc. pose proof (inv_of_inv _ I) as I'.
  assert (Old : forall l m, nth_error (h_objects h ++ l) o = Some ob /\ nth_error (h_fields h ++ m) (ob_fields ob) = nth_error (h_fields h) (ob_fields ob)).
  { intros l m. split; [now apply nth_error_prefix|]. rewrite nth_error_app1; [reflexivity|]. eapply hi_fields; eauto. }
  destruct H as [h class o1 h' E|h o1 name v h' E|h vs a1 h' E|h a1 vs h' E|h f a1 h' E|h name base c1 h' E|h c1 name m h' E
                |h f ups c1 h' E|h slot u h' E|h u x h' E|h l].
  2: { destruct (Nat.eq_dec o o1) as [->|N].
       - destruct (string_dec n name) as [->|Nn]; [right; eauto|left].
         rewrite (object_set_field_spec _ _ _ _ _ I' E (fun c k Ec => has_class_not_static _ c k _ _ I' Eo Nc Ec)).
         apply String.eqb_neq in Nn. now rewrite Nn, andb_false_r.
       - left. apply object_set_field_inv in E as (ob1 & m & Eo1 & Em & ->). unfold field. cbn [h_objects hset_fields h_fields].
         rewrite Eo. destruct (Nat.eq_dec (ob_fields ob1) (ob_fields ob)) as [Ef|Nf].
         + destruct (hi_tables h I' _ _ _ _ Eo Eo1 N (eq_sym Ef)) as (c & k & Hk & Ek).
           now apply (has_class_not_static _ _ _ _ _ I' Eo Nc) in Hk.
         + now rewrite nth_error_set_nth_neq by congruence. }
  all: left; unfold field.
  - unfold object_new in E; injection E as <- <-. cbn [h_objects h_fields hset_objects hset_fields].
    destruct (Old [MkObject class (List.length (h_fields h))] [[]]) as (-> & ->). now rewrite Eo.
  - unfold array_from_vec, object_new in E; injection E as <- <-. cbn [h_objects h_fields hset_objects hset_fields hset_arrays].
    destruct (Old [MkObject None (List.length (h_fields h))] [[]]) as (-> & ->). now rewrite Eo.
  - apply array_update_inv in E as (ar & Ea & Eb & ->). reflexivity.
  - apply array_set_borrows_inv in E as (ar & Ea & ->). reflexivity.
  - apply class_with_base_inv in E as (b & ob1 & Eb & Eo1 & -> & ->). cbn [h_objects h_fields hset_objects hset_fields hset_classes].
    destruct (Old [MkObject (ob_class ob1) (ob_fields ob1)] []) as (-> & _). now rewrite Eo.
  - apply class_set_method_inv in E as (Km & k & Ec & ->). reflexivity.
  - unfold closure_new in E; injection E as <- <-. reflexivity.
  - unfold upvalue_new_open in E; injection E as <- <-. reflexivity.
  - apply upvalue_write_inv in E as (Hu & ->). reflexivity.
  - reflexivity.
Qed.

Lemma steps_field s s' o n ob : vm_steps s s' -> inv_of (vm_heap s) -> nth_error (h_objects (vm_heap s)) o = Some ob -> ob_class ob <> None ->
  field (vm_heap s') o n = field (vm_heap s) o n \/
  exists s1 s2 x, vm_steps s s1 /\ object_set_field o n x (vm_heap s1) = Ok (vm_heap s2) /\ vm_steps s2 s'.
Proof.
  induction 1 as [s|s1 s2 s3 H H23 IH]; intros I Eo Nc; [now left|].
  assert (Step : inv_of (vm_heap s2) /\ nth_error (h_objects (vm_heap s2)) o = Some ob /\
                 (field (vm_heap s2) o n = field (vm_heap s1) o n \/ exists x, object_set_field o n x (vm_heap s1) = Ok (vm_heap s2))).
  { destruct H as [s st|s h' H|s l|s name v E|s name v E]; try (split; [exact I|split; [exact Eo|now left]]).
    cbn [vm_heap set_heap]. split; [now apply (inv_change _ _ H)|]. split.
    - destruct (change_objects _ _ H) as (l & ->). now apply nth_error_prefix.
    - now apply (change_field _ _ _ _ _ I H Eo). }
  destruct Step as (I2 & Eo2 & [E|(x & E)]).
  - destruct (IH I2 Eo2 Nc) as [E'|(sa & sb & x & Ha & Ex & Hb)]; [left; congruence|right].
    exists sa, sb, x. split; [eapply vs_step; eauto|auto].
  - right. exists s1, s2, x. split; [apply vs_refl|auto].
Qed.

Lemma change_arrays_len h0 h1 : heap_change h0 h1 -> List.length (h_arrays h0) <= List.length (h_arrays h1).
Proof. intros H. inv_change H; rewrite ?app_length, ?set_nth_length; lia. Qed.
Lemma steps_elements s s' a : vm_steps s s' -> a < List.length (h_arrays (vm_heap s)) ->
  elements (vm_heap s') a = elements (vm_heap s) a \/
  exists s1 s2 vs, vm_steps s s1 /\ array_update a vs (vm_heap s1) = Ok (vm_heap s2) /\ vm_steps s2 s'.
Proof.
  induction 1 as [s|s1 s2 s3 H H23 IH]; intros La; [now left|].
  assert (Step : a < List.length (h_arrays (vm_heap s2)) /\
                 (elements (vm_heap s2) a = elements (vm_heap s1) a \/ exists vs, array_update a vs (vm_heap s1) = Ok (vm_heap s2))).
  { destruct H as [s st|s h' H|s l|s name v E|s name v E]; try (split; [exact La|now left]).
    cbn [vm_heap set_heap]. split; [|destruct (change_elements _ _ _ H La); auto].
    pose proof (change_arrays_len _ _ H). lia. }
  destruct Step as (L2 & [E|(x & E)]).
  - destruct (IH L2) as [E'|(sa & sb & x & Ha & Ex & Hb)]; [left; congruence|right].
    exists sa, sb, x. split; [eapply vs_step; eauto|auto].
  - right. exists s1, s2, x. split; [apply vs_refl|auto].
Qed.

(** Static fields: one table for all classes. *)
Definition one_table (h : heap) : Prop :=
  exists t, forall c k ob, nth_error (h_classes h) c = Some k -> nth_error (h_objects h) (cl_object k) = Some ob -> ob_fields ob = t.

Lemma change_table h h' : heap_change h h' -> inv_of h -> one_table h -> one_table h'.
Proof.
  intros H I (t & T). exists t. intros c k ob Ec Eo. pose proof (inv_of_inv _ I) as I'.
  assert (exists l, h_objects h' = h_objects h ++ l) as (l & El) by now apply change_objects.
  assert (Old : forall c0 k0, nth_error (h_classes h) c0 = Some k0 -> forall ob, nth_error (h_objects h') (cl_object k0) = Some ob -> ob_fields ob = t).
  { intros c0 k0 E0 ob0. destruct (hi_class_object _ I' _ _ E0) as (ob1 & E1 & _). rewrite El. rewrite (nth_error_prefix _ _ _ _ E1).
    intros Q; injection Q as <-. eauto. }
  destruct (change_shapes _ _ H) as [S|(name & base & kb & Eb & S & ob1 & Eo1 & Os)].
  - apply shape_nth in Ec. rewrite S in Ec. apply nth_error_map_inv in Ec as (k0 & E0 & K). unfold shape in K.
    injection K as _ _ _ K _. rewrite <- K in Eo. eauto.
  - apply shape_nth in Ec. cbv zeta in S. rewrite S in Ec. apply nth_error_snoc in Ec as [(_ & Ec)|(_ & Ec)].
    + apply nth_error_map_inv in Ec as (k0 & E0 & K). unfold shape in K. injection K as _ _ _ K _. rewrite <- K in Eo. eauto.
    + unfold shape in Ec. injection Ec as _ _ _ Q _. rewrite <- Q, Os, nth_error_new in Eo. injection Eo as <-. cbn [ob_fields]. eauto.
Qed.

Lemma runtime_new_table_check :
  omap (fun s => forallb (fun k => match nth_error (h_objects (vm_heap s)) (cl_object k) with Some ob => Nat.eqb (ob_fields ob) 0 | None => true end)
                   (h_classes (vm_heap s))) runtime_new = Ok true.
Proof. vm_compute. reflexivity. Qed.

Lemma runtime_new_table s : runtime_new = Ok s -> one_table (vm_heap s).
Proof.
  intros E. pose proof runtime_new_table_check as K. rewrite E in K. clear E. cbn [omap] in K. injection K as K.
  exists 0. intros c k ob Ec Eo. rewrite forallb_forall in K. specialize (K k (nth_error_In _ _ Ec)). rewrite Eo in K.
  now apply Nat.eqb_eq in K.
Qed.

Lemma steps_table s s' : vm_steps s s' -> inv_of (vm_heap s) -> one_table (vm_heap s) -> one_table (vm_heap s').
Proof.
  induction 1 as [s|s1 s2 s3 H _ IH]; [auto|]. intros I T. destruct H; try (now apply IH).
  apply IH; cbn [vm_heap set_heap]; [eapply inv_change|eapply change_table]; eauto.
Qed.

Lemma reachable_table w s : reachable w s -> one_table (vm_heap s).
Proof.
  intros (s0 & E0 & E). eapply steps_table; [eapply executes_steps; exact E|now apply runtime_new_inv|now apply runtime_new_table].
Qed.

Lemma static_shared w s c d name x h' : reachable w s -> d < List.length (h_classes (vm_heap s)) ->
  forall o, carrier (vm_heap s) (VClass c) = Some o -> object_set_field o name x (vm_heap s) = Ok h' ->
  own_field h' (VClass d) name = Some x.
Proof.
  intros R Ld o Co E. destruct (reachable_table w s R) as (t & T). pose proof (reachable_inv w s R) as I.
  cbn [carrier] in Co. destruct (nth_error (h_classes (vm_heap s)) c) as [k|] eqn:Ec; [|discriminate]. injection Co as <-.
  apply object_set_field_inv in E as (ob & m & Eo & Em & ->).
  unfold own_field. cbn [carrier h_classes hset_fields]. destruct (nth_error (h_classes (vm_heap s)) d) as [k'|] eqn:Ed; [|apply nth_error_None in Ed; lia].
  destruct (hi_class_object _ I _ _ Ed) as (ob' & Eo' & _). unfold field. cbn [h_objects hset_fields h_fields]. rewrite Eo'.
  rewrite (T _ _ _ Ec Eo), (T _ _ _ Ed Eo'). rewrite nth_error_set_nth_eq, assoc_get_set, String.eqb_refl; [reflexivity|].
  rewrite <- (T _ _ _ Ec Eo). eapply hi_fields; eauto.
Qed.

(** Storing a field on a class. *)
Lemma step_store_static w r bc fr ups cn p name b t x c s : nth_error (bc_constants bc) cn = Some (CSymbol name) ->
  heap_inv (vm_heap s) -> c < List.length (h_classes (vm_heap s)) -> fits b t 2 ->
  exists o h', carrier (vm_heap s) (VClass c) = Some o /\ object_set_field o name x (vm_heap s) = Ok h' /\
    step w r bc fr ups (IByte OpAssignField cn) p (with_stack b (x :: VClass c :: t) s)
    = ROk (Continue p) (with_stack b (VUnit :: t) (set_heap h' s)).
Proof.
  intros Ec I Lc F. destruct (nth_error (h_classes (vm_heap s)) c) as [k|] eqn:Ek; [|apply nth_error_None in Ek; lia].
  destruct (hi_class_object _ I _ _ Ek) as (ob & Eo & _).
  assert (exists h', object_set_field (cl_object k) name x (vm_heap s) = Ok h') as (h' & Eh).
  { unfold object_set_field. rewrite Eo. destruct (nth_error (h_fields (vm_heap s)) (ob_fields ob)) eqn:Ef; [eauto|].
    apply nth_error_None in Ef. pose proof (hi_fields _ I _ _ Eo). lia. }
  exists (cl_object k), h'. split; [cbn [carrier]; now rewrite Ek|]. split; [assumption|].
  cbn [step]. unfold rbind. rewrite (symbol_at_ok _ _ _ _ Ec). unfold write_field, rbind.
  rewrite pop_ws by fit. rewrite pop_ws by fit.
  rewrite (heap_get_ok _ (cl_object k)) by (cbn [as_object vm_heap with_stack set_stack]; now rewrite Ek).
  rewrite (heap_upd__ok _ h') by (exact Eh). rewrite set_heap_ws, push_ws by fit. reflexivity.
Qed.

(** Type assertions. *)
Lemma kind_null v : kind v = KdNull -> v = VNull.
Proof. destruct v; cbn; congruence. Qed.

Lemma null_no_instance s d : state_inv s -> ~ instance_of s VNull d.
Proof.
  intros (_ & K & _) (c & Hc & _). inversion Hc as [|v' c' Nk Hin]; subst. apply (in_map fst) in Hin. rewrite K in Hin. cbn in Hin.
  repeat (destruct Hin as [Hin|Hin]; [discriminate|]). exact Hin.
Qed.

Lemma assert_body s v d (nullable : bool) : state_inv s -> live (vm_heap s) v -> d < List.length (h_classes (vm_heap s)) ->
  let m := match v with
           | VNull => if nullable then rret tt else rfail TYPE_ASSERTION_NULLABILITY_FAILURE
           | _ => assert_type d v
           end s in
  (accepts nullable s v d /\ m = ROk tt s) \/ (~ accepts nullable s v d /\ exists e, m = RErr e s /\ e = if is_null v then TYPE_ASSERTION_NULLABILITY_FAILURE else TYPE_ASSERTION_FAILURE).
Proof.
  intros I L Ld m. unfold accepts. destruct (is_null v) eqn:N.
  - destruct v; try discriminate. pose proof (null_no_instance s d I) as Z. unfold m. destruct nullable.
    + left. split; [now left|reflexivity].
    + right. split; [intros [(Q & _)|Q]; [discriminate|contradiction]|]. eexists; split; reflexivity.
  - assert (M : m = assert_type d v s) by (unfold m; destruct v; try reflexivity; discriminate). rewrite M.
    assert (NV : v <> VNull) by (intros ->; discriminate).
    destruct (assert_type_spec s v d I L Ld) as [(H & ->)|(H & ->)].
    + left. split; [now right|reflexivity].
    + right. split; [intros [(_ & Q)|Q]; contradiction|]. eexists; split; reflexivity.
Qed.

Lemma accepts_ws nullable b t s v d : accepts nullable (with_stack b t s) v d <-> accepts nullable s v d.
Proof. unfold accepts. now rewrite instance_ws. Qed.

Lemma step_assert_local w r bc fr ups slot p b t d v s (nullable : bool) : state_inv s -> live (vm_heap s) v ->
  d < List.length (h_classes (vm_heap s)) -> fits b t 1 ->
  nth_error b (fr_start fr + slot) = Some v -> fr_start fr + slot < fr_end fr -> fr_end fr <= List.length b ->
  let go := step w r bc fr ups (IByte (if nullable then OpAssertTypeOrNullForLocal else OpAssertTypeForLocal) slot) p
              (with_stack b (VClass d :: t) s) in
  (accepts nullable s v d /\ go = ROk (Continue p) (with_stack b t s)) \/
  (~ accepts nullable s v d /\ exists e, go = RErr e (with_stack b t s) /\
     e = if is_null v then TYPE_ASSERTION_NULLABILITY_FAILURE else TYPE_ASSERTION_FAILURE).
Proof.
  intros I L Ld F Hn Hlt Hle go.
  assert (G : go = (assert_type_for_local nullable fr slot >>> rret (Continue p)) (with_stack b (VClass d :: t) s))
    by (unfold go; destruct nullable; reflexivity).
  assert (G2 : go = match (match v with
           | VNull => if nullable then rret tt else rfail TYPE_ASSERTION_NULLABILITY_FAILURE
           | _ => assert_type d v
           end) (with_stack b t s) with ROk _ s1 => ROk (Continue p) s1 | RErr e s1 => RErr e s1 | RPanic => RPanic | RNoFuel => RNoFuel end).
  { rewrite G. unfold assert_type_for_local, rbind. rewrite pop_ws by fit. cbn [as_class lift].
    rewrite (frame_get_ws fr slot b t v) by (assumption || fit). destruct v; reflexivity. }
  rewrite G2. destruct (assert_body (with_stack b t s) v d nullable I L Ld) as [(A & ->)|(A & e & -> & Ee)]; rewrite accepts_ws in A; eauto.
Qed.

Lemma step_assert_return w r bc fr ups p b t d v s (nullable : bool) : state_inv s -> live (vm_heap s) v ->
  d < List.length (h_classes (vm_heap s)) -> fits b t 2 ->
  let go := step w r bc fr ups (INone (if nullable then OpAssertTypeOrNullAndReturn else OpAssertTypeAndReturn)) p
              (with_stack b (VClass d :: v :: t) s) in
  (accepts nullable s v d /\ go = ROk Stop (with_stack b (v :: t) s)) \/
  (~ accepts nullable s v d /\ exists e, go = RErr e (with_stack b (v :: t) s) /\
     e = if is_null v then TYPE_ASSERTION_NULLABILITY_FAILURE else TYPE_ASSERTION_FAILURE).
Proof.
  intros I L Ld F go.
  assert (G : go = (assert_type_and_return nullable >>> rret Stop) (with_stack b (VClass d :: v :: t) s))
    by (unfold go; destruct nullable; reflexivity).
  assert (G2 : go = match (match v with
           | VNull => if nullable then rret tt else rfail TYPE_ASSERTION_NULLABILITY_FAILURE
           | _ => assert_type d v
           end) (with_stack b (v :: t) s) with ROk _ s1 => ROk Stop s1 | RErr e s1 => RErr e s1 | RPanic => RPanic | RNoFuel => RNoFuel end).
  { rewrite G. unfold assert_type_and_return, rbind. rewrite pop_ws by fit. cbn [as_class lift].
    rewrite (peek_ws 0 b (v :: t) v) by reflexivity. destruct v; reflexivity. }
  rewrite G2. destruct (assert_body (with_stack b (v :: t) s) v d nullable I L Ld) as [(A & ->)|(A & e & -> & Ee)]; rewrite accepts_ws in A; eauto.
Qed.

(** In the form of the property theorems. *)
Lemma step_inherit_methods w r bc fr ups c p below temps base s s' name :
  nth_error (bc_constants bc) c = Some (CSymbol name) -> fits below temps 1 ->
  step w r bc fr ups (IByte OpInheritClass c) p (with_stack below (VClass base :: temps) s) = ROk (Continue p) s' ->
  exists h', s' = with_stack below (VClass (List.length (h_classes (vm_heap s))) :: temps) (set_heap h' s) /\
    derives h' (List.length (h_classes (vm_heap s))) base /\
    (forall m, method h' (List.length (h_classes (vm_heap s))) m
               = if String.eqb m "new" then None else method (vm_heap s) base m) /\
    (forall d m, d < List.length (h_classes (vm_heap s)) -> method h' d m = method (vm_heap s) d m).
Proof.
  intros Ec F E. destruct (step_inherit_ok w r bc fr ups c p below temps base s s' name Ec F E) as (h' & Eh & ->).
  destruct (inherit_methods _ _ _ _ _ Eh) as (_ & D & M & O). exists h'. auto.
Qed.

Lemma step_store_method_spec w r bc fr ups c p below temps d f s name :
  nth_error (bc_constants bc) c = Some (CSymbol name) -> fits below temps 2 ->
  d < List.length (h_classes (vm_heap s)) -> kind f = KdFunction ->
  exists h', step w r bc fr ups (IByte OpStoreMethod c) p (with_stack below (f :: VClass d :: temps) s)
             = ROk (Continue p) (with_stack below temps (set_heap h' s)) /\
    forall d' n, method h' d' n = if (Nat.eqb d' d && String.eqb n name)%bool then Some f else method (vm_heap s) d' n.
Proof.
  intros Ec F Ld K. assert (exists h', class_set_method d name f (vm_heap s) = Ok h') as (h' & Eh).
  { unfold class_set_method, class_get. rewrite K. cbn [vkind_eqb]. destruct (nth_error (h_classes (vm_heap s)) d) eqn:E; [|apply nth_error_None in E; lia].
    cbn [omap]. eauto. }
  exists h'. split; [|now apply set_method_spec].
  cbn [step]. unfold rbind. rewrite (symbol_at_ok _ _ _ _ Ec). unfold store_method, rbind.
  rewrite pop_ws by fit. rewrite pop_ws by fit. cbn [as_class lift].
  rewrite (heap_upd__ok _ h') by (exact Eh). rewrite set_heap_ws. reflexivity.
Qed.

Lemma step_static_shared w r bc fr ups cn p name below temps x c d s :
  reachable w s -> nth_error (bc_constants bc) cn = Some (CSymbol name) -> fits below temps 2 ->
  c < List.length (h_classes (vm_heap s)) -> d < List.length (h_classes (vm_heap s)) ->
  exists h', step w r bc fr ups (IByte OpAssignField cn) p (with_stack below (x :: VClass c :: temps) s)
             = ROk (Continue p) (with_stack below (VUnit :: temps) (set_heap h' s)) /\
    own_field h' (VClass d) name = Some x.
Proof.
  intros R Ec F Lc Ld.
  destruct (step_store_static w r bc fr ups cn p name below temps x c s Ec (reachable_inv w s R) Lc F) as (o & h' & Co & Eo & Es).
  exists h'. split; [exact Es|]. exact (static_shared w s c d name x h' R Ld o Co Eo).
Qed.

Lemma accepts_null w s d nullable : reachable w s -> (accepts nullable s VNull d <-> nullable = true).
Proof.
  intros R. unfold accepts. split; [|auto]. intros [(H & _)|H]; [exact H|].
  apply (null_no_instance s d (reachable_state w s R)) in H. contradiction.
Qed.

Lemma set_nth_spec (vs : list value) i x j : i < List.length vs ->
  List.length (set_nth vs i x) = List.length vs /\
  nth_error (set_nth vs i x) j = if Nat.eqb j i then Some x else nth_error vs j.
Proof.
  intros L. split; [apply set_nth_length|]. destruct (Nat.eqb_spec j i) as [->|N].
  - now apply nth_error_set_nth_eq.
  - apply nth_error_set_nth_neq. congruence.
Qed.

Lemma has_class_object s o c : has_class s (VObject o) c -> exists ob, nth_error (h_objects (vm_heap s)) o = Some ob /\ ob_class ob <> None.
Proof.
  intros H. inversion H as [o' ob c' Eo Ec|v c' N _]; subst.
  - exists ob. split; [exact Eo|congruence].
  - cbn in N. congruence.
Qed.

Lemma field_stores_reachable w s l s' : reachable w s -> field_stores s l s' ->
  (forall o name x, In (o, name, x) l -> exists c, has_class s (VObject o) c) ->
  forall o name, field (vm_heap s') o name = last_store o name l (field (vm_heap s) o name).
Proof.
  intros R H A. apply field_stores_spec; [exact H|now apply (reachable_inv_of w)|].
  intros o name x Hin. destruct (A o name x Hin) as (c & Hc). now apply has_class_object in Hc.
Qed.

Lemma step_store_field_reachable w r bc fr ups op c p name below temps x o s : reachable w s ->
  (op = OpStoreField \/ op = OpAssignField) -> nth_error (bc_constants bc) c = Some (CSymbol name) ->
  (exists k, has_class s (VObject o) k) -> fits below temps 2 ->
  exists h', step w r bc fr ups (IByte op c) p (with_stack below (x :: VObject o :: temps) s)
    = ROk (Continue p) (with_stack below (match op with OpStoreField => x | _ => VUnit end :: temps) (set_heap h' s)) /\
    forall o' name', field h' o' name' = if (Nat.eqb o' o && String.eqb name' name)%bool then Some x
                                         else field (vm_heap s) o' name'.
Proof.
  intros R Ho Ec (k & Hk) F. destruct (has_class_object _ _ _ Hk) as (ob & Eo & Nc). pose proof (reachable_inv w s R) as I.
  destruct (step_store_field w r bc fr ups op c p name below temps x o ob s Ho Ec I Eo F) as (h' & Eh & Es).
  exists h'. split; [exact Es|]. intros o' n'. apply (object_set_field_spec _ _ _ _ _ I Eh).
  intros c' k' E'. eapply has_class_not_static; eauto.
Qed.

Lemma steps_field_reachable w s s' o n : reachable w s -> vm_steps s s' -> (exists c, has_class s (VObject o) c) ->
  field (vm_heap s') o n = field (vm_heap s) o n \/
  exists s1 s2 x, vm_steps s s1 /\ object_set_field o n x (vm_heap s1) = Ok (vm_heap s2) /\ vm_steps s2 s'.
Proof.
  intros R H (c & Hc). destruct (has_class_object _ _ _ Hc) as (ob & Eo & Nc).
  eapply steps_field; eauto. now apply (reachable_inv_of w).
Qed.
