(** Functions of the runtime: machine against interpreter, given what calls do. *)
From Verif.Spec Require Import SupportSpec.
From Verif.Proofs Require Import StackP VmPrimP CallP ReachP CodeP MemP StepP ScopeSimP CallSimP.
#[local] Open Scope string_scope.
#[local] Open Scope list_scope.
#[local] Open Scope nat_scope.

(** ** The text of a value *)
(** The same text, unless the first is unknown. *)
Definition same_text {A} (x y : outcome A) : Prop := x = NoFuel \/ x = y.
Lemma st_refl {A} (x : outcome A) : same_text x x. Proof. now right. Qed.
Lemma st_bind {A B} (x y : outcome A) (f g : A -> outcome B) : same_text x y -> (forall a, same_text (f a) (g a)) -> same_text (obind x f) (obind y g).
Proof. intros [-> | ->] H; [now left|]. destruct y; cbn [obind]; auto using st_refl. Qed.
Lemma st_map {A B} (x y : outcome A) (f : A -> B) : same_text x y -> same_text (omap f x) (omap f y).
Proof. intros [-> | ->]; [now left|apply st_refl]. Qed.

Section Text.
Variables (nm nm' : nat -> outcome string) (ft : f64 -> string) (h : heap).
Hypothesis NM : forall a, same_text (nm a) (nm' a).
Lemma st_texts f g vs : (forall v, same_text (f v) (g v)) -> same_text (texts f vs) (texts g vs).
Proof.
  intros H. induction vs as [|v vs IH]; cbn [texts]; [apply st_refl|]. apply st_bind; [apply H|]. intros s. now apply st_map.
Qed.
Lemma st_fields f g (m : value_map) : (forall v, same_text (f v) (g v)) -> same_text (field_texts f m) (field_texts g m).
Proof.
  intros H. induction m as [|[k v] m IH]; cbn [field_texts]; [apply st_refl|]. apply st_bind; [apply H|]. intros s. now apply st_map.
Qed.
Lemma st_object f g o : (forall v, same_text (f v) (g v)) -> same_text (object_text h f o) (object_text h g o).
Proof.
  intros H. unfold object_text. apply st_bind; [apply st_refl|]. intros c. apply st_bind; [apply st_refl|]. intros k.
  apply st_bind; [apply st_refl|]. intros m. apply st_map. now apply st_fields.
Qed.
Lemma st_with f g : (forall v, same_text (f v) (g v)) -> forall v, same_text (text_with nm ft h f v) (text_with nm' ft h g v).
Proof.
  intros H. induction v; cbn [text_with]; try apply st_refl.
  - apply st_map. apply NM.
  - now apply st_map.
  - apply st_bind; [apply st_refl|]. intros vs. apply st_map. now apply st_texts.
  - now apply st_object.
  - apply st_bind; [apply st_refl|]. intros k. now apply st_object.
Qed.
Lemma st_value v : same_text (value_text nm ft h v) (value_text nm' ft h v).
Proof.
  unfold value_text. generalize (List.length (h_arrays h) + List.length (h_objects h)). intros d. revert v.
  induction d as [|d IH]; intros v; cbn [text_at]; apply st_with; auto using st_refl.
Qed.
End Text.

Section Native.
Variable w : world.
Variable lit : nat -> fn_bytecode.
Hypothesis W : natives_blind w.
Notation Inv := (Inv lit).
Notation good := (good lit).
Notation eventually f := (eventually w f).
Variable I : interp.
Hypothesis SC : sim_call w lit I.

Section Run.
Variables (F : rec -> res unit) (rho0 : names_of) (V : view) (b0 t : list value) (room : nat).
Hypothesis HR : List.length b0 + List.length t + room <= max_stack_size.
Hypothesis HL : 1 <= room.
Notation R := (gresult w lit F rho0 V b0 t).

(** The action has come as far as [g], in the state given by [m], [K] and [b]. *)
Definition comes (g : rec -> run unit) (rho : names_of) (b : list value) (m : memory) (K : links) : Prop :=
  (exists c, forall n, c <= n -> F (machine w n) = g (machine w n) (state m K b t)) /\ good (List.length b0) rho0 V b0 rho V b m K.
Lemma comes_eq g g' rho b m K : (forall r s, g r s = g' r s) -> comes g rho b m K -> comes g' rho b m K.
Proof. intros E ((c & H) & G). split; [|exact G]. exists c. intros n L. now rewrite <- E, H. Qed.
Lemma comes_len {g rho b m K} : comes g rho b m K -> List.length b = List.length b0.
Proof. intros (_ & [_ _ (L & _)]). exact L. Qed.

Lemma comes_end v rho b m K : comes (fun _ => push v) rho b m K -> R (AVal v m).
Proof.
  intros C. pose proof (comes_len C) as L. destruct C as ((c & H) & G). exists rho, b, K. split; [|exact G].
  exists c. intros n Ln. rewrite H by assumption. apply state_push. room.
Qed.
Lemma comes_vm {A} (p : run A) k rho b m K next : blind p -> comes (fun r => let* x := p in k r x) rho b m K ->
  (forall x m1, comes (fun r => k r x) rho b m1 K -> R (next x m1)) -> R (with_vm p m next).
Proof.
  intros B ((c & H) & [G1 G2 G3]) N. unfold rbind in H. rewrite (on_state p m K b t B) in H. unfold with_vm.
  destruct (p (m_vm m)) as [x s|e s| |]; cbn [gresult].
  - apply N. split; [exists c; exact H|]. split; auto. now apply Inv_vm.
  - exists (stack_with b t), K, c. exact H.
  - exists c. exact H.
  - exact Logic.I.
Qed.
Lemma comes_call f v k rho b m K next : comes (fun r => let* x := try_ok (call_function r f [v]) in k r x) rho b m K ->
  (forall y rho1 b1 m1 K1, comes (fun r => k r (Some y)) rho1 b1 m1 K1 -> R (next y m1)) ->
  R (called (i_call I room f [v] m) next).
Proof.
  intros C N. pose proof (comes_len C) as L. destruct C as ((c & H) & [G1 G2 G3]). destruct SC as [SC1 LOW].
  destruct (Nat.lt_ge_cases room (1 + List.length [v])) as [Q|Q]; [rewrite LOW by assumption; exact Logic.I|]. cbn [List.length] in Q.
  assert (HR1 : List.length b + List.length t + room <= max_stack_size) by lia.
  pose proof (SC1 room f [v] m rho V b K t G1 HR1 Q) as C1.
  assert (E : forall r, try_ok (call_function r f [v]) (state m K b t) =
     match r_call r 1 (state m K b (v :: f :: t)) with
     | ROk _ s => try_ok pop s | RErr _ s => ROk None s | RPanic => RPanic | RNoFuel => RNoFuel end).
  { intros r. unfold try_ok, call_function, rbind. rewrite state_push by room.
    unfold state at 1. rewrite push_multiple_ws by room. fold (state m K b (v :: f :: t)). cbn [rev app List.length].
    destruct (r_call r 1 _); reflexivity. }
  destruct (i_call I room f [v] m) as [y m1|m1|m1|y m1|m1|e m1| |]; cbn [called]; try exact Logic.I.
  - destruct C1 as (rho1 & b1 & K1 & (c1 & E1) & [A1 A2 A3]). apply (N y rho1 b1 m1 K1). split.
    + exists (Nat.max c c1). intros n Ln. rewrite H by lia. unfold rbind. rewrite E. cbn [List.length rev app] in E1. rewrite E1 by lia.
      unfold try_ok. rewrite state_pop; [reflexivity|]. destruct A3 as [A3 _]. room.
    + split; auto; [eauto using ext_trans|]. eapply keep_trans; [exact G3|]. now rewrite <- L.
  - destruct C1 as (c1 & E1). exists (Nat.max c c1). intros n Ln. rewrite H by lia. unfold rbind. rewrite E. cbn [List.length rev app] in E1. now rewrite E1 by lia.
Qed.

Lemma comes_map f vs : forall k rho b m K next, comes (fun r => let* l := map_elements r f vs in k r l) rho b m K ->
  (forall ys rho1 b1 m1 K1, comes (fun r => k r ys) rho1 b1 m1 K1 -> R (next ys m1)) ->
  R (call_each I room f vs m next).
Proof.
  induction vs as [|v vs IH]; intros k rho b m K next C N; cbn [call_each].
  - apply (N [] rho b m K). eapply comes_eq; [|exact C]. reflexivity.
  - cbn [map_elements] in C. eapply comes_call.
    + eapply comes_eq; [|exact C]. intros r s. apply rbind_assoc.
    + intros y rho1 b1 m1 K1 C1. eapply (IH (fun r l => k r (y :: l))).
      * eapply comes_eq; [|exact C1]. intros r s. cbv beta. rewrite rbind_assoc. reflexivity.
      * intros ys rho2 b2 m2 K2 C2. apply (N _ rho2 b2 m2 K2). eapply comes_eq; [|exact C2]. reflexivity.
Qed.
Lemma comes_filter f vs : forall k rho b m K next, comes (fun r => let* l := filter_elements r f vs in k r l) rho b m K ->
  (forall ys rho1 b1 m1 K1, comes (fun r => k r (kept vs ys)) rho1 b1 m1 K1 -> R (next ys m1)) ->
  R (call_each I room f vs m next).
Proof.
  induction vs as [|v vs IH]; intros k rho b m K next C N; cbn [call_each].
  - apply (N [] rho b m K). eapply comes_eq; [|exact C]. reflexivity.
  - cbn [filter_elements] in C. unfold call_predicate in C. eapply comes_call.
    + eapply comes_eq; [|exact C]. intros r s. cbv beta. rewrite rbind_assoc. apply rbind_assoc.
    + intros y rho1 b1 m1 K1 C1. 
      set (k1 := fun (r : rec) (l : list value) => k r (match y with VBool true => v :: l | _ => l end)).
      eapply (IH k1).
      * eapply comes_eq; [|exact C1]. intros r s. unfold k1. cbv beta. destruct y as [| |[]| | | | | | | | | | |]; unfold rbind, rret; destruct (filter_elements r f vs s); reflexivity.
      * intros ys rho2 b2 m2 K2 C2. apply (N _ rho2 b2 m2 K2). eapply comes_eq; [|exact C2]. intros r s. unfold k1.
        destruct y as [| |[]| | | | | | | | | | |]; reflexivity.
Qed.
Lemma comes_find f vs : forall k rho b m K next, comes (fun r => let* l := find_elements r f vs in k r l) rho b m K ->
  (forall v rho1 b1 m1 K1, comes (fun r => k r v) rho1 b1 m1 K1 -> R (next v m1)) ->
  R (call_until I room f vs m next).
Proof.
  induction vs as [|v vs IH]; intros k rho b m K next C N; cbn [call_until].
  - apply (N VNull rho b m K). eapply comes_eq; [|exact C]. reflexivity.
  - cbn [find_elements] in C. unfold call_predicate in C. eapply comes_call.
    + eapply comes_eq; [|exact C]. intros r s. cbv beta. rewrite rbind_assoc. apply rbind_assoc.
    + intros y rho1 b1 m1 K1 C1.
      assert (NO : comes (fun r => let* l := find_elements r f vs in k r l) rho1 b1 m1 K1 -> R (call_until I room f vs m1 next)).
      { intros C2. eapply IH; [exact C2|exact N]. }
      destruct y as [| |[]| | | | | | | | | | |]; try (apply NO; eapply comes_eq; [|exact C1]; reflexivity).
      apply (N v rho1 b1 m1 K1). eapply comes_eq; [|exact C1]. reflexivity.
Qed.
Lemma comes_reading {A} a (act : rec -> list value -> run A) (go : list value -> memory -> (A -> memory -> answer) -> answer) k rho b m K next :
  (forall vs k rho b m K next, comes (fun r => let* l := act r vs in k r l) rho b m K ->
     (forall x rho1 b1 m1 K1, comes (fun r => k r x) rho1 b1 m1 K1 -> R (next x m1)) -> R (go vs m next)) ->
  comes (fun r => let* x := with_elements a (act r) in k r x) rho b m K ->
  (forall x rho1 b1 m1 K1, comes (fun r => k r x) rho1 b1 m1 K1 -> R (next x m1)) -> R (reading a go m next).
Proof.
  intros HA C N. unfold reading. eapply comes_vm; [apply blind_upd_; intros K' h; unfold array_set_borrows; cbn; destruct (nth_error _ a); reflexivity| |].
  - eapply comes_eq; [|exact C]. intros r s. unfold with_elements. apply rbind_assoc.
  - intros u m1 C1. eapply comes_vm; [apply blind_get; intros K' h; reflexivity| |].
    + eapply comes_eq; [|exact C1]. intros r s. cbv beta. apply rbind_assoc.
    + intros vs m2 C2. eapply HA.
      * eapply comes_eq; [|exact C2]. intros r s. cbv beta. apply rbind_assoc.
      * intros x rho3 b3 m3 K3 C3. eapply comes_vm; [apply blind_upd_; intros K' h; unfold array_set_borrows; cbn; destruct (nth_error _ a); reflexivity| |].
        -- eapply comes_eq; [|exact C3]. intros r s. cbv beta. apply rbind_assoc.
        -- intros u4 m4 C4. eapply N. eapply comes_eq; [|exact C4]. reflexivity.
Qed.

Lemma host_fn_comes n args rho b m K : comes (fun r => let* v := call_native w r n args in push v) rho b m K ->
  R (host_fn w lit I room n args m).
Proof.
  intros C.
  assert (PLAIN : calls_back n args = false -> shown n args = None -> R (with_vm (call_native w no_calls n args) m AVal)).
  { intros CB SH. eapply (comes_vm _ (fun _ v => push v)); [apply blind_call_native; auto| |].
    - eapply comes_eq; [|exact C]. intros r s. cbv beta. now rewrite (native_no_calls w n args r no_calls CB).
    - intros v m1 C1. eapply comes_end; exact C1. }
  assert (TEXT : forall v, shown n args = Some v ->
    R (of_outcome (omap VString (value_text (closure_named lit m) (float_text w) (vm_heap (m_vm m)) v)) m)).
  { intros v SH. pose proof (comes_len C) as L. destruct C as ((c & H) & G).
    assert (T : forall r, call_native w r n args (state m K b t) =
       match value_text (closure_name (vm_heap (state m K b t))) (float_text w) (vm_heap (m_vm m)) v with
       | Ok x => ROk (VString x) (state m K b t) | Err e => RErr e (state m K b t) | Panic => RPanic | NoFuel => RNoFuel end).
    { intros r. destruct n; cbn [shown] in SH; try discriminate SH; destruct args as [|v0 args]; try discriminate SH;
        [injection SH as ->|destruct args as [|v1 args]; [discriminate SH|injection SH as ->]];
        cbn [call_native]; unfold to_text, rbind, heap_get;
        change (value_text (closure_name (vm_heap (state m K b t))) (float_text w) (vm_heap (state m K b t)) v)
          with (value_text (closure_name (vm_heap (state m K b t))) (float_text w) (vm_heap (m_vm m)) v);
        destruct (value_text _ _ _ v); reflexivity. }
    assert (S : same_text (value_text (closure_named lit m) (float_text w) (vm_heap (m_vm m)) v)
                          (value_text (closure_name (vm_heap (state m K b t))) (float_text w) (vm_heap (m_vm m)) v)).
    { apply st_value. intros a. unfold closure_named. destruct (nth_error (m_closures m) a) as [[cl|]|] eqn:EC; try now left.
      destruct (i_closures _ _ _ _ _ _ (gd_inv _ _ _ _ _ _ _ _ _ _ G) _ _ EC) as (U & outer & uds & E1 & _). right.
      unfold closure_name. change (h_closures (vm_heap (state m K b t))) with (k_closures K). now rewrite E1. }
    destruct S as [-> | ->]; [exact Logic.I|].
    destruct (value_text _ _ _ v) as [x|e| |]; cbn [omap of_outcome gresult].
    - exists rho, b, K. split; [|exact G]. exists c. intros k Lk. rewrite H by assumption. unfold rbind. rewrite T. apply state_push. room.
    - exists (stack_with b t), K, c. intros k Lk. rewrite H by assumption. unfold rbind. now rewrite T.
    - exists c. intros k Lk. rewrite H by assumption. unfold rbind. now rewrite T.
    - exact Logic.I. }
  assert (REST : calls_back n args = false -> R match shown n args with
      | Some v => of_outcome (omap VString (value_text (closure_named lit m) (float_text w) (vm_heap (m_vm m)) v)) m
      | None => with_vm (call_native w no_calls n args) m AVal end).
  { intros CB. destruct (shown n args) as [v|] eqn:SH; [now apply TEXT|now apply PLAIN]. }
  unfold host_fn. destruct n; try (apply REST; reflexivity); destruct args as [|v [|f args]]; try (apply REST; reflexivity);
    destruct v; try (apply REST; reflexivity); cbn [call_native] in C.
  - eapply (comes_reading addr (fun r => find_elements r f)); [intros; eapply comes_find; eauto|exact C|].
    intros. eapply comes_end; eauto.
  - eapply (comes_reading addr (fun r => filter_elements r f)).
    + intros. eapply comes_filter; eauto. 
    + eapply comes_eq; [|exact C]. intros. apply rbind_assoc.
    + intros x rho1 b1 m1 K1 C1. eapply comes_vm; [apply blind_new_array|exact C1|]. intros. eapply comes_end; eauto.
  - eapply (comes_reading addr (fun r => map_elements r f)).
    + intros. eapply comes_map; eauto. 
    + eapply comes_eq; [|exact C]. intros. apply rbind_assoc.
    + intros x rho1 b1 m1 K1 C1. eapply comes_vm; [apply blind_new_array|exact C1|]. intros. eapply comes_end; eauto.
Qed.
End Run.

Lemma call_native_sim rho V b m K t room n receiver callee args :
  Inv rho V b m K -> List.length b + List.length t + room <= max_stack_size -> 1 + List.length args <= room ->
  callee = (match receiver with Some v => VFnBound v (VFnNative n) | None => VFnNative n end) ->
  cresult w lit rho V b m K t callee args (host_fn w lit I room n (match receiver with Some v => v | None => callee end :: args) m).
Proof.
  intros HI R L EC. set (slot0 := match receiver with Some v => v | None => callee end) in *.
  unfold cresult. eapply gresult_call; [reflexivity|]. eapply (host_fn_comes _ rho V b t room R); [lia|]. split; [|split; [exact HI|apply ext_refl|apply keep_refl]].
  exists 0. intros k _. cbv beta. set (r := machine w k). unfold call_fn. unfold rbind at 1. unfold state at 1.
  rewrite (peek_callee b args callee t). fold (state m K b (rev args ++ callee :: t)).
  assert (PC : pop_count (List.length args + 1) (state m K b (rev args ++ callee :: t)) = ROk (callee :: args) (state m K b t)).
  { replace (rev args ++ callee :: t) with ((rev args ++ [callee]) ++ t) by (rewrite <- app_assoc; reflexivity).
    rewrite state_pop_count; [|rewrite app_length, rev_length; cbn; lia|room]. rewrite rev_app_distr, rev_involutive. reflexivity. }
  destruct receiver as [rv|]; subst callee slot0; unfold call_fn_native;
    rewrite rbind_assoc; unfold rbind at 1; rewrite PC; reflexivity.
Qed.
End Native.
