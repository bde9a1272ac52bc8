(** Variables, annotations, functions and calls: code against interpreter. *)
From Verif.Spec Require Import SupportSpec.
From Verif.Proofs Require Import StackP VmPrimP CallP SharingP ReachP CodeP MemP StepP.
#[local] Open Scope string_scope.
#[local] Open Scope list_scope.
#[local] Open Scope nat_scope.

Lemma set_ws i v b t s : i < List.length b -> fits b t 0 ->
  on_stack_ (stack_set i v) (with_stack b t s) = ROk tt (with_stack (set_nth b i v) t s).
Proof.
  intros L F. unfold fits in F. unfold on_stack_, on_stack, with_stack, set_stack. cbn [vm_stack]. rewrite !stack_with_canon.
  rewrite (set_canon VNull max_stack_size) by (rewrite ?cells_len; lia). cbn [omap].
  rewrite set_nth_app_l by lia. reflexivity.
Qed.
Lemma get_ws i v b t s : nth_error b i = Some v -> stack_get i (vm_stack (with_stack b t s)) = Ok v.
Proof.
  intros E. unfold stack_get, with_stack, set_stack. cbn [vm_stack stack_with st_vals].
  assert (i < List.length b) by (apply nth_error_Some; congruence).
  rewrite nth_error_app1 by (rewrite cells_len; lia). rewrite nth_error_app1 by lia. now rewrite E.
Qed.

Fixpoint locals (base : nat) (V : view) (vs : vars) (E : env) : Prop :=
  match vs, E with
  | [], [] => True
  | (x, fl) :: r, (y, l) :: E' => x = y /\ V (base + List.length r) = Some (l, fl) /\ locals base V r E'
  | _, _ => False
  end.
Lemma locals_lookup base V : forall vs E x, locals base V vs E ->
  match lookup x vs with
  | Some (j, fl) => exists l, assoc_get x E = Some l /\ V (base + j) = Some (l, fl) /\ j < List.length vs
  | None => assoc_get x E = None
  end.
Proof.
  induction vs as [|[y fl] vs IH]; intros [|[z l] E] x H; cbn in H; try contradiction; [reflexivity|].
  destruct H as (-> & H1 & H2). cbn [lookup assoc_get]. destruct (String.eqb x z) eqn:Ex.
  - exists l. cbn [List.length]. auto.
  - specialize (IH E x H2). destruct (lookup x vs) as [[j f]|]; auto. destruct IH as (l' & A & B & C). exists l'. cbn [List.length]. auto.
Qed.
Lemma locals_ext base V V' vs : forall E, (forall i, base <= i < base + List.length vs -> V' i = V i) -> locals base V vs E -> locals base V' vs E.
Proof.
  induction vs as [|[y fl] vs IH]; intros [|[z l] E] X H; cbn in H |- *; try contradiction; auto.
  destruct H as (-> & H1 & H2). split; [reflexivity|]. split.
  - rewrite X; auto. cbn [List.length]. lia.
  - apply IH; auto. intros i Hi. apply X. cbn [List.length]. lia.
Qed.
Lemma locals_app base V : forall vs vs' E, locals base V (vs ++ vs') E -> exists E1 E2, E = E1 ++ E2 /\ List.length E1 = List.length vs /\ locals base V vs' E2.
Proof.
  induction vs as [|[y fl] vs IH]; intros vs' E H.
  - exists [], E. auto.
  - destruct E as [|[z l] E]; cbn in H; [contradiction|]. destruct H as (-> & H1 & H2).
    destruct (IH _ _ H2) as (E1 & E2 & -> & L & H3). exists ((z, l) :: E1), E2. cbn. auto.
Qed.
Lemma locals_nth base V : forall vs E j x fl, locals base V vs E -> nth_error (rev vs) j = Some (x, fl) ->
  exists l, V (base + j) = Some (l, fl).
Proof.
  induction vs as [|[y f] vs IH]; intros [|[z l] E] j x fl H N; cbn in H; try contradiction; [destruct j; discriminate|].
  destruct H as (-> & H1 & H2). cbn [rev] in N.
  destruct (Nat.lt_ge_cases j (List.length (rev vs))) as [L|L].
  - rewrite nth_error_app1 in N by assumption. eapply IH; eauto.
  - rewrite nth_error_app2 in N by assumption. rewrite rev_length in *. destruct (j - List.length vs) as [|k] eqn:Ek; [|destruct k; discriminate].
    cbn in N. injection N as <- <-. replace j with (List.length vs) by lia. eauto.
Qed.
Lemma locals_some base V : forall vs E i, locals base V vs E -> base <= i < base + List.length vs -> V i <> None.
Proof.
  induction vs as [|[y f] vs IH]; intros [|[z l] E] i H L; cbn in H; try contradiction; cbn [List.length] in L; try lia.
  destruct H as (-> & H1 & H2). destruct (Nat.eq_dec i (base + List.length vs)) as [->|N]; [congruence|].
  eapply IH; eauto. lia.
Qed.

Definition upv (ups : option (list nat)) : list nat := match ups with Some U => U | None => [] end.

Record scope_ok (G : ctx) (fr : frame) (ups : option (list nat)) (rho : names_of) (V : view) (E : env) : Prop := {
  sc_env : exists El Eo, E = El ++ Eo /\ locals (fr_start fr) V (g_vars G) El /\ captured rho Eo (g_outer G) (g_ups G) (upv ups);
  sc_free : forall i, fr_start fr + List.length (g_vars G) <= i -> V i = None;
  sc_slots : fr_start fr + bc_slot_count (g_bc G) <= fr_end fr;
  sc_vars : List.length (g_vars G) <= bc_slot_count (g_bc G) }.

Lemma scope_ext G fr ups rho rho' V E : ext rho rho' -> scope_ok G fr ups rho V E -> scope_ok G fr ups rho' V E.
Proof. intros X [(El & Eo & A & B & C) D F H]. split; auto. exists El, Eo. repeat split; auto; eapply captured_ext; eauto. Qed.
Lemma scope_ctx G G' fr ups rho V E : scope_ok G fr ups rho V E ->
  g_vars G' = g_vars G -> g_ups G' = g_ups G -> g_outer G' = g_outer G -> g_bc G' = g_bc G -> scope_ok G' fr ups rho V E.
Proof. intros [A B C D] E1 E2 E3 E4. split; rewrite ?E1, ?E2, ?E3, ?E4; auto. Qed.
Lemma scope_view G fr ups rho V V' E : (forall i, V' i = V i) -> scope_ok G fr ups rho V E -> scope_ok G fr ups rho V' E.
Proof.
  intros X [(El & Eo & A & B & C) D F H]. split; auto.
  - exists El, Eo. repeat split; auto; try apply C. eapply locals_ext; eauto.
  - intros i Hi. rewrite X. auto.
Qed.

Definition keep (n : nat) (V : view) (b b' : list value) : Prop :=
  List.length b' = List.length b /\ forall i, i < n -> V i = None -> nth_error b' i = nth_error b i.
Lemma keep_refl n V b : keep n V b b. Proof. split; auto. Qed.
Lemma keep_trans n V b b' b'' : keep n V b b' -> keep n V b' b'' -> keep n V b b''.
Proof. intros (A & B) (C & D). split; [congruence|]. intros i L N. rewrite D by auto. auto. Qed.
Lemma keep_le n n' V b b' : keep n V b b' -> n' <= n -> keep n' V b b'.
Proof. intros (A & B) L. split; auto. intros. apply B; auto. lia. Qed.
Lemma keep_view n V V' b b' : keep n V b b' -> (forall i, i < n -> V' i = V i) -> keep n V' b b'.
Proof. intros (A & B) X. split; auto. intros i L N. apply B; auto. rewrite <- X; auto. Qed.
Lemma keep_set n V b i v : (i < n -> V i <> None) -> keep n V b (set_nth b i v).
Proof.
  intros H. split; [apply set_nth_len|]. intros j L N. apply nth_error_set_nth_neq. intros ->. apply H; auto.
Qed.

Section Sim.
Variable w : world.
Variable lit : nat -> fn_bytecode.
Notation Inv := (Inv lit).

Record good (n : nat) (rho : names_of) (V : view) (b : list value) (rho' : names_of) (V' : view) (b' : list value) (m' : memory) (K' : links) : Prop := {
  gd_inv : Inv rho' V' b' m' K';
  gd_ext : ext rho rho';
  gd_keep : keep n V b b' }.

(** Answers that are not values. *)
Record sound (P : answer -> Prop) (bc : bytecode) (fr : frame) (ups : option (list nat)) (p : nat) (s : vm) : Prop := {
  so_fail : forall e m', fails w bc fr ups p s e (m_vm m') -> P (AFail e m');
  so_crash : leads w bc fr ups p s Crashed -> P ACrash;
  so_unknown : P AUnknown }.
Lemma sound_from P bc fr ups p s p1 s1 : leads w bc fr ups p s (At p1 s1) -> sound P bc fr ups p s -> sound P bc fr ups p1 s1.
Proof.
  intros L [A B C]. split; auto.
  - intros e m' H. apply A. eapply fails_from; eauto.
  - intros H. apply B. eapply leads_trans; eauto.
Qed.
Lemma with_vm_sim {A} (P : answer -> Prop) bc fr ups p s q (f : run A) m fin next :
  stores w bc fr ups (f (m_vm m)) p s q fin -> sound P bc fr ups p s ->
  (forall a s', leads w bc fr ups p s (At q (fin a s')) -> P (next a (set_vm s' m))) -> P (with_vm f m next).
Proof.
  intros H S N. unfold with_vm. destruct (f (m_vm m)) as [a s'|e s'| |]; cbn [stores] in H.
  - apply N. exact H.
  - apply (so_fail _ _ _ _ _ _ S). exact H.
  - apply (so_crash _ _ _ _ _ _ S). exact H.
  - apply (so_unknown _ _ _ _ _ _ S).
Qed.

Definition same (m m' : memory) : Prop := exists s, m' = set_vm s m.
Lemma same_refl m : same m m. Proof. exists (m_vm m). destruct m. reflexivity. Qed.
Lemma same_inv rho V b m m' K : same m m' -> Inv rho V b m K -> Inv rho V b m' K.
Proof. intros (s & ->). apply Inv_vm. Qed.
Lemma same_cells m m' : same m m' -> m_cells m' = m_cells m.
Proof. intros (s & ->). reflexivity. Qed.
Lemma same_trans a b c : same a b -> same b c -> same a c.
Proof. intros (s & ->) (s' & ->). exists s'. reflexivity. Qed.
Lemma set_same m s : same m (set_vm s m). Proof. exists s. reflexivity. Qed.

Section Frame.
Variables (fr : frame) (ups : option (list nat)).

Lemma load_sim (P : answer -> Prop) G rho V E b m K t x p q next :
  scope_ok G fr ups rho V E -> Inv rho V b m K -> fr_end fr <= List.length b -> loads G x p q -> fits b t 1 ->
  sound P (g_bc G) fr ups p (state m K b t) ->
  (forall v, leads w (g_bc G) fr ups p (state m K b t) (At q (state m K b (v :: t))) -> P (next v m)) ->
  P (vbind (load E x m) next).
Proof.
  intros [(El & Eo & -> & HL & HC) SF SS SV] I LE HA F S N. unfold loads in HA. pose proof (locals_lookup _ _ _ _ x HL) as HX.
  unfold load. destruct (lookup x (g_vars G)) as [[j fl]|].
  - destruct HX as (l & A1 & A2 & A3).
    assert (A4 : assoc_get x (El ++ Eo) = Some l).
    { clear -A1. induction El as [|[y n] El IH]; [discriminate|]. cbn [assoc_get app] in *. destruct (String.eqb x y); auto. }
    rewrite A4. destruct (nth_error (m_cells m) l) as [[v|]|] eqn:Ec; try apply (so_unknown _ _ _ _ _ _ S).
    cbn [vbind]. apply N. eapply lead_load_local; eauto; [lia|]. eapply i_val; eauto.
  - assert (A4 : assoc_get x (El ++ Eo) = assoc_get x Eo).
    { clear -HX. induction El as [|[y n] El IH]; [reflexivity|]. cbn [assoc_get app] in *. destruct (String.eqb x y); [discriminate|auto]. }
    rewrite A4. destruct HA as [(i & R & A)|(Hi & A)].
    + destruct (cp_reach _ _ _ _ _ HC _ _ R) as (l & u & B1 & B2 & B3). rewrite B1.
      destruct (nth_error (m_cells m) l) as [[v|]|] eqn:Ec; try apply (so_unknown _ _ _ _ _ _ S).
      cbn [vbind]. apply N. destruct ups as [U|]; [|destruct i; discriminate]. cbn [upv] in B2.
      eapply lead_ok; [exact A|]. intros r. cbn [step]. unfold load_upvalue, rbind, upvalue_at. rewrite B2. unfold rret at 1.
      unfold heap_get, upvalue_state_of. change (h_upvalues (vm_heap (state m K b t))) with (k_upvalues K).
      destruct (nth_error (k_upvalues K) u) as [[slot|y]|] eqn:Eu.
      * cbn [VM.lift]. destruct (i_slot _ _ _ _ _ _ I _ _ _ B3 Eu) as (_ & Vs).
        unfold state at 1. rewrite (get_ws slot v) by (eapply i_val; eauto). cbn [VM.lift]. fold (state m K b t). rewrite state_push by assumption. reflexivity.
      * cbn [VM.lift]. destruct (i_closed _ _ _ _ _ _ I _ _ _ B3 Eu) as (_ & Vs). rewrite (Vs v Ec). rewrite state_push by assumption. reflexivity.
      * apply nth_error_None in Eu. assert (u < List.length rho) by (apply nth_error_Some; unfold MemP.names in B3; congruence).
        rewrite (i_len _ _ _ _ _ _ I) in H. lia.
    + rewrite (cp_hidden _ _ _ _ _ HC _ Hi). pose proof (lead_load_global w (g_bc G) fr ups x p q m K b t A F) as H.
      destruct (assoc_get x (vm_globals (m_vm m))) as [v|]; cbn [vbind]; [auto|]. apply (so_fail _ _ _ _ _ _ S). exact H.
Qed.

Lemma store_sim (P : answer -> Prop) G rho V E b m K t x v p q next :
  scope_ok G fr ups rho V E -> Inv rho V b m K -> fr_end fr <= List.length b -> assigns G x p q -> fits b t 1 ->
  sound P (g_bc G) fr ups p (state m K b (v :: t)) ->
  (forall m' b' K', leads w (g_bc G) fr ups p (state m K b (v :: t)) (At q (state m' K' b' (VUnit :: t))) ->
     Inv rho V b' m' K' -> (forall n, keep n V b b') -> P (next VUnit m')) ->
  P (vbind (store E x v m) next).
Proof.
  intros [(El & Eo & -> & HL & HC) SF SS SV] I LE HA F S N. unfold assigns in HA. pose proof (locals_lookup _ _ _ _ x HL) as HX.
  unfold store. destruct (lookup x (g_vars G)) as [[j fl]|].
  - destruct HX as (l & A1 & A2 & A3).
    assert (A4 : assoc_get x (El ++ Eo) = Some l).
    { clear -A1. induction El as [|[y n] El IH]; [discriminate|]. cbn [assoc_get app] in *. destruct (String.eqb x y); auto. }
    rewrite A4. cbn [vbind]. apply (N _ (set_nth b (fr_start fr + j) v) K).
    + apply (lead_write_local w (g_bc G) fr ups true j v p q m K b t HA); auto. lia.
    + eapply Inv_write; eauto.
    + intros n. apply keep_set. congruence.
  - assert (A4 : assoc_get x (El ++ Eo) = assoc_get x Eo).
    { clear -HX. induction El as [|[y n] El IH]; [reflexivity|]. cbn [assoc_get app] in *. destruct (String.eqb x y); [discriminate|auto]. }
    rewrite A4. destruct HA as (i & R & A).
    destruct (cp_reach _ _ _ _ _ HC _ _ R) as (l & u & B1 & B2 & B3). rewrite B1. cbn [vbind].
    destruct ups as [U|]; [|destruct i; discriminate]. cbn [upv] in B2.
    destruct (nth_error (k_upvalues K) u) as [[slot|y]|] eqn:Eu.
    * destruct (i_slot _ _ _ _ _ _ I _ _ _ B3 Eu) as (_ & Vs). destruct (i_bound _ _ _ _ _ _ I _ _ _ Vs) as (Lb & _).
      apply (N _ (set_nth b slot v) K).
      -- eapply lead_ok; [exact A|]. intros r. cbn [step]. unfold rbind, upvalue_at. rewrite B2. unfold rret at 1. rewrite state_pop by assumption.
         unfold write_upvalue, rbind, heap_get, upvalue_state_of. change (h_upvalues (vm_heap (state m K b t))) with (k_upvalues K). rewrite Eu. cbn [VM.lift].
         unfold state at 1. rewrite set_ws by (auto; room). fold (state m K (set_nth b slot v) t). rewrite state_push by room. reflexivity.
      -- eapply Inv_write; eauto.
      -- intros n. apply keep_set. congruence.
    * assert (Lu : u < List.length (k_upvalues K)) by (apply nth_error_Some; congruence).
      apply (N _ b (Links (k_closures K) (set_nth (k_upvalues K) u (Closed v)) (k_open K))).
      -- eapply lead_ok; [exact A|]. intros r. cbn [step]. unfold rbind, upvalue_at. rewrite B2. unfold rret at 1. rewrite state_pop by assumption.
         unfold write_upvalue, rbind, heap_get, upvalue_state_of. change (h_upvalues (vm_heap (state m K b t))) with (k_upvalues K). rewrite Eu. cbn [VM.lift].
         unfold heap_upd_, heap_upd, upvalue_write. change (h_upvalues (vm_heap (state m K b t))) with (k_upvalues K).
         destruct (Nat.ltb_spec u (List.length (k_upvalues K))); [|lia]. cbn [omap].
         change (set_heap (hset_upvalues (set_nth (k_upvalues K) u (Closed v)) (vm_heap (state m K b t))) (state m K b t))
           with (state (write l v m) (Links (k_closures K) (set_nth (k_upvalues K) u (Closed v)) (k_open K)) b t).
         rewrite state_push by assumption. reflexivity.
      -- eapply Inv_write_closed; eauto.
      -- intros n. apply keep_refl.
    * apply nth_error_None in Eu. assert (u < List.length rho) by (apply nth_error_Some; unfold MemP.names in B3; congruence).
      rewrite (i_len _ _ _ _ _ _ I) in H. lia.
Qed.

Lemma check_sim (P : answer -> Prop) G rho V E b m K t ty slot v p q next :
  scope_ok G fr ups rho V E -> Inv rho V b m K -> fr_end fr <= List.length b -> checks G ty slot p q -> fits b t 1 ->
  slot < bc_slot_count (g_bc G) -> nth_error b (fr_start fr + slot) = Some v ->
  sound P (g_bc G) fr ups p (state m K b t) ->
  (forall m', leads w (g_bc G) fr ups p (state m K b t) (At q (state m' K b t)) -> same m m' -> P (next m')) ->
  P (check E ty v m next).
Proof.
  intros SC I LE HA F LS Eb S N. unfold checks in HA. unfold check. destruct ty as [ty|].
  - destruct HA as (p1 & A & B). eapply load_sim; eauto. intros c L1.
    pose proof (lead_assert_local w (g_bc G) fr ups (ta_nullable ty) slot c v p1 q m K b t B) as H.
    eapply (with_vm_sim P _ _ _ p1); [apply H; auto; destruct SC; lia|eapply sound_from; eauto|].
    intros u s' L2. apply N; [eapply leads_trans; eauto|apply set_same].
  - subst q. apply N; [apply leads_refl|apply same_refl].
Qed.
Lemma rets_sim (P : answer -> Prop) G rho V E b m K v ro p q next :
  scope_ok G fr ups rho V E -> Inv rho V b m K -> fr_end fr <= List.length b -> g_fn G = Some ro -> rets G p q -> fits b [] 2 ->
  sound P (g_bc G) fr ups p (state m K b [v]) ->
  (forall m', leads w (g_bc G) fr ups p (state m K b [v]) (Done (state m' K b [v])) -> same m m' -> P (next m')) ->
  P (match ro with Returning ty => check E ty v m next | Constructing => next m end).
Proof.
  intros SC I LE EF HA F S N. unfold rets in HA. rewrite EF in HA. unfold check. destruct ro as [[ty|]|].
  - destruct HA as (p1 & A & B). eapply load_sim; eauto; [room|]. intros c L1.
    pose proof (lead_assert_return w (g_bc G) fr ups (ta_nullable ty) c v p1 q m K b B F) as H.
    unfold with_vm. destruct (assert_is (ta_nullable ty) c v (m_vm m)) as [[] s'|e s'| |].
    + apply N; [eapply leads_trans; eauto|apply set_same].
    + apply (so_fail _ _ _ _ _ _ S). eapply fails_from; eauto.
    + apply (so_crash _ _ _ _ _ _ S). eapply leads_trans; eauto.
    + apply (so_unknown _ _ _ _ _ _ S).
  - apply N; [|apply same_refl]. eapply lead_return; eauto.
  - apply N; [|apply same_refl]. eapply lead_return; eauto.
Qed.

(** Closing captured variables. *)
Lemma close_sim bc rho V b m K t j l p q : Inv rho V b m K -> at_ bc p (IByte OpCloseUpvalue j) q ->
  V (fr_start fr + j) = Some (l, true) -> fr_start fr + j < fr_end fr -> fr_end fr <= List.length b -> fits b t 0 ->
  exists K', leads w bc fr ups p (state m K b t) (At q (state m K' (set_nth b (fr_start fr + j) VNull) t)) /\
    Inv rho (drop (fr_start fr + j) V) (set_nth b (fr_start fr + j) VNull) m K'.
Proof.
  intros I A Vi L1 L2 F. set (i := fr_start fr + j) in *.
  assert (Hv : exists v, nth_error b i = Some v). { destruct (nth_error b i) eqn:Eb; eauto. apply nth_error_None in Eb. lia. }
  destruct Hv as (v & Hv).
  destruct (find_inv lit rho V b m K (state m K (set_nth b i VNull) t) i l I Vi eq_refl) as (res & E1 & P).
  assert (ST : forall r, step w r bc fr ups (IByte OpCloseUpvalue j) (Z.of_nat q) (state m K b t) =
     ((let* found := find_open_upvalue i in
      match found with
      | Some (index, u) =>
          (fun s => ROk tt (set_open (remove_nth index (vm_open s)) s)) >>>
          heap_upd_ (upvalue_write u (Closed v))
      | None => rret tt
      end) >>> rret (Continue (Z.of_nat q))) (state m K (set_nth b i VNull) t)).
  { intros r. cbn [step]. unfold close_upvalue. rewrite rbind_assoc. unfold rbind at 1. unfold state at 1. rewrite (frame_get_ws fr j b t v) by auto.
    rewrite rbind_assoc. unfold rbind at 1. rewrite frame_set_ws by auto. reflexivity. }
  destruct res as [[k u]|].
  - destruct P as (P1 & P2 & P3).
    assert (Lu : u < List.length (k_upvalues K)) by (apply nth_error_Some; congruence).
    exists (Links (k_closures K) (set_nth (k_upvalues K) u (Closed v)) (remove_nth k (k_open K))). split.
    + eapply lead_ok; [exact A|]. intros r. rewrite ST. rewrite rbind_assoc. unfold rbind at 1. unfold find_open_upvalue at 1.
      change (vm_open (state m K (set_nth b i VNull) t)) with (k_open K). rewrite E1. cbn [VM.lift].
      unfold rbind, heap_upd_, heap_upd, upvalue_write. cbn [vm_heap set_open]. change (h_upvalues (vm_heap (state m K (set_nth b i VNull) t))) with (k_upvalues K).
      destruct (Nat.ltb_spec u (List.length (k_upvalues K))); [|lia]. cbn [omap]. reflexivity.
    + eapply Inv_close_some; eauto.
  - exists K. split.
    + eapply lead_ok; [exact A|]. intros r. rewrite ST. rewrite rbind_assoc. unfold rbind at 1. unfold find_open_upvalue at 1.
      change (vm_open (state m K (set_nth b i VNull) t)) with (k_open K). rewrite E1. cbn [VM.lift]. reflexivity.
    + eapply Inv_close_none; eauto.
Qed.

Lemma closes_list bc rho m t : forall js V b K p q, Inv rho V b m K -> closes bc js p q -> NoDup js ->
  (forall j, In j js -> exists l, V (fr_start fr + j) = Some (l, true) /\ fr_start fr + j < fr_end fr) ->
  fr_end fr <= List.length b -> fits b t 0 ->
  exists V' b' K', leads w bc fr ups p (state m K b t) (At q (state m K' b' t)) /\ Inv rho V' b' m K' /\
    List.length b' = List.length b /\
    (forall i, V' i = V i \/ V' i = None /\ exists j, In j js /\ i = fr_start fr + j) /\
    (forall j, In j js -> V' (fr_start fr + j) = None) /\
    (forall i, nth_error b' i = nth_error b i \/ exists j, In j js /\ i = fr_start fr + j).
Proof.
  induction js as [|j js IH]; intros V b K p q I C ND HV LE F.
  - cbn in C. subst q. exists V, b, K. split; [apply leads_refl|]. split; [assumption|]. repeat split; auto. intros j [].
  - cbn [closes] in C. destruct C as (p1 & A & C). inversion_clear ND as [|? ? NI ND'].
    destruct (HV j) as (l & Vj & Lj); [now left|].
    destruct (close_sim bc rho V b m K t j l p p1 I A Vj Lj LE F) as (K1 & L1 & I1).
    destruct (IH (drop (fr_start fr + j) V) (set_nth b (fr_start fr + j) VNull) K1 p1 q I1 C ND') as (V' & b' & K' & L2 & I2 & LB & X1 & X2 & X3).
    { intros j' Hj'. destruct (HV j') as (l' & Vj' & Lj'); [now right|]. exists l'. split; auto. rewrite drop_other; auto.
      intros Q. assert (j' = j) by lia. subst. contradiction. }
    { now rewrite set_nth_len. } { unfold fits in *. now rewrite set_nth_len. }
    exists V', b', K'. split; [eapply leads_trans; eauto|]. split; [assumption|]. split; [now rewrite LB, set_nth_len|]. split; [|split].
    + intros i. destruct (X1 i) as [X|(X & j' & Hj' & ->)].
      * unfold drop in X. destruct (Nat.eqb_spec i (fr_start fr + j)) as [Q|Q]; [right; split; [exact X|]; exists j; split; [now left|exact Q]|now left].
      * right. split; auto. exists j'. split; auto. now right.
    + intros j' [<-|Hj']; auto. destruct (X1 (fr_start fr + j)) as [X|(X & _)]; auto. now rewrite X, drop_same.
    + intros i. destruct (X3 i) as [X|(j' & Hj' & ->)]; [|right; exists j'; split; auto; now right].
      destruct (Nat.eq_dec i (fr_start fr + j)) as [->|Nq]; [right; exists j; split; auto; now left|].
      left. rewrite X. apply nth_error_set_nth_neq; congruence.
Qed.

Lemma flagged_spec base V : forall vs n E, locals base V vs E -> (forall j, In j (flagged n vs) -> n <= j) /\ NoDup (flagged n vs) /\ (forall j, In j (flagged n vs) -> j < n + List.length vs).
Proof.
  induction vs as [|[x fl] vs IH]; intros n [|[y l] E] H; cbn in H; try contradiction.
  - cbn. repeat split; try easy. constructor.
  - destruct H as (-> & H1 & H2). destruct (IH n E H2) as (A & B & C). cbn [flagged List.length].
    destruct fl.
    + repeat split.
      * intros j Hj. apply in_app_iff in Hj as [Hj|[<-|[]]]; [auto|lia].
      * apply NoDup_snoc; auto. intros Q. apply C in Q. lia.
      * intros j Hj. apply in_app_iff in Hj as [Hj|[<-|[]]]; [apply C in Hj|]; lia.
    + rewrite app_nil_r. repeat split; auto. intros j Hj. apply C in Hj. lia.
Qed.
Lemma flagged_in base V : forall vs' vs E, locals base V (vs ++ vs') E ->
  (forall j, In j (flagged (List.length vs') vs) -> exists l, V (base + j) = Some (l, true)) /\
  (forall i, base + List.length vs' <= i < base + List.length vs' + List.length vs -> exists l fl, V i = Some (l, fl) /\ (fl = true -> exists j, In j (flagged (List.length vs') vs) /\ i = base + j)).
Proof.
  intros vs'. induction vs as [|[x fl] vs IH]; intros E H.
  - cbn. split; [intros j []|]. intros i Hi. lia.
  - destruct E as [|[y l] E]; cbn [locals app] in H; [contradiction|]. destruct H as (-> & H1 & H2). destruct (IH E H2) as (A & B).
    rewrite app_length in H1. split.
    + cbn [flagged]. intros j Hj. apply in_app_iff in Hj as [Hj|Hj]; [auto|]. destruct fl; [destruct Hj as [<-|[]]|contradiction].
      exists l. rewrite <- H1. f_equal. lia.
    + cbn [List.length flagged]. intros i Hi. destruct (Nat.eq_dec i (base + (List.length vs + List.length vs'))) as [->|Nq].
      * exists l, fl. split; [assumption|]. intros ->. exists (List.length vs' + List.length vs). split; [apply in_app_iff; right; now left|lia].
      * destruct (B i) as (l' & f' & B1 & B2); [lia|]. exists l', f'. split; auto. intros Hf. destruct (B2 Hf) as (j & B3 & B4). exists j. split; auto. apply in_app_iff. now left.
Qed.

Lemma closes_sim G vs rho V E b m K t p q : scope_ok (extend vs G) fr ups rho V E -> Inv rho V b m K ->
  closes (g_bc G) (flagged (List.length (g_vars G)) vs) p q -> fr_end fr <= List.length b -> fits b t 0 ->
  exists b' K', leads w (g_bc G) fr ups p (state m K b t) (At q (state m K' b' t)) /\
    Inv rho (cut (fr_start fr + List.length (g_vars G)) V) b' m K' /\ keep (fr_start fr + List.length (g_vars G)) V b b'.
Proof.
  intros [(El & Eo & -> & HL & HC) SF SS SV] I C LE F. cbn [g_vars g_bc extend] in *.
  pose proof (locals_app _ _ _ _ _ HL) as (E1 & E2 & -> & LE1 & HL2).
  destruct (flagged_in _ _ _ _ _ HL) as (FI1 & FI2).
  assert (FS : (forall j, In j (flagged (List.length (g_vars G)) vs) -> List.length (g_vars G) <= j) /\
     NoDup (flagged (List.length (g_vars G)) vs) /\ (forall j, In j (flagged (List.length (g_vars G)) vs) -> j < List.length (g_vars G) + List.length vs)).
  { clear. generalize (List.length (g_vars G)). intros n. induction vs as [|[x fl] vs IH]; cbn [flagged List.length].
    - repeat split; try easy. constructor.
    - destruct IH as (A & B & C). destruct fl.
      + repeat split.
        * intros j Hj. apply in_app_iff in Hj as [Hj|[<-|[]]]; [auto|lia].
        * apply NoDup_snoc; auto. intros Q. apply C in Q. lia.
        * intros j Hj. apply in_app_iff in Hj as [Hj|[<-|[]]]; [apply C in Hj|]; lia.
      + rewrite app_nil_r. repeat split; auto. intros j Hj. apply C in Hj. lia. }
  destruct FS as (F1 & F2 & F3). rewrite app_length in SV.
  destruct (closes_list (g_bc G) rho m t (flagged (List.length (g_vars G)) vs) V b K p q I C F2) as (V' & b' & K' & L & I' & LB & X1 & X2 & X3); auto.
  { intros j Hj. destruct (FI1 j Hj) as (l & Hl). exists l. split; auto. apply F3 in Hj. lia. }
  exists b', K'. split; [exact L|]. split; [|split; auto].
  - eapply Inv_forget; [exact I'|]. intros i. set (N := fr_start fr + List.length (g_vars G)) in *.
    destruct (Nat.lt_ge_cases i N) as [Li|Li].
    + rewrite cut_below by assumption. left. destruct (X1 i) as [X|(X & j & Hj & ->)]; auto. apply F1 in Hj. lia.
    + rewrite cut_above by assumption. destruct (V' i) as [[l fl]|] eqn:EV; [|now left]. right. split; [reflexivity|].
      intros l' fl' [= <- <-]. destruct (X1 i) as [X|(X & _)]; [|congruence].
      destruct (Nat.lt_ge_cases i (N + List.length vs)) as [Lj|Lj].
      * destruct (FI2 i) as (l2 & f2 & B1 & B2); [lia|]. rewrite EV, B1 in X. injection X as <- <-. destruct fl; auto.
        destruct (B2 eq_refl) as (j & Hj & ->). rewrite X2 in EV by assumption. discriminate.
      * rewrite SF in X by (rewrite app_length; lia). congruence.
  - intros i Li NV. destruct (X3 i) as [X|(j & Hj & ->)]; auto. apply F1 in Hj. lia.
Qed.

(** Making functions. *)
Definition desc_rel (V : view) (rho : names_of) (d : upvalue_desc) (u : nat) : Prop :=
  match d with
  | ParentLocal j _ => exists l, V (fr_start fr + j) = Some (l, true) /\ MemP.names rho u l
  | Outer j _ => nth_error (upv ups) j = Some u
  end.
Lemma desc_rel_ext V rho rho' d u : ext rho rho' -> desc_rel V rho d u -> desc_rel V rho' d u.
Proof. intros X. destruct d; cbn; auto. intros (l & A & B). exists l. split; auto. eapply ext_names; eauto. Qed.

Lemma capture_sim G E V b m t : forall ds rho K, scope_ok G fr ups rho V E -> Inv rho V b m K -> Forall (desc_ok G) ds ->
  exists us rho' K', capture fr ups (map desc_bytes ds) (state m K b t) = ROk us (state m K' b t) /\
    Inv rho' V b m K' /\ ext rho rho' /\ Forall2 (desc_rel V rho') ds us /\ k_closures K' = k_closures K.
Proof.
  induction ds as [|d ds IH]; intros rho K SC I HD.
  - exists [], rho, K. split; [reflexivity|]. split; [assumption|]. split; [apply ext_refl|]. split; [constructor|reflexivity].
  - inversion_clear HD as [|? ? Hd HD']. cbn [map].
    assert (One : exists u rho1 K1, (if Nat.eqb (fst (desc_bytes d)) 1 then
           let* found := find_open_upvalue (fr_start fr + snd (desc_bytes d)) in
           match found with
           | None =>
               let* u := heap_alloc (upvalue_new_open (fr_start fr + snd (desc_bytes d))) in
               (fun s => ROk u (set_open (vm_open s ++ [u]) s))
           | Some (_, u) => rret u
           end
         else upvalue_at ups (snd (desc_bytes d))) (state m K b t) = ROk u (state m K1 b t) /\
         Inv rho1 V b m K1 /\ ext rho rho1 /\ desc_rel V rho1 d u /\ k_closures K1 = k_closures K).
    { destruct SC as [(El & Eo & -> & HL & HC) SF SS SV]. destruct d as [j mu|j mu]; cbn [desc_bytes fst snd Nat.eqb desc_ok desc_rel] in *.
      - destruct Hd as (x & Hx). destruct (locals_nth _ _ _ _ _ _ _ HL Hx) as (l & Vl).
        destruct (find_inv lit rho V b m K (state m K b t) _ _ I Vl eq_refl) as (res & E1 & P).
        assert (E2 : find_open_upvalue (fr_start fr + j) (state m K b t) = ROk res (state m K b t)).
        { unfold find_open_upvalue. change (vm_open (state m K b t)) with (k_open K). rewrite E1. reflexivity. }
        destruct res as [[k u]|].
        + destruct P as (P1 & P2 & P3). exists u, rho, K. unfold rbind. rewrite E2. split; [reflexivity|]. split; [assumption|]. split; [apply ext_refl|]. split; [|reflexivity]. exists l. auto.
        + exists (List.length (k_upvalues K)), (rho ++ [Some l]), (Links (k_closures K) (k_upvalues K ++ [Open (fr_start fr + j)]) (k_open K ++ [List.length (k_upvalues K)])).
          split; [unfold rbind; rewrite E2; reflexivity|]. split; [apply Inv_capture; auto|]. split; [eexists; reflexivity|]. split; [|reflexivity].
          exists l. split; auto. unfold MemP.names. rewrite <- (i_len _ _ _ _ _ _ I), nth_error_app2, Nat.sub_diag by auto. reflexivity.
      - destruct (nth_error (upv ups) j) as [u|] eqn:Eu.
        + exists u, rho, K. destruct ups as [U|]; [|destruct j; discriminate]. cbn [upv upvalue_at] in *. rewrite Eu. split; [reflexivity|]. split; [assumption|]. split; [apply ext_refl|]. auto.
        + apply nth_error_None in Eu. rewrite (cp_len _ _ _ _ _ HC) in Eu. lia. }
    destruct One as (u & rho1 & K1 & Q1 & Q2 & Q3 & Q4 & Q5).
    destruct (IH rho1 K1 (scope_ext _ _ _ _ _ _ _ Q3 SC) Q2 HD') as (us & rho' & K' & R1 & R2 & R3 & R4 & R5).
    exists (u :: us), rho', K'. split.
    + cbn [capture]. destruct (desc_bytes d) as [a j]. cbn [fst snd] in Q1. unfold rbind at 1. rewrite Q1. unfold rbind. rewrite R1. reflexivity.
    + split; auto. split; [eapply ext_trans; eauto|]. split; [constructor; [eapply desc_rel_ext; eauto|assumption]|congruence].
Qed.

Lemma captured_here G rho V E us cups : scope_ok G fr ups rho V E -> Forall2 (desc_rel V rho) cups us -> (forall u, In u us -> exists l, MemP.names rho u l) ->
  captured rho E (level_of G :: g_outer G) cups us.
Proof.
  intros [(El & Eo & -> & HL & HC) SF SS SV] D KN. split.
  - clear -D. induction D; cbn; congruence.
  - intros i u Hu. apply KN. eapply nth_error_In; eauto.
  - intros x Hx. unfold hidden in Hx. inversion_clear Hx as [|? ? H1 H2]. cbn [fst level_of] in H1.
    pose proof (locals_lookup _ _ _ _ x HL) as HX. rewrite H1 in HX.
    assert (A4 : assoc_get x (El ++ Eo) = assoc_get x Eo).
    { clear -HX. induction El as [|[y n] El IH]; [reflexivity|]. cbn [assoc_get app] in *. destruct (String.eqb x y); [discriminate|auto]. }
    rewrite A4. apply (cp_hidden _ _ _ _ _ HC). exact H2.
  - intros i x R. cbn [reach level_of] in R. destruct (nth_error cups i) as [d|] eqn:Ei; [|contradiction].
    destruct (Forall2_nth_error_l _ _ _ D _ _ Ei) as (u & Hu & Hd). pose proof (locals_lookup _ _ _ _ x HL) as HX.
    destruct d as [j mu|j mu]; cbn [desc_rel] in Hd.
    + rewrite R in HX. destruct HX as (l & X1 & X2 & X3). destruct Hd as (l' & Y1 & Y2). assert (l' = l) by congruence. subst l'.
      exists l, u. split; auto. clear -X1. induction El as [|[y n] El IH]; [discriminate|]. cbn [assoc_get app] in *. destruct (String.eqb x y); auto.
    + destruct R as (R1 & R2). rewrite R1 in HX. destruct (cp_reach _ _ _ _ _ HC _ _ R2) as (l & u' & B1 & B2 & B3).
      assert (u' = u) by congruence. subst u'. exists l, u. split; auto.
      clear -HX B1. induction El as [|[y n] El IH]; [assumption|]. cbn [assoc_get app] in *. destruct (String.eqb x y); [discriminate|auto].
Qed.
Lemma desc_rel_known G rho V E cups us : scope_ok G fr ups rho V E -> Forall2 (desc_rel V rho) cups us -> forall u, In u us -> exists l, MemP.names rho u l.
Proof.
  intros [(El & Eo & -> & HL & HC) SF SS SV] D u Hu. apply In_nth_error in Hu as (i & Hi).
  destruct (Forall2_nth_error_r _ _ _ D _ _ Hi) as (d & Hd & R). destruct d as [j mu|j mu]; cbn in R.
  - destruct R as (l & _ & R). eauto.
  - eapply (cp_known _ _ _ _ _ HC); eauto.
Qed.

Lemma make_fn_sim (P : answer -> Prop) G rho V E b m K t n src fn p q next :
  scope_ok G fr ups rho V E -> Inv rho V b m K -> literal lit G n fn p q ->
  (forall cups, fn cups -> fn_is lit n src (level_of G :: g_outer G) cups) -> fits b t 1 ->
  (forall v m' rho' K', leads w (g_bc G) fr ups p (state m K b t) (At q (state m' K' b (v :: t))) ->
     Inv rho' V b m' K' -> ext rho rho' -> m_cells m' = m_cells m -> P (next v m')) ->
  P (vbind (make_fn lit n src E m) next).
Proof.
  intros SC I (cups & c & HF & Ec & HA) HI F N. specialize (HI _ HF).
  assert (UC : bc_upvalue_count (fn_code (lit n)) = List.length cups).
  { unfold fn_is in HI. destruct (body_parts (src_body src)) as [es tl]. destruct HI as (fl & G1 & G2 & vs & p1 & p2 & p3 & p4 & U & _). exact U. }
  unfold make_fn. rewrite UC. destruct cups as [|d cups].
  - cbn [List.length Nat.eqb vbind]. eapply (N _ _ rho K); auto using ext_refl.
    + eapply lead_ok; [exact HA|]. intros r. cbn [step]. unfold rbind, const_at. rewrite Ec. unfold rret at 1. cbn [value_of_const].
      rewrite state_push by assumption. reflexivity.
    + eapply Inv_fn; eauto.
  - cbn [List.length Nat.eqb vbind]. destruct HA as (HA & HD).
    destruct (capture_sim G E V b m t (d :: cups) rho K SC I HD) as (us & rho' & K' & R1 & R2 & R3 & R4 & R5).
    pose proof (scope_ext _ _ _ _ _ _ _ R3 SC) as SC'.
    eapply (N _ _ rho' (Links (k_closures K' ++ [MkClosure (lit n) us]) (k_upvalues K') (k_open K'))); auto.
    + eapply lead_ok; [exact HA|]. intros r. cbn [step]. unfold create_closure. rewrite rbind_assoc. unfold rbind at 1. unfold const_at. rewrite Ec. unfold rret at 1. cbn [value_of_const].
      rewrite rbind_assoc. unfold rbind at 1. rewrite R1. rewrite rbind_assoc. unfold rbind at 1. unfold heap_alloc, closure_new.
      change (h_closures (vm_heap (state m K' b t))) with (k_closures K'). rewrite R5, <- (i_clen _ _ _ _ _ _ I).
      match goal with |- rbind _ _ ?s = _ => change s with (state (Memory (m_vm m) (m_cells m) (m_closures m ++ [Some (Closure n src E)]) (m_fns m)) (Links (k_closures K ++ [MkClosure (lit n) us]) (k_upvalues K') (k_open K')) b t) end.
      unfold rbind. rewrite state_push by assumption. reflexivity.
    + apply (Inv_closure lit rho' V b m K' (Closure n src E) us (level_of G :: g_outer G) (d :: cups)); auto.
      apply (captured_here G rho' V); auto. eapply desc_rel_known; eauto.
Qed.
End Frame.
End Sim.
