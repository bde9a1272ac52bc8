(** Proofs about the resolution of captured variables. *)
From Coq Require Import Lia.
From Verif.Model Require Import CompilerStack.
From Verif.Spec Require Import CaptureSpec.
From Verif.Proofs Require Import CodecP ScopeP.

Lemma upvalue_desc_eqb_eq a b : upvalue_desc_eqb a b = true -> a = b.
Proof.
  destruct a, b; cbn; try discriminate; intros H; apply andb_prop in H as [H1 H2];
    apply Nat.eqb_eq in H1; apply Bool.eqb_prop in H2; congruence.
Qed.
Lemma upvalue_desc_eqb_refl a : upvalue_desc_eqb a a = true.
Proof. destruct a; cbn; now rewrite Nat.eqb_refl, Bool.eqb_reflx. Qed.

Lemma position_some {A} (p : A -> bool) l i :
  position p l = Some i -> exists a, nth_error l i = Some a /\ p a = true.
Proof.
  revert i. induction l as [|a l IH]; intros i; cbn; [discriminate|].
  destruct (p a) eqn:E; intros H; [injection H as <-; exists a; auto|].
  destruct (position p l) as [n|]; cbn in H; [|discriminate]. injection H as <-. apply IH. reflexivity.
Qed.

Lemma add_upvalue_spec d c i c' :
  add_upvalue d c = (i, c') ->
  nth_error (cx_upvalues c') i = Some d /\ (exists more, cx_upvalues c' = cx_upvalues c ++ more) /\
  cx_kind c' = cx_kind c /\ cx_asm c' = cx_asm c /\ cx_scopes c' = cx_scopes c /\ cx_temps c' = cx_temps c.
Proof.
  unfold add_upvalue. destruct (position _ _) as [p|] eqn:E; intros H; injection H as <- <-.
  - apply position_some in E as (a & Ha & Hp). apply upvalue_desc_eqb_eq in Hp. subst a.
    repeat split; auto. exists []. now rewrite app_nil_r.
  - cbn [set_upvalues cx_upvalues cx_kind cx_asm cx_scopes cx_temps]. repeat split; eauto.
    rewrite app_length. cbn [List.length]. rewrite nth_error_app2 by lia.
    replace (_ - _) with 0 by lia. reflexivity.
Qed.

Lemma position_present d l i :
  nth_error l i = Some d -> exists j, position (fun u => upvalue_desc_eqb u d) l = Some j /\ j <= i.
Proof.
  revert i. induction l as [|a l IH]; intros [|i]; cbn; try discriminate.
  - intros H; injection H as ->. rewrite upvalue_desc_eqb_refl. eauto.
  - intros H. destruct (upvalue_desc_eqb a d); [exists 0; split; [auto|lia]|].
    destruct (IH i H) as (j & -> & L). exists (S j). cbn. split; [auto|lia].
Qed.
Lemma add_upvalue_again d c i c' : add_upvalue d c = (i, c') -> add_upvalue d c' = (i, c').
Proof.
  unfold add_upvalue. destruct (position _ (cx_upvalues c)) as [p|] eqn:E; intros H; injection H as <- <-.
  - now rewrite E.
  - cbn [set_upvalues cx_upvalues].
    assert (G : position (fun u => upvalue_desc_eqb u d) (cx_upvalues c ++ [d]) = Some (List.length (cx_upvalues c))).
    { revert E. generalize (cx_upvalues c). intros l. induction l as [|a l IH]; cbn.
      - now rewrite upvalue_desc_eqb_refl.
      - destruct (upvalue_desc_eqb a d); [discriminate|]. destruct (position _ l); [discriminate|].
        intros _. cbn in IH. now rewrite IH. }
    rewrite G, app_length. cbn [List.length]. f_equal. lia.
Qed.

(** set_captured and lookup *)
Lemma find_var_update x y f vs :
  (forall v, sv_name (f v) = sv_name v) ->
  find_var y (update_var x f vs) =
  if String.eqb x y then option_map f (find_var y vs) else find_var y vs.
Proof.
  intros Hf. unfold find_var. induction vs as [|v vs IH]; cbn [update_var find].
  - now destruct (String.eqb x y).
  - destruct (String.eqb_spec (sv_name v) x) as [<-|Hx]; cbn [find].
    + rewrite Hf. destruct (String.eqb_spec (sv_name v) y) as [<-|Hy]; reflexivity.
    + rewrite IH. destruct (String.eqb_spec (sv_name v) y) as [<-|Hy]; [|reflexivity].
      destruct (String.eqb_spec x (sv_name v)); [congruence|reflexivity].
Qed.

Lemma update_scopes_miss x f l : find_local x l = None -> update_scopes x f l = l.
Proof.
  induction l as [|sc l IH]; cbn [find_local update_scopes]; [reflexivity|].
  destruct (find_var x (sc_vars sc)); [discriminate|]. intros H. now rewrite IH.
Qed.
Lemma find_local_update x y f l :
  (forall v, sv_name (f v) = sv_name v) ->
  find_local y (update_scopes x f l) =
  if String.eqb x y then option_map f (find_local y l) else find_local y l.
Proof.
  intros Hf. induction l as [|sc l IH]; cbn [update_scopes find_local].
  - now destruct (String.eqb x y).
  - destruct (find_var x (sc_vars sc)) as [v|] eqn:E; cbn [find_local set_vars sc_vars].
    + rewrite find_var_update by exact Hf. destruct (String.eqb_spec x y) as [<-|Hy]; [|reflexivity].
      rewrite E. reflexivity.
    + rewrite IH. destruct (String.eqb_spec x y) as [<-|Hy]; [|reflexivity]. now rewrite E.
Qed.
Lemma local_update x y f s :
  (forall v, sv_name (f v) = sv_name v) ->
  local y (update_local x f s) = if String.eqb x y then option_map f (local y s) else local y s.
Proof. intros H. unfold local, update_local. cbn [ss_scopes]. now apply find_local_update. Qed.

Lemma extends_refl c : extends c c.
Proof.
  split; auto.
  - exists []. now rewrite app_nil_r.
  - intros x. destruct (local x (cx_scopes c)); [|auto]. unfold same_variable. auto.
Qed.
Lemma extends_add d c i c' : add_upvalue d c = (i, c') -> extends c c'.
Proof.
  intros H. apply add_upvalue_spec in H as (_ & Hm & Hk & Ha & Hs & Ht). split; auto.
  - intros x. rewrite Hs. destruct (local x (cx_scopes c)); [|auto]. unfold same_variable. auto.
  - now rewrite Hs.
Qed.
Lemma extends_capture x c : extends c (set_scopes (update_local x set_captured (cx_scopes c)) c).
Proof.
  split; auto; cbn [set_scopes cx_upvalues cx_scopes].
  - exists []. now rewrite app_nil_r.
  - intros y. rewrite local_update by reflexivity. destruct (local y (cx_scopes c)) as [v|]; [|now destruct (String.eqb x y)].
    destruct (String.eqb x y); cbn; unfold same_variable; auto.
Qed.

Lemma resolve_spec x stack : forall i stack',
  resolve_upvalue x stack = Some (i, stack') ->
  Forall2 extends stack stack' /\
  exists k v d c, declared_at stack x k v /\
    refers_to stack' i k (sv_slot v) /\
    (exists cur, nth_error stack' 0 = Some cur /\ nth_error (cx_upvalues cur) i = Some d) /\
    upvalue_is_mutable d = sv_is_mutable v /\
    nth_error stack' k = Some c /\ local x (cx_scopes c) = Some (set_captured v).
Proof.
  induction stack as [|cur outer IH]; intros i stack'; [discriminate|].
  cbn [resolve_upvalue]. destruct outer as [|parent rest]; [discriminate|].
  destruct (local x (cx_scopes parent)) as [v|] eqn:El.
  - destruct (add_upvalue _ cur) as [idx cur'] eqn:Ea. intros H. injection H as <- <-.
    split.
    + constructor; [eapply extends_add; eauto|]. constructor; [apply extends_capture|].
      clear. induction rest; constructor; auto using extends_refl.
    + pose proof (add_upvalue_spec _ _ _ _ Ea) as (Hn & _).
      exists 1, v, (ParentLocal (sv_slot v) (sv_is_mutable v)), (set_scopes (update_local x set_captured (cx_scopes parent)) parent).
      split; [|split; [|split; [|split; [|split]]]].
      * split; [lia|]. split; [exists parent; auto|]. intros j c Hj. lia.
      * eapply refers_parent. exact Hn.
      * exists cur'. auto.
      * reflexivity.
      * reflexivity.
      * cbn [set_scopes cx_scopes]. rewrite local_update by reflexivity. now rewrite String.eqb_refl, El.
  - destruct (resolve_upvalue x (parent :: rest)) as [[oi outer']|] eqn:Er; [|discriminate].
    destruct (IH _ _ eq_refl) as (HF & k & v & d & c & (Hk0 & Hk & Hmin) & Href & (cur0 & Hc0 & Hd) & Hm & Hc & Hl).
    destruct outer' as [|parent' rest']; [inversion HF|]. cbn in Hc0. injection Hc0 as <-. rewrite Hd.
    destruct (add_upvalue _ cur) as [idx cur'] eqn:Ea. intros H. injection H as <- <-.
    pose proof (add_upvalue_spec _ _ _ _ Ea) as (Hn & _).
    split; [constructor; [eapply extends_add; eauto|exact HF]|].
    exists (S k), v, (Outer oi (upvalue_is_mutable d)), c. split; [|split; [|split; [|split; [|split]]]].
    * split; [lia|]. split; [exact Hk|]. intros [|[|j]] c0 Hj Hn0; [lia| |].
      -- cbn in Hn0. injection Hn0 as <-. exact El.
      -- apply (Hmin (S j) c0); [lia|exact Hn0].
    * eapply refers_outer; eauto.
    * exists cur'. auto.
    * exact Hm.
    * exact Hc.
    * exact Hl.
Qed.

Lemma resolve_none x stack :
  resolve_upvalue x stack = None <->
  (forall k c, 0 < k -> nth_error stack k = Some c -> local x (cx_scopes c) = None).
Proof.
  induction stack as [|cur outer IH].
  - split; [|reflexivity]. intros _ [|k] c; cbn; [lia|discriminate].
  - cbn [resolve_upvalue]. destruct outer as [|parent rest].
    + split; [|reflexivity]. intros _ [|[|k]] c; cbn; try lia; discriminate.
    + destruct (local x (cx_scopes parent)) as [v|] eqn:El.
      * destruct (add_upvalue _ cur) as [i9 c9]. split; [discriminate|]. intros H.
        specialize (H 1 parent ltac:(lia) eq_refl). congruence.
      * destruct (resolve_upvalue x (parent :: rest)) as [[oi outer']|].
        -- destruct (add_upvalue _ cur) as [i9 c9]. split; [discriminate|]. intros H. exfalso.
           assert (HN : Some (oi, outer') = None); [|discriminate].
           apply IH. intros k c Hk Hn. apply (H (S k) c); [lia|exact Hn].
        -- split; [|reflexivity]. intros _ [|[|k]] c Hk Hn; [lia| |].
           ++ cbn in Hn. injection Hn as <-. exact El.
           ++ apply (proj1 IH eq_refl (S k) c); [lia|exact Hn].
Qed.

Lemma refers_extends stack stack' i k slot :
  Forall2 extends stack stack' -> refers_to stack i k slot -> refers_to stack' i k slot.
Proof.
  intros HF H. revert stack' HF. induction H as [cur outer i slot m Hn|cur outer i j m k slot Hn H IH]; intros stack' HF;
    inversion HF as [|? cur' ? outer' HE HR]; subst; destruct (ext_upvalues _ _ HE) as (more & Em).
  - eapply refers_parent with (m := m). rewrite Em, nth_error_app1; [exact Hn|].
    apply nth_error_Some. congruence.
  - eapply refers_outer with (m := m); [|apply IH, HR]. rewrite Em, nth_error_app1; [exact Hn|].
    apply nth_error_Some. congruence.
Qed.

Lemma set_captured_idem v : set_captured (set_captured v) = set_captured v.
Proof. reflexivity. Qed.
Lemma update_var_twice x f vs : (forall v, sv_name (f v) = sv_name v) -> (forall v, f (f v) = f v) ->
  update_var x f (update_var x f vs) = update_var x f vs.
Proof.
  intros Hn Hf. induction vs as [|v vs IH]; cbn [update_var]; [reflexivity|].
  destruct (String.eqb (sv_name v) x) eqn:E; cbn [update_var].
  - rewrite Hn, E, Hf. reflexivity.
  - rewrite E, IH. reflexivity.
Qed.
Lemma update_scopes_twice x f l : (forall v, sv_name (f v) = sv_name v) -> (forall v, f (f v) = f v) ->
  update_scopes x f (update_scopes x f l) = update_scopes x f l.
Proof.
  intros Hn Hf. induction l as [|sc l IH]; cbn [update_scopes]; [reflexivity|].
  destruct (find_var x (sc_vars sc)) as [v|] eqn:E; cbn [update_scopes].
  - cbn [set_vars sc_vars]. rewrite find_var_update by exact Hn. rewrite String.eqb_refl, E. cbn [option_map].
    unfold set_vars. cbn. rewrite update_var_twice; auto.
  - rewrite E, IH. reflexivity.
Qed.

Lemma resolve_again x stack : forall i stack',
  resolve_upvalue x stack = Some (i, stack') -> resolve_upvalue x stack' = Some (i, stack').
Proof.
  induction stack as [|cur outer IH]; intros i stack'; [discriminate|].
  cbn [resolve_upvalue]. destruct outer as [|parent rest]; [discriminate|].
  destruct (local x (cx_scopes parent)) as [v|] eqn:El.
  - destruct (add_upvalue _ cur) as [idx cur'] eqn:Ea. intros H. injection H as <- <-.
    cbn [resolve_upvalue set_scopes cx_scopes]. rewrite local_update by reflexivity.
    rewrite String.eqb_refl, El. cbn [option_map].
    replace (ParentLocal (sv_slot (set_captured v)) (sv_is_mutable (set_captured v)))
      with (ParentLocal (sv_slot v) (sv_is_mutable v)) by reflexivity.
    rewrite (add_upvalue_again _ _ _ _ Ea). unfold set_scopes, update_local. cbn.
    rewrite update_scopes_twice; auto.
  - destruct (resolve_upvalue x (parent :: rest)) as [[oi outer']|] eqn:Er; [|discriminate].
    pose proof (resolve_spec _ _ _ _ Er) as (HF & _).
    specialize (IH _ _ eq_refl).
    destruct outer' as [|parent' rest']; [inversion HF|].
    destruct (add_upvalue _ cur) as [idx cur'] eqn:Ea. intros H. injection H as <- <-.
    cbn [resolve_upvalue].
    assert (El' : local x (cx_scopes parent') = None).
    { inversion HF as [|? ? ? ? HE _]; subst. pose proof (ext_locals _ _ HE x) as HX. rewrite El in HX.
      destruct (local x (cx_scopes parent')); [tauto|reflexivity]. }
    rewrite El'. cbn [resolve_upvalue] in IH. rewrite IH. rewrite (add_upvalue_again _ _ _ _ Ea). reflexivity.
Qed.
