(** Invariants of reachable states. *)
From Verif.Proofs Require Export HeapP.

Record heap_inv (h : heap) : Prop := {
  hi_class : forall c k, nth_error (h_classes h) c = Some k ->
    cl_type_id k = c /\
    match cl_base k with
    | None => cl_type_ids k = [c]
    | Some b => b < c /\ exists kb, nth_error (h_classes h) b = Some kb /\ cl_type_ids k = c :: cl_type_ids kb
    end;
  hi_class_object : forall c k, nth_error (h_classes h) c = Some k ->
    exists ob, nth_error (h_objects h) (cl_object k) = Some ob /\ ob_class ob = None;
  hi_array_object : forall a ar, nth_error (h_arrays h) a = Some ar ->
    exists ob, nth_error (h_objects h) (ar_object ar) = Some ob /\ ob_class ob = None;
  hi_fields : forall o ob, nth_error (h_objects h) o = Some ob -> ob_fields ob < List.length (h_fields h);
  hi_tables : forall o ob o' ob', nth_error (h_objects h) o = Some ob -> nth_error (h_objects h) o' = Some ob' ->
    o <> o' -> ob_fields ob = ob_fields ob' -> exists c k, nth_error (h_classes h) c = Some k /\ cl_object k = o;
  hi_apart : forall a ar c k, nth_error (h_arrays h) a = Some ar -> nth_error (h_classes h) c = Some k ->
    ar_object ar <> cl_object k;
  hi_arrays : forall a ar a' ar', nth_error (h_arrays h) a = Some ar -> nth_error (h_arrays h) a' = Some ar' ->
    ar_object ar = ar_object ar' -> a = a' }.

(** Projections that determine the invariant. *)
Definition inv_on (sh : list (nat * list nat * option nat * nat * string)) (obs : list object_inner) (ars : list nat) (nf : nat) : Prop :=
  (forall c ti tis base o name, nth_error sh c = Some (ti, tis, base, o, name) ->
    ti = c /\
    match base with
    | None => tis = [c]
    | Some b => b < c /\ exists ti' tis' base' o' name', nth_error sh b = Some (ti', tis', base', o', name') /\ tis = c :: tis'
    end /\
    exists ob, nth_error obs o = Some ob /\ ob_class ob = None) /\
  (forall a o, nth_error ars a = Some o -> exists ob, nth_error obs o = Some ob /\ ob_class ob = None) /\
  (forall o ob, nth_error obs o = Some ob -> ob_fields ob < nf) /\
  (forall o ob o' ob', nth_error obs o = Some ob -> nth_error obs o' = Some ob' -> o <> o' ->
     ob_fields ob = ob_fields ob' -> exists c ti tis base name, nth_error sh c = Some (ti, tis, base, o, name)) /\
  (forall a o c ti tis base o' name, nth_error ars a = Some o -> nth_error sh c = Some (ti, tis, base, o', name) -> o <> o') /\
  (forall a o a' , nth_error ars a = Some o -> nth_error ars a' = Some o -> a = a').

Definition inv_of h := inv_on (shapes h) (h_objects h) (map ar_object (h_arrays h)) (List.length (h_fields h)).

Lemma nth_error_map_inv {A B} (f : A -> B) l i y : nth_error (map f l) i = Some y -> exists x, nth_error l i = Some x /\ f x = y.
Proof. rewrite nth_error_map. destruct (nth_error l i) as [x|]; cbn; intros E; [injection E as <-; eauto|discriminate]. Qed.

Lemma shape_nth h c k : nth_error (h_classes h) c = Some k -> nth_error (shapes h) c = Some (shape k).
Proof. intros E. unfold shapes. rewrite nth_error_map, E. reflexivity. Qed.

Lemma inv_of_inv h : inv_of h -> heap_inv h.
Proof.
  unfold inv_of. intros (A & B & C & D & E & F). constructor.
  - intros c k Hk. destruct (A _ _ _ _ _ _ (shape_nth _ _ _ Hk)) as (A1 & A2 & _). split; [exact A1|].
    destruct (cl_base k) as [b|]; [|exact A2]. destruct A2 as (L & ti & tis & base & o & name & H & T). split; [exact L|].
    apply nth_error_map_inv in H as (kb & Hb & S). exists kb. split; [exact Hb|]. unfold shape in S. injection S as _ <- _ _ _. exact T.
  - intros c k Hk. destruct (A _ _ _ _ _ _ (shape_nth _ _ _ Hk)) as (_ & _ & A3). exact A3.
  - intros a ar Ha. apply (B a). now rewrite nth_error_map, Ha.
  - exact C.
  - intros o ob o' ob' H1 H2 N Ef. destruct (D _ _ _ _ H1 H2 N Ef) as (c & ti & tis & base & name & H).
    apply nth_error_map_inv in H as (k & Hk & S). exists c, k. split; [exact Hk|]. unfold shape in S. now injection S.
  - intros a ar c k Ha Hk. eapply E; [rewrite nth_error_map, Ha; reflexivity|apply shape_nth; exact Hk].
  - intros a ar a' ar' Ha Ha' Eq. eapply F; [rewrite nth_error_map, Ha; reflexivity|]. rewrite nth_error_map, Ha'. cbn. now rewrite Eq.
Qed.

Lemma nth_error_snoc {A} (l : list A) x i y : nth_error (l ++ [x]) i = Some y ->
  (i < List.length l /\ nth_error l i = Some y) \/ (i = List.length l /\ x = y).
Proof.
  intros H. destruct (Nat.lt_ge_cases i (List.length l)) as [L|L].
  - left. now rewrite nth_error_app1 in H.
  - right. rewrite nth_error_app2 in H by assumption. destruct (i - List.length l) as [|d] eqn:E; cbn in H.
    + injection H as ->. split; [lia|reflexivity].
    + destruct d; discriminate.
Qed.
Lemma nth_error_old {A} (l : list A) x i y : nth_error l i = Some y -> nth_error (l ++ [x]) i = Some y.
Proof. intros H. rewrite nth_error_app1; [exact H|]. apply nth_error_Some. congruence. Qed.
Lemma nth_error_new {A} (l : list A) x : nth_error (l ++ [x]) (List.length l) = Some x.
Proof. rewrite nth_error_app2, Nat.sub_diag by lia. reflexivity. Qed.
Lemma nth_error_lt {A} (l : list A) i y : nth_error l i = Some y -> i < List.length l.
Proof. intros H. apply nth_error_Some. congruence. Qed.

(** A new object with a new field table. *)
Lemma inv_new_object sh obs ars nf cl : inv_on sh obs ars nf -> inv_on sh (obs ++ [MkObject cl nf]) ars (S nf).
Proof.
  intros (A & B & C & D & E & F). repeat split.
  - eapply A; eauto.
  - destruct (A _ _ _ _ _ _ H) as (_ & A2 & _). exact A2.
  - destruct (A _ _ _ _ _ _ H) as (_ & _ & ob & A3 & A4). exists ob. split; [now apply nth_error_old|exact A4].
  - intros a o H. destruct (B _ _ H) as (ob & B1 & B2). exists ob. split; [now apply nth_error_old|exact B2].
  - intros o ob H. apply nth_error_snoc in H as [[_ H]|[_ <-]]; cbn; [apply C in H; lia|lia].
  - intros o ob o' ob' H1 H2 N Ef.
    apply nth_error_snoc in H1 as [[L1 H1]|[L1 <-]]; apply nth_error_snoc in H2 as [[L2 H2]|[L2 <-]]; cbn in Ef.
    + eapply D; eauto.
    + apply C in H1. lia.
    + apply C in H2. lia.
    + lia.
  - exact E.
  - exact F.
Qed.

(** A new array on a plain object that nothing else uses. *)
Lemma inv_new_array sh obs ars nf : inv_on sh obs ars nf ->
  inv_on sh (obs ++ [MkObject None nf]) (ars ++ [List.length obs]) (S nf).
Proof.
  intros I. pose proof (inv_new_object _ _ _ _ None I) as (A & B & C & D & _ & _).
  destruct I as (A0 & B0 & C0 & D0 & E & F). repeat split; try assumption.
  - eapply A; eauto.
  - destruct (A _ _ _ _ _ _ H) as (_ & A2 & _). exact A2.
  - destruct (A _ _ _ _ _ _ H) as (_ & _ & A3). exact A3.
  - intros a o H. apply nth_error_snoc in H as [[_ H]|[_ <-]]; [now apply (B a)|].
    exists (MkObject None nf). split; [apply nth_error_new|reflexivity].
  - intros a o c ti tis base o' name H1 H2. apply nth_error_snoc in H1 as [[_ H1]|[_ <-]]; [eapply E; eauto|].
    destruct (A0 _ _ _ _ _ _ H2) as (_ & _ & ob & A3 & _). apply nth_error_lt in A3. lia.
  - intros a o a' H1 H2.
    apply nth_error_snoc in H1 as [[L1 H1]|[L1 <-]]; apply nth_error_snoc in H2 as [[L2 H2]|[L2 E2]].
    + eapply F; eauto.
    + subst o. apply B0 in H1 as (ob & H1 & _). apply nth_error_lt in H1. lia.
    + apply B0 in H2 as (ob & H2 & _). apply nth_error_lt in H2. lia.
    + lia.
Qed.

(** A new class on a clone of its base's object. *)
Lemma inv_new_class sh obs ars nf base ti tis bb o name ob name' : inv_on sh obs ars nf ->
  nth_error sh base = Some (ti, tis, bb, o, name) -> nth_error obs o = Some ob ->
  inv_on (sh ++ [(List.length sh, List.length sh :: tis, Some base, List.length obs, name')])
    (obs ++ [MkObject (ob_class ob) (ob_fields ob)]) ars nf.
Proof.
  intros (A & B & C & D & E & F) Hb Ho.
  assert (Cb : ob_class ob = None).
  { destruct (A _ _ _ _ _ _ Hb) as (_ & _ & ob' & O1 & O2). rewrite Ho in O1. injection O1 as <-. exact O2. }
  repeat split.
  - apply nth_error_snoc in H as [[_ H]|[-> H]]; [eapply A; eauto|]. injection H as <- _ _ _ _. reflexivity.
  - apply nth_error_snoc in H as [[_ H]|[-> H]].
    + destruct (A _ _ _ _ _ _ H) as (_ & A2 & _). destruct base0 as [b|]; [|exact A2].
      destruct A2 as (L & t & ts & bs & o' & n & A3 & A4). split; [exact L|].
      exists t, ts, bs, o', n. split; [now apply nth_error_old|exact A4].
    + injection H as _ <- <- _ _. split; [now apply nth_error_lt in Hb|].
      exists ti, tis, bb, o, name. split; [now apply nth_error_old|reflexivity].
  - apply nth_error_snoc in H as [[_ H]|[-> H]].
    + destruct (A _ _ _ _ _ _ H) as (_ & _ & ob' & A3 & A4). exists ob'. split; [now apply nth_error_old|exact A4].
    + injection H as _ _ _ <- _. exists (MkObject (ob_class ob) (ob_fields ob)). split; [apply nth_error_new|exact Cb].
  - intros a o' H. destruct (B _ _ H) as (ob' & B1 & B2). exists ob'. split; [now apply nth_error_old|exact B2].
  - intros o' ob' H. apply nth_error_snoc in H as [[_ H]|[_ <-]]; [eapply C; eauto|]. cbn. eapply C; eauto.
  - intros o1 ob1 o2 ob2 H1 H2 N Ef.
    apply nth_error_snoc in H1 as [[L1 H1]|[L1 <-]]; apply nth_error_snoc in H2 as [[L2 H2]|[L2 <-]]; cbn in Ef.
    + destruct (D _ _ _ _ H1 H2 N Ef) as (c & t & ts & bs & n & H). exists c, t, ts, bs, n. now apply nth_error_old.
    + destruct (Nat.eq_dec o1 o) as [->|N1].
      * exists base, ti, tis, bb, name. now apply nth_error_old.
      * destruct (D _ _ _ _ H1 Ho N1 Ef) as (c & t & ts & bs & n & H). exists c, t, ts, bs, n. now apply nth_error_old.
    + subst o1. eexists (List.length sh), _, _, _, _. apply nth_error_new.
    + lia.
  - intros a o1 c t ts bs o2 n H1 H2. apply nth_error_snoc in H2 as [[_ H2]|[-> H2]]; [eapply E; eauto|].
    injection H2 as _ _ _ <- _. destruct (B _ _ H1) as (ob' & B1 & _). apply nth_error_lt in B1. lia.
  - exact F.
Qed.

Lemma set_nth_length {A} (l : list A) i x : List.length (set_nth l i x) = List.length l.
Proof. apply set_nth_len. Qed.

Lemma inv_change h0 h1 : heap_change h0 h1 -> inv_of h0 -> inv_of h1.
Proof.
  unfold inv_of, shapes. intros H I. revert I. inv_change H; intros I; try exact I.
  - rewrite app_length, Nat.add_comm. now apply inv_new_object.
  - now rewrite set_nth_length.
  - rewrite app_length, Nat.add_comm, map_app. cbn [map ar_object List.length]. now apply inv_new_array.
  - erewrite map_set_nth; [exact I|eassumption|reflexivity].
  - erewrite map_set_nth; [exact I|eassumption|reflexivity].
  - rewrite map_app. cbn [map shape cl_type_id cl_type_ids cl_base cl_object cl_name].
    pose proof (shape_nth _ _ _ Eb) as S. unfold shapes, shape in S.
    pose proof (inv_new_class _ _ _ _ _ _ _ _ _ _ _ name I S Eo) as R. rewrite map_length in R. exact R.
  - erewrite map_set_nth; [exact I|eassumption|reflexivity].
Qed.

(** The state of a new runtime. *)
Inductive heap_steps : heap -> heap -> Prop :=
| hs_refl h : heap_steps h h
| hs_step h1 h2 h3 : heap_change h1 h2 -> heap_steps h2 h3 -> heap_steps h1 h3.
Lemma hs_trans h1 h2 h3 : heap_steps h1 h2 -> heap_steps h2 h3 -> heap_steps h1 h3.
Proof. induction 1; intros; [assumption|]. econstructor; eauto. Qed.

Lemma add_methods_steps c ms : forall h h', add_methods c ms h = Ok h' -> heap_steps h h'.
Proof.
  induction ms as [|[name n] ms IH]; intros h h' E; cbn [add_methods] in E.
  - injection E as <-. constructor.
  - destruct (class_set_method c name (VFnNative n) h) as [h1|e| |] eqn:E1; try discriminate. cbn [obind] in E.
    econstructor; [eapply HSetMethod; exact E1|]. now apply IH.
Qed.
Lemma add_fields_steps c fs : forall h h', add_fields c fs h = Ok h' -> heap_steps h h'.
Proof.
  induction fs as [|[name n] fs IH]; intros h h' E; cbn [add_fields] in E.
  - injection E as <-. constructor.
  - destruct (class_get c h) as [k|e| |] eqn:E0; try discriminate. cbn [obind] in E.
    destruct (object_set_field (cl_object k) name n h) as [h1|e| |] eqn:E1; try discriminate. cbn [obind] in E.
    econstructor; [eapply HSetField; exact E1|]. now apply IH.
Qed.
Lemma register_steps name k ms fs s s' : register name k ms fs s = Ok s' -> heap_steps (vm_heap s) (vm_heap s').
Proof.
  unfold register. destruct (class_with_base name (vm_any s) (vm_heap s)) as [[c h1]|e| |] eqn:E1; try discriminate. cbn [obind].
  destruct (add_methods c ms h1) as [h2|e| |] eqn:E2; try discriminate. cbn [obind].
  destruct (add_fields c fs h2) as [h3|e| |] eqn:E3; try discriminate. cbn [obind].
  intros E; injection E as <-. cbn [vm_heap]. econstructor; [eapply HNewClass; exact E1|].
  eapply hs_trans; [eapply add_methods_steps; exact E2|eapply add_fields_steps; exact E3].
Qed.

Lemma hs_inv h h' : heap_steps h h' -> inv_of h -> inv_of h'.
Proof. induction 1; auto. intros. apply IHheap_steps. eapply inv_change; eauto. Qed.

Lemma obind_Ok {A B} (m : outcome A) (f : A -> outcome B) b : obind m f = Ok b -> exists a, m = Ok a /\ f a = Ok b.
Proof. destruct m; cbn; intros; try discriminate. eauto. Qed.

Lemma any_inv : inv_of (snd (class_new "Any" heap_empty)).
Proof.
  unfold inv_of, inv_on. cbn. repeat split.
  - destruct c as [|[|c]]; cbn in H; try discriminate. now injection H as <- _ _ _ _.
  - destruct c as [|[|c]]; cbn in H; try discriminate. injection H as _ <- <- _ _. reflexivity.
  - destruct c as [|[|c]]; cbn in H; try discriminate. injection H as _ _ _ <- _. exists (MkObject None 0). auto.
  - intros [|a] o H; discriminate.
  - intros [|[|o]] ob H; cbn in H; try discriminate. injection H as <-. cbn. lia.
  - intros [|[|o]] ob [|[|o']] ob' H H'; cbn in H, H'; try discriminate. congruence.
  - intros [|a] o c ti tis base o' name H; discriminate.
  - intros [|a] o a' H; discriminate.
Qed.

Lemma runtime_new_inv s : runtime_new = Ok s -> inv_of (vm_heap s).
Proof.
  unfold runtime_new. pose proof any_inv as I. destruct (class_new "Any" heap_empty) as [any h0]. cbn [snd] in I.
  intros E. apply obind_Ok in E as (h1 & E1 & E).
  apply obind_Ok in E as ([mc h2] & E2 & E). cbv zeta in E.
  apply obind_Ok in E as (s1 & R1 & E).
  apply obind_Ok in E as (s2 & R2 & E).
  apply obind_Ok in E as (s3 & R3 & E).
  apply obind_Ok in E as (s4 & R4 & E).
  apply obind_Ok in E as (s5 & R5 & E).
  apply obind_Ok in E as (s6 & R6 & E).
  apply obind_Ok in E as (s7 & R7 & E).
  apply register_steps in R1, R2, R3, R4, R5, R6, R7, E.
  apply (hs_inv _ _ E), (hs_inv _ _ R7), (hs_inv _ _ R6), (hs_inv _ _ R5), (hs_inv _ _ R4), (hs_inv _ _ R3), (hs_inv _ _ R2), (hs_inv _ _ R1).
  cbn [vm_heap]. eapply inv_change; [eapply HNewClass; exact E2|]. eapply hs_inv; [eapply add_methods_steps; exact E1|exact I].
Qed.

Lemma steps_inv s s' : vm_steps s s' -> inv_of (vm_heap s) -> inv_of (vm_heap s').
Proof.
  induction 1 as [s|s1 s2 s3 H _ IH]; [auto|]. intros I. apply IH. destruct H; try exact I.
  eapply inv_change; eauto.
Qed.

Lemma reachable_inv w s : reachable w s -> heap_inv (vm_heap s).
Proof.
  intros (s0 & E0 & E). apply inv_of_inv. eapply steps_inv; [eapply executes_steps; exact E|]. now apply runtime_new_inv.
Qed.

(** What never changes. *)
Lemma steps_kinds s s' : vm_steps s s' -> vm_kinds s' = vm_kinds s /\ vm_any s' = vm_any s /\ vm_module_class s' = vm_module_class s.
Proof. induction 1 as [s|s1 s2 s3 H _ IH]; [auto|]. destruct IH as (-> & -> & ->). destruct H; auto. Qed.

Lemma runtime_new_kinds : omap (fun s => map fst (vm_kinds s)) runtime_new
  = Ok [KdArray; KdBool; KdClass; KdFloat; KdFunction; KdInt; KdString; KdUnit].
Proof. vm_compute. reflexivity. Qed.
Lemma reachable_kinds w s : reachable w s ->
  map fst (vm_kinds s) = [KdArray; KdBool; KdClass; KdFloat; KdFunction; KdInt; KdString; KdUnit].
Proof.
  intros (s0 & E0 & E). apply executes_steps, steps_kinds in E as (-> & _). pose proof runtime_new_kinds as K. rewrite E0 in K.
  now injection K.
Qed.
