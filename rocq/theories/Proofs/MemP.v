(** The relation between the interpreter's variables and the machine's slots and captured variables. *)
From Verif.Spec Require Import SupportSpec.
From Verif.Proofs Require Import StackP VmPrimP SharingP ReachP CodeP.
#[local] Open Scope string_scope.
#[local] Open Scope list_scope.
#[local] Open Scope nat_scope.

(** Which variable (cell) lies in which stack slot, and whether a function may capture it. *)
Definition view := nat -> option (nat * bool).
(** The variable each captured-variable record stands for; [None]: made before. *)
Definition names_of := list (option nat).
Definition names (rho : names_of) (u l : nat) : Prop := nth_error rho u = Some (Some l).
Definition ext (rho rho' : names_of) : Prop := exists r, rho' = rho ++ r.

Lemma ext_refl rho : ext rho rho.
Proof. exists []. now rewrite app_nil_r. Qed.
Lemma ext_trans a b c : ext a b -> ext b c -> ext a c.
Proof. intros (x & ->) (y & ->). exists (x ++ y). now rewrite app_assoc. Qed.
Lemma ext_names a b u l : ext a b -> names a u l -> names b u l.
Proof. intros (x & ->) H. unfold names. rewrite nth_error_app1; auto. apply nth_error_Some. unfold names in H. congruence. Qed.

Definition drop (i : nat) (V : view) : view := fun j => if Nat.eqb j i then None else V j.
Definition put (i l : nat) (fl : bool) (V : view) : view := fun j => if Nat.eqb j i then Some (l, fl) else V j.
Definition cut (n : nat) (V : view) : view := fun j => if j <? n then V j else None.

Lemma put_same i l fl V : put i l fl V i = Some (l, fl).
Proof. unfold put. now rewrite Nat.eqb_refl. Qed.
Lemma put_other i l fl V j : j <> i -> put i l fl V j = V j.
Proof. unfold put. intros. destruct (Nat.eqb_spec j i); congruence. Qed.
Lemma drop_same i V : drop i V i = None.
Proof. unfold drop. now rewrite Nat.eqb_refl. Qed.
Lemma drop_other i V j : j <> i -> drop i V j = V j.
Proof. unfold drop. intros. destruct (Nat.eqb_spec j i); congruence. Qed.
Lemma cut_below n V i : i < n -> cut n V i = V i.
Proof. unfold cut. intros. destruct (Nat.ltb_spec i n); [reflexivity|lia]. Qed.
Lemma cut_above n V i : n <= i -> cut n V i = None.
Proof. unfold cut. intros. destruct (Nat.ltb_spec i n); [lia|reflexivity]. Qed.

Section Mem.
Variable lit : nat -> fn_bytecode.

Definition fn_is (n : nat) (src : source) (outer : list level) (ups : list upvalue_desc) : Prop :=
  let '(es, t) := body_parts (src_body src) in
  fn_body lit (code lit) n (src_self src) (src_args src) (src_role src) (src_first src) es t outer ups.

(** The captured variables [U] of a function are those its code means, in environment [E]. *)
Record captured (rho : names_of) (E : env) (outer : list level) (ups : list upvalue_desc) (U : list nat) : Prop := {
  cp_len : List.length U = List.length ups;
  cp_known : forall i u, nth_error U i = Some u -> exists l, names rho u l;
  cp_hidden : forall x, hidden x outer -> assoc_get x E = None;
  cp_reach : forall i x, reach ups outer i x -> exists l u, assoc_get x E = Some l /\ nth_error U i = Some u /\ names rho u l }.

Record Inv (rho : names_of) (V : view) (b : list value) (m : memory) (K : links) : Prop := {
  i_val : forall i l fl v, V i = Some (l, fl) -> nth_error (m_cells m) l = Some (Some v) -> nth_error b i = Some v;
  i_bound : forall i l fl, V i = Some (l, fl) -> i < List.length b /\ l < List.length (m_cells m);
  i_inj : forall i j l f g, V i = Some (l, f) -> V j = Some (l, g) -> i = j;
  i_len : List.length rho = List.length (k_upvalues K);
  i_rbound : forall u l, names rho u l -> l < List.length (m_cells m);
  i_rinj : forall u u' l, names rho u l -> names rho u' l -> u = u';
  i_nodup : NoDup (k_open K);
  i_open : forall u, In u (k_open K) -> exists l i, names rho u l /\ nth_error (k_upvalues K) u = Some (Open i);
  i_slot : forall u l i, names rho u l -> nth_error (k_upvalues K) u = Some (Open i) -> In u (k_open K) /\ V i = Some (l, true);
  i_closed : forall u l v, names rho u l -> nth_error (k_upvalues K) u = Some (Closed v) ->
     (forall i fl, V i <> Some (l, fl)) /\ (forall v', nth_error (m_cells m) l = Some (Some v') -> v = v');
  i_clen : List.length (m_closures m) = List.length (k_closures K);
  i_closures : forall a c, nth_error (m_closures m) a = Some (Some c) ->
     exists U outer ups, nth_error (k_closures K) a = Some (MkClosure (lit (cl_number c)) U) /\
       fn_is (cl_number c) (cl_source c) outer ups /\ captured rho (cl_env c) outer ups U;
  i_fns : forall n src, In (n, src) (m_fns m) -> exists outer, fn_is n src outer [] }.

Lemma captured_ext rho rho' E outer ups U : ext rho rho' -> captured rho E outer ups U -> captured rho' E outer ups U.
Proof.
  intros X [A B C D]. split; auto.
  - intros i u H. destruct (B i u H) as (l & Hl). eauto using ext_names.
  - intros i x H. destruct (D i x H) as (l & u & H1 & H2 & H3). eauto 8 using ext_names.
Qed.

Lemma Inv_vm rho V b m K s : Inv rho V b m K -> Inv rho V b (set_vm s m) K.
Proof. intros [A B C D E F G H I J L M N]. split; auto. Qed.

(** Cells of the stack that hold no variable are free. *)
Lemma Inv_stack rho V b b' m K : Inv rho V b m K -> (forall i, V i <> None -> nth_error b' i = nth_error b i) -> Inv rho V b' m K.
Proof.
  intros [A B C D E F G H I J L M N] X. split; auto.
  - intros i l fl v H1 H2. rewrite X by congruence. eauto.
  - intros i l fl H1. destruct (B i l fl H1) as (L1 & L2). split; auto. apply nth_error_Some. rewrite X by congruence. now apply nth_error_Some.
Qed.

(** Forgetting variables that no function captures. *)
Lemma Inv_forget rho V V' b m K : Inv rho V b m K ->
  (forall i, V' i = V i \/ V' i = None /\ forall l fl, V i = Some (l, fl) -> fl = false) -> Inv rho V' b m K.
Proof.
  intros [A B C D E F G H I J L M N] X.
  assert (Y : forall i l fl, V' i = Some (l, fl) -> V i = Some (l, fl)) by (intros i l fl Q; destruct (X i) as [<-|(Z & _)]; congruence).
  split; eauto.
  - intros u l i H1 H2. destruct (I u l i H1 H2) as (I1 & I2). split; auto.
    destruct (X i) as [->|(_ & Z)]; auto. now specialize (Z _ _ I2).
  - intros u l v H1 H2. destruct (J u l v H1 H2) as (J1 & J2). split; auto. intros i fl Q. exact (J1 i fl (Y _ _ _ Q)).
Qed.

Lemma Inv_view rho V V' b m K : Inv rho V b m K -> (forall i, V' i = V i) -> Inv rho V' b m K.
Proof. intros H X. eapply Inv_forget; eauto. Qed.

(** A new variable. *)
Lemma Inv_put rho V b m K i fl x : Inv rho V b m K -> V i = None ->
  match x with Some v => nth_error b i = Some v | None => i < List.length b end ->
  Inv rho (put i (List.length (m_cells m)) fl V) b (set_cells (m_cells m ++ [x]) m) K.
Proof.
  intros [A B C D E F G H I J L M N] Vi X.
  assert (Li : i < List.length b) by (destruct x; auto; apply nth_error_Some; congruence).
  assert (Old : forall l y, l < List.length (m_cells m) -> nth_error (m_cells m ++ [x]) l = y -> nth_error (m_cells m) l = y).
  { intros l y Hl Q. now rewrite nth_error_app1 in Q by auto. }
  assert (New : forall l, names rho l (List.length (m_cells m)) -> False) by (intros l Q; apply E in Q; lia).
  split; cbn [set_cells m_cells m_closures m_fns]; rewrite ?app_length; cbn [List.length]; auto.
  - intros j l f v Q1 Q2. unfold put in Q1. destruct (Nat.eqb_spec j i) as [->|Nj].
    + injection Q1 as <- <-. rewrite nth_error_app2, Nat.sub_diag in Q2 by lia. cbn in Q2. destruct x; [|discriminate]. now injection Q2 as ->.
    + destruct (B _ _ _ Q1) as (_ & L2). eapply A; eauto.
  - intros j l f Q1. unfold put in Q1. destruct (Nat.eqb_spec j i) as [->|Nj].
    + injection Q1 as <- <-. lia.
    + destruct (B _ _ _ Q1). lia.
  - intros j j' l f g Q1 Q2. unfold put in Q1, Q2.
    destruct (Nat.eqb_spec j i) as [->|Nj]; destruct (Nat.eqb_spec j' i) as [->|Nj']; auto.
    + injection Q1 as <- <-. apply B in Q2. lia.
    + injection Q2 as <- <-. apply B in Q1. lia.
    + eauto.
  - intros u l Q. apply E in Q. lia.
  - intros u l j Q1 Q2. destruct (I u l j Q1 Q2) as (I1 & I2). split; auto. rewrite put_other; congruence.
  - intros u l v Q1 Q2. destruct (J u l v Q1 Q2) as (J1 & J2). split.
    + intros j f Q. unfold put in Q. destruct (Nat.eqb_spec j i) as [->|Nj]; [injection Q as <- <-; eauto|eapply J1; eauto].
    + intros v' Q. apply J2. eapply Old; eauto.
Qed.

(** Writing a variable in its slot. *)
Lemma Inv_write rho V b m K i l fl v : Inv rho V b m K -> V i = Some (l, fl) -> Inv rho V (set_nth b i v) (write l v m) K.
Proof.
  intros [A B C D E F G H I J L M N] Vi. destruct (B _ _ _ Vi) as (L1 & L2).
  split; cbn [write set_cells m_cells m_closures m_fns]; rewrite ?set_nth_len; auto.
  - intros j l' f v' Q1 Q2. destruct (Nat.eq_dec j i) as [->|Nj].
    + rewrite Vi in Q1. injection Q1 as <- <-. rewrite nth_error_set_nth_eq in Q2 by auto. injection Q2 as <-. now apply nth_error_set_nth_eq.
    + rewrite nth_error_set_nth_neq by congruence. rewrite nth_error_set_nth_neq in Q2 by (intros <-; eauto). eauto.
  - intros u l' v' Q1 Q2. destruct (J u l' v' Q1 Q2) as (J1 & J2). split; auto.
    intros v2 Q. rewrite nth_error_set_nth_neq in Q by (intros <-; eapply J1; eauto). auto.
Qed.

(** Writing a variable that has left the stack. *)
Lemma Inv_write_closed rho V b m K u l v0 v : Inv rho V b m K -> names rho u l -> nth_error (k_upvalues K) u = Some (Closed v0) ->
  Inv rho V b (write l v m) (Links (k_closures K) (set_nth (k_upvalues K) u (Closed v)) (k_open K)).
Proof.
  intros [A B C D E F G H I J L M N] Hu Hc.
  assert (Lu : u < List.length (k_upvalues K)) by (apply nth_error_Some; congruence).
  assert (Ll : l < List.length (m_cells m)) by eauto.
  destruct (J _ _ _ Hu Hc) as (NV & _).
  split; cbn [write set_cells m_cells m_closures m_fns k_closures k_upvalues k_open]; rewrite ?set_nth_len; auto.
  - intros j l' f v' Q1 Q2. rewrite nth_error_set_nth_neq in Q2 by (intros <-; eapply NV; eauto). eauto.
  - intros u' Q. destruct (H u' Q) as (l' & i & Q1 & Q2). exists l', i. split; auto.
    rewrite nth_error_set_nth_neq; auto. intros <-. congruence.
  - intros u' l' i Q1 Q2. destruct (Nat.eq_dec u' u) as [->|Nu].
    + rewrite nth_error_set_nth_eq in Q2 by auto. discriminate.
    + rewrite nth_error_set_nth_neq in Q2 by congruence. eauto.
  - intros u' l' v' Q1 Q2. destruct (Nat.eq_dec u' u) as [->|Nu].
    + rewrite nth_error_set_nth_eq in Q2 by auto. injection Q2 as <-.
      assert (l' = l) by (unfold names in *; congruence). subst l'. split; auto.
      intros v2 Q. rewrite nth_error_set_nth_eq in Q by auto. congruence.
    + rewrite nth_error_set_nth_neq in Q2 by congruence. destruct (J _ _ _ Q1 Q2) as (J1 & J2). split; auto.
      intros v2 Q. rewrite nth_error_set_nth_neq in Q by (intros <-; apply Nu; eauto). auto.
Qed.

(** Looking for the open record of a slot. *)
Lemma find_inv rho V b m K s i l : Inv rho V b m K -> V i = Some (l, true) -> vm_heap s = hover K (vm_heap (m_vm m)) ->
  exists res, find_open i (k_open K) 0 (vm_heap s) = Ok res /\
    match res with
    | Some (j, u) => nth_error (k_open K) j = Some u /\ nth_error (k_upvalues K) u = Some (Open i) /\ names rho u l
    | None => forall u, ~ names rho u l
    end.
Proof.
  intros [A B C D E F G H I J L M N] Vi Eh.
  destruct (find_open_spec i (vm_heap s) (k_open K) 0) as (res & E1 & P).
  { intros u Hu. destruct (H u Hu) as (l' & j & _ & Q). exists j. rewrite Eh. exact Q. }
  exists res. split; auto. rewrite Eh in P. change (h_upvalues (hover K (vm_heap (m_vm m)))) with (k_upvalues K) in P.
  destruct res as [[j u]|].
  - destruct P as (n & -> & P1 & P2). split; [exact P1|]. split; [exact P2|].
    destruct (H u) as (l' & j & Q1 & Q2); [eapply nth_error_In; eauto|].
    destruct (I _ _ _ Q1 P2) as (_ & Q3). congruence.
  - intros u Q. destruct (nth_error (k_upvalues K) u) as [[j|v]|] eqn:Eu.
    + destruct (I _ _ _ Q Eu) as (Q1 & Q2). assert (j = i) by eauto. subst j. exact (P u Q1 Eu).
    + destruct (J _ _ _ Q Eu) as (Q1 & _). exact (Q1 _ _ Vi).
    + apply nth_error_None in Eu. assert (u < List.length rho) by (apply nth_error_Some; unfold names in Q; congruence). lia.
Qed.

(** Closing a variable: it leaves the stack. *)
Lemma Inv_close_none rho V b m K i l : Inv rho V b m K -> V i = Some (l, true) -> (forall u, ~ names rho u l) ->
  Inv rho (drop i V) (set_nth b i VNull) m K.
Proof.
  intros [A B C D E F G H I J L M N] Vi Nu.
  assert (Y : forall j l' fl, drop i V j = Some (l', fl) -> j <> i /\ V j = Some (l', fl)).
  { intros j l' fl Q. unfold drop in Q. destruct (Nat.eqb_spec j i); [discriminate|]. auto. }
  split; rewrite ?set_nth_len; auto.
  - intros j l' f v Q1 Q2. apply Y in Q1 as (Nj & Q1). rewrite nth_error_set_nth_neq by congruence. eauto.
  - intros j l' f Q1. apply Y in Q1 as (Nj & Q1). eauto.
  - intros j j' l' f g Q1 Q2. apply Y in Q1 as (_ & Q1). apply Y in Q2 as (_ & Q2). eauto.
  - intros u l' j Q1 Q2. destruct (I _ _ _ Q1 Q2) as (I1 & I2). split; auto. rewrite drop_other; auto.
    intros ->. rewrite Vi in I2. injection I2 as ->. exact (Nu _ Q1).
  - intros u l' v Q1 Q2. destruct (J _ _ _ Q1 Q2) as (J1 & J2). split; auto. intros j fl Q. apply Y in Q as (_ & Q). eapply J1; eauto.
Qed.
Lemma Inv_close_some rho V b m K i l j u v : Inv rho V b m K -> V i = Some (l, true) ->
  nth_error (k_open K) j = Some u -> nth_error (k_upvalues K) u = Some (Open i) -> names rho u l -> nth_error b i = Some v ->
  Inv rho (drop i V) (set_nth b i VNull) m (Links (k_closures K) (set_nth (k_upvalues K) u (Closed v)) (remove_nth j (k_open K))).
Proof.
  intros [A B C D E F G H I J L M N] Vi Ej Eu Hu Hb.
  assert (Lu : u < List.length (k_upvalues K)) by (apply nth_error_Some; congruence).
  assert (Y : forall j l' fl, drop i V j = Some (l', fl) -> j <> i /\ V j = Some (l', fl)).
  { intros j' l' fl Q. unfold drop in Q. destruct (Nat.eqb_spec j' i); [discriminate|]. auto. }
  split; cbn [k_closures k_upvalues k_open]; rewrite ?set_nth_len; auto.
  - intros j' l' f v' Q1 Q2. apply Y in Q1 as (Nj & Q1). rewrite nth_error_set_nth_neq by congruence. eauto.
  - intros j' l' f Q1. apply Y in Q1 as (Nj & Q1). eauto.
  - intros j' j2 l' f g Q1 Q2. apply Y in Q1 as (_ & Q1). apply Y in Q2 as (_ & Q2). eauto.
  - now apply remove_nth_nodup.
  - intros u' Q. assert (Nu : u' <> u) by (intros ->; eapply remove_nth_gone; eauto). apply remove_nth_in in Q.
    destruct (H _ Q) as (l' & i' & Q1 & Q2). exists l', i'. split; auto. now rewrite nth_error_set_nth_neq by congruence.
  - intros u' l' i' Q1 Q2. assert (Nu : u' <> u). { intros ->. rewrite nth_error_set_nth_eq in Q2 by auto. discriminate. }
    rewrite nth_error_set_nth_neq in Q2 by congruence. destruct (I _ _ _ Q1 Q2) as (I1 & I2). split.
    + eapply remove_nth_other; eauto.
    + rewrite drop_other; auto. intros ->. apply Nu. rewrite Vi in I2. injection I2 as ->. eauto.
  - intros u' l' v' Q1 Q2. destruct (Nat.eq_dec u' u) as [->|Nu].
    + rewrite nth_error_set_nth_eq in Q2 by auto. injection Q2 as <-. assert (l' = l) by (unfold names in *; congruence). subst l'. split.
      * intros j' fl Q. apply Y in Q as (Nj & Q). apply Nj. eauto.
      * intros v' Q. specialize (A _ _ _ _ Vi Q). congruence.
    + rewrite nth_error_set_nth_neq in Q2 by congruence. destruct (J _ _ _ Q1 Q2) as (J1 & J2). split; auto.
      intros j' fl Q. apply Y in Q as (_ & Q). eapply J1; eauto.
Qed.

(** Capturing a variable for the first time. *)
Lemma Inv_capture rho V b m K i l : Inv rho V b m K -> V i = Some (l, true) -> (forall u, ~ names rho u l) ->
  Inv (rho ++ [Some l]) V b m
    (Links (k_closures K) (k_upvalues K ++ [Open i]) (k_open K ++ [List.length (k_upvalues K)])).
Proof.
  intros [A B C D E F G H I J L M N] Vi Nu.
  assert (X : ext rho (rho ++ [Some l])) by (exists [Some l]; reflexivity).
  assert (Y : forall u l', names (rho ++ [Some l]) u l' -> names rho u l' \/ u = List.length rho /\ l' = l).
  { intros u l' Q. unfold names in Q. destruct (Nat.lt_ge_cases u (List.length rho)) as [Q1|Q1].
    - rewrite nth_error_app1 in Q by auto. now left.
    - right. rewrite nth_error_app2 in Q by auto. destruct (u - List.length rho) as [|n] eqn:En; cbn in Q; [injection Q as <-; split; auto; lia|].
      destruct n; discriminate. }
  assert (Z : forall u l', names rho u l' -> u < List.length (k_upvalues K)).
  { intros u l' Q. rewrite <- D. apply nth_error_Some. unfold names in Q. congruence. }
  assert (Nw : names (rho ++ [Some l]) (List.length rho) l) by (unfold names; rewrite nth_error_app2, Nat.sub_diag by auto; reflexivity).
  split; cbn [k_closures k_upvalues k_open]; rewrite ?app_length; cbn [List.length]; auto.
  - intros u l' Q. apply Y in Q as [Q|(-> & ->)]; eauto. apply (B _ _ _ Vi).
  - intros u u' l' Q1 Q2. apply Y in Q1 as [Q1|(-> & ->)]; apply Y in Q2 as [Q2|(-> & E2)]; eauto.
    + subst l'. exfalso. eapply Nu; eauto.
    + exfalso. eapply Nu; eauto.
  - apply NoDup_snoc; auto. intros Q. destruct (H _ Q) as (l' & i' & Q1 & _). apply Z in Q1. lia.
  - intros u Q. apply in_app_iff in Q as [Q|[<-|[]]].
    + destruct (H _ Q) as (l' & i' & Q1 & Q2). exists l', i'. split; [eapply ext_names; eauto|]. rewrite nth_error_app1 by eauto. auto.
    + exists l, i. rewrite <- D. split; auto. rewrite D, nth_error_app2, Nat.sub_diag by auto. reflexivity.
  - intros u l' i' Q1 Q2. rewrite in_app_iff. apply Y in Q1 as [Q1|(-> & ->)].
    + rewrite nth_error_app1 in Q2 by eauto. destruct (I _ _ _ Q1 Q2). auto.
    + rewrite D, nth_error_app2, Nat.sub_diag in Q2 by auto. cbn in Q2. injection Q2 as <-. rewrite D. split; auto. right. now left.
  - intros u l' v Q1 Q2. apply Y in Q1 as [Q1|(-> & ->)].
    + rewrite nth_error_app1 in Q2 by eauto. eauto.
    + rewrite D, nth_error_app2, Nat.sub_diag in Q2 by auto. discriminate.
  - intros a c Q. destruct (M _ _ Q) as (U & o & ups & Q1 & Q2 & Q3). exists U, o, ups. repeat split; auto; eapply captured_ext; eauto.
Qed.

(** A new function value. *)
Lemma Inv_closure rho V b m K c U outer ups : Inv rho V b m K ->
  fn_is (cl_number c) (cl_source c) outer ups -> captured rho (cl_env c) outer ups U ->
  Inv rho V b (Memory (m_vm m) (m_cells m) (m_closures m ++ [Some c]) (m_fns m))
    (Links (k_closures K ++ [MkClosure (lit (cl_number c)) U]) (k_upvalues K) (k_open K)).
Proof.
  intros [A B C D E F G H I J L M N] Hf Hc. split; cbn [m_vm m_cells m_closures m_fns k_closures k_upvalues k_open]; rewrite ?app_length; cbn [List.length]; auto.
  intros a c' Q. destruct (Nat.lt_ge_cases a (List.length (m_closures m))) as [Q1|Q1].
  - rewrite nth_error_app1 in Q by auto. destruct (M _ _ Q) as (U' & o & ups' & Q2 & Q3 & Q4). exists U', o, ups'.
    rewrite nth_error_app1 by lia. auto.
  - rewrite nth_error_app2 in Q by auto. destruct (a - List.length (m_closures m)) as [|n] eqn:En; [|destruct n; discriminate].
    cbn in Q. injection Q as <-. exists U, outer, ups. replace a with (List.length (k_closures K)) by lia.
    rewrite nth_error_app2, Nat.sub_diag by lia. auto.
Qed.
Lemma Inv_fn rho V b m K n src outer : Inv rho V b m K -> fn_is n src outer [] ->
  Inv rho V b (Memory (m_vm m) (m_cells m) (m_closures m) ((n, src) :: m_fns m)) K.
Proof.
  intros [A B C D E F G H I J L M N] Hf. split; auto.
  intros n' src' [Q|Q]; [injection Q as <- <-; eauto|eauto].
Qed.
End Mem.
