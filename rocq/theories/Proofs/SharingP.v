(** Captured variables refine storage locations. *)
From Verif.Spec Require Export SharingSpec.
From Verif.Proofs Require Export RunP.

Lemma set_nth_spec_ {A} (l : list A) i x j : i < List.length l ->
  List.length (set_nth l i x) = List.length l /\ nth_error (set_nth l i x) j = if Nat.eqb j i then Some x else nth_error l j.
Proof.
  intros H. split; [apply set_nth_length|]. revert i j H. induction l as [|y l IH]; intros [|i] [|j] H; cbn in *; try lia; try reflexivity.
  apply IH. lia.
Qed.
Lemma update_eq {A} (f : nat -> A) i x : update f i x i = x.
Proof. unfold update. now rewrite Nat.eqb_refl. Qed.
Lemma update_neq {A} (f : nat -> A) i x j : j <> i -> update f i x j = f j.
Proof. unfold update. intros H. destruct (Nat.eqb_spec j i); congruence. Qed.

Lemma Forall2_nth_error_l {A B} (P : A -> B -> Prop) l l' : Forall2 P l l' -> forall i x, nth_error l i = Some x ->
  exists y, nth_error l' i = Some y /\ P x y.
Proof. induction 1; intros [|i] z E; cbn in *; try discriminate; [injection E as <-; eauto|eauto]. Qed.
Lemma Forall2_nth_error_r {A B} (P : A -> B -> Prop) l l' : Forall2 P l l' -> forall i y, nth_error l' i = Some y ->
  exists x, nth_error l i = Some x /\ P x y.
Proof. induction 1; intros [|i] z E; cbn in *; try discriminate; [injection E as <-; eauto|eauto]. Qed.
Lemma Forall2_impl {A B} (P Q : A -> B -> Prop) l l' : (forall x y, P x y -> Q x y) -> Forall2 P l l' -> Forall2 Q l l'.
Proof. intros H. induction 1; constructor; auto. Qed.
Lemma NoDup_snoc {A} (l : list A) x : NoDup l -> ~ In x l -> NoDup (l ++ [x]).
Proof.
  induction l as [|y l IH]; intros N H; cbn; [repeat constructor; auto|]. inversion N; subst. constructor.
  - rewrite in_app_iff. intros [I|[->|[]]]; [auto|]. apply H. now left.
  - apply IH; auto. intros I. apply H. now right.
Qed.

Lemma find_open_spec slot h : forall opens idx,
  (forall u, In u opens -> exists i, nth_error (h_upvalues h) u = Some (Open i)) ->
  exists res, find_open slot opens idx h = Ok res /\
    match res with
    | Some (k, u) => exists m, k = idx + m /\ nth_error opens m = Some u /\ nth_error (h_upvalues h) u = Some (Open slot)
    | None => forall u, In u opens -> nth_error (h_upvalues h) u <> Some (Open slot)
    end.
Proof.
  induction opens as [|u opens IH]; intros idx H; cbn [find_open].
  - exists None. split; [reflexivity|]. intros ? [].
  - destruct (IH (S idx)) as ([[k u']|] & E & P); [intros; apply H; now right| |]; rewrite E; cbn [obind].
    + exists (Some (k, u')). split; [reflexivity|]. destruct P as (m & -> & P1 & P2). exists (S m). split; [lia|]. auto.
    + destruct (H u (or_introl eq_refl)) as (i & Ei). unfold upvalue_state_of. rewrite Ei. cbn [obind].
      destruct (Nat.eqb_spec i slot) as [->|N].
      * exists (Some (idx, u)). split; [reflexivity|]. exists 0. split; [lia|]. auto.
      * exists None. split; [reflexivity|]. intros u' [<-|I]; [congruence|auto].
Qed.

Lemma remove_nth_in {A} (l : list A) : forall m x, In x (remove_nth m l) -> In x l.
Proof. induction l as [|y l IH]; intros [|m] x; cbn; intuition eauto. Qed.
Lemma remove_nth_nodup (l : list nat) : forall m, NoDup l -> NoDup (remove_nth m l).
Proof.
  induction l as [|y l IH]; intros [|m] N; cbn [remove_nth]; auto; inversion N; subst; auto.
  constructor; auto. intros I. apply remove_nth_in in I. contradiction.
Qed.
Lemma remove_nth_other (l : list nat) : forall m u x, NoDup l -> nth_error l m = Some u -> In x l -> x <> u -> In x (remove_nth m l).
Proof.
  induction l as [|y l IH]; intros [|m] u x N E I D; cbn in *; try discriminate; inversion N; subst.
  - destruct I as [->|I]; [congruence|auto].
  - destruct I as [->|I]; [now left|right; eauto].
Qed.
Lemma remove_nth_gone (l : list nat) : forall m u, NoDup l -> nth_error l m = Some u -> ~ In u (remove_nth m l).
Proof.
  induction l as [|y l IH]; intros [|m] u N E; cbn in *; try discriminate; inversion N; subst.
  - now injection E as ->.
  - intros [->|I]; [apply nth_error_In in E; contradiction|eapply IH; eauto].
Qed.

(** The invariant: [U] pairs every upvalue created so far with its variable. *)
Record sharing (f : fn_bytecode) (a : vars) (b : list value) (s : vm) (ks : list nat) (U : list (nat * nat)) : Prop := {
  sh_cells : forall i, i < List.length b -> nth_error b i = Some (av_value a (av_slot a i));
  sh_inj : forall i j, i < List.length b -> j < List.length b -> av_slot a i = av_slot a j -> i = j;
  sh_next : forall i, i < List.length b -> av_slot a i < av_next a;
  sh_U : forall u x, In (u, x) U -> x < av_next a;
  sh_fun : forall u x u' x', In (u, x) U -> In (u', x') U -> (u = u' <-> x = x');
  sh_state : forall u x, In (u, x) U ->
    (exists i, nth_error (h_upvalues (vm_heap s)) u = Some (Open i) /\ i < List.length b /\ av_slot a i = x /\ In u (vm_open s)) \/
    (nth_error (h_upvalues (vm_heap s)) u = Some (Closed (av_value a x)) /\ forall i, i < List.length b -> av_slot a i <> x);
  sh_open : forall u, In u (vm_open s) -> exists x i, In (u, x) U /\ nth_error (h_upvalues (vm_heap s)) u = Some (Open i);
  sh_nodup : NoDup (vm_open s);
  sh_closures : Forall2 (fun k xs => exists us, nth_error (h_closures (vm_heap s)) k = Some (MkClosure f us) /\
      Forall2 (fun u x => In (u, x) U) us xs) ks (av_closures a) }.

Lemma sharing_initial f cells s : vm_open s = [] -> sharing f (vars_of cells) cells s [] [].
Proof.
  intros E. constructor; cbn [vars_of av_value av_slot av_next av_closures]; try contradiction; auto.
  - intros i H. now apply nth_error_nth'.
  - rewrite E. contradiction.
  - rewrite E. constructor.
Qed.

Lemma sharing_lt f a b s ks U u x : sharing f a b s ks U -> In (u, x) U -> u < List.length (h_upvalues (vm_heap s)).
Proof.
  intros I H. apply nth_error_Some. destruct (sh_state _ _ _ _ _ _ I u x H) as [(i & -> & _)|(-> & _)]; discriminate.
Qed.

(** Looking for the open upvalue of a cell. *)
Lemma find_sharing f a b s ks U k : sharing f a b s ks U -> k < List.length b ->
  exists res, find_open k (vm_open s) 0 (vm_heap s) = Ok res /\
    match res with
    | Some (m, u) => nth_error (vm_open s) m = Some u /\ nth_error (h_upvalues (vm_heap s)) u = Some (Open k) /\ In (u, av_slot a k) U
    | None => forall u, ~ In (u, av_slot a k) U
    end.
Proof.
  intros I Hk. destruct (find_open_spec k (vm_heap s) (vm_open s) 0) as (res & E & P).
  { intros u Hu. destruct (sh_open _ _ _ _ _ _ I u Hu) as (x & i & _ & Ei). eauto. }
  exists res. split; [exact E|]. destruct res as [[m u]|].
  - destruct P as (m' & -> & P1 & P2). cbn [Nat.add]. split; [exact P1|]. split; [exact P2|].
    destruct (sh_open _ _ _ _ _ _ I u (nth_error_In _ _ P1)) as (x & i & Hx & _).
    destruct (sh_state _ _ _ _ _ _ I u x Hx) as [(i' & E1 & _ & E2 & _)|(E1 & _)]; [|congruence].
    rewrite P2 in E1. injection E1 as <-. now rewrite E2.
  - intros u Hu. destruct (sh_state _ _ _ _ _ _ I u _ Hu) as [(i & E1 & Hi & E2 & Ho)|(_ & N)].
    + apply (sh_inj _ _ _ _ _ _ I) in E2; auto. subst i. exact (P u Ho E1).
    + exact (N k Hk eq_refl).
Qed.

Lemma with_stack_open b t s : vm_open (with_stack b t s) = vm_open s. Proof. reflexivity. Qed.

(** Capturing one variable of the frame. *)
Lemma capture_all f a b t ks ups within fr : forall cs s U xs,
  sharing f a b s ks U ->
  match within with
  | None => ups = None
  | Some k => exists ad, nth_error ks k = Some ad /\ exists us, nth_error (h_closures (vm_heap s)) ad = Some (MkClosure f us) /\ ups = Some us
  end ->
  all_some (map (capture_var (List.length b) a fr within) cs) = Some xs ->
  exists us s' U', capture fr ups (map code_of cs) (with_stack b t s) = ROk us (with_stack b t s') /\
    sharing f a b s' ks U' /\ (forall p, In p U -> In p U') /\ Forall2 (fun u x => In (u, x) U') us xs /\
    h_closures (vm_heap s') = h_closures (vm_heap s).
Proof.
  induction cs as [|[p i] cs IH]; intros s U xs I W E; cbn [map all_some] in E.
  - injection E as <-. exists [], s, U. split; [reflexivity|]. split; [exact I|]. split; [auto|]. split; [constructor|reflexivity].
  - destruct (capture_var (List.length b) a fr within (p, i)) as [x|] eqn:Ex; [|discriminate].
    destruct (all_some _) as [xs'|] eqn:Exs; [|discriminate]. injection E as <-.
    unfold capture_var in Ex. cbn [fst snd] in Ex. cbn [map capture]. unfold code_of at 1. cbn [fst snd].
    (* one captured variable *)
    assert (C : exists u s1 U1,
      (if Nat.eqb (if p then 1 else 0) 1 then
           let* found := find_open_upvalue (fr_start fr + i) in
           match found with
           | None => let* u := heap_alloc (upvalue_new_open (fr_start fr + i)) in
               (fun s => ROk u (set_open (vm_open s ++ [u]) s))
           | Some (_, u) => rret u
           end
         else upvalue_at ups i) (with_stack b t s) = ROk u (with_stack b t s1) /\
      sharing f a b s1 ks U1 /\ (forall p, In p U -> In p U1) /\ In (u, x) U1 /\
      h_closures (vm_heap s1) = h_closures (vm_heap s)).
    { destruct p; cbn [Nat.eqb].
      - unfold cell in Ex. destruct (Nat.ltb_spec (fr_start fr + i) (fr_end fr)) as [L1|]; [|discriminate].
        destruct (Nat.leb_spec (fr_end fr) (List.length b)) as [L2|]; [|discriminate]. cbn [andb] in Ex. injection Ex as <-.
        set (k := fr_start fr + i) in *. assert (Hk : k < List.length b) by lia.
        destruct (find_sharing _ _ _ _ _ _ k I Hk) as (res & E & P).
        unfold rbind at 1. unfold find_open_upvalue. cbn [vm_heap with_stack set_stack vm_open]. rewrite E. cbn [VM.lift].
        destruct res as [[m u]|].
        + exists u, s, U. destruct P as (P1 & P2 & P3). split; [reflexivity|]. split; [exact I|]. split; [auto|]. split; [exact P3|reflexivity].
        + set (u := List.length (h_upvalues (vm_heap s))).
          exists u, (set_open (vm_open s ++ [u]) (set_heap (hset_upvalues (h_upvalues (vm_heap s) ++ [Open k]) (vm_heap s)) s)), ((u, av_slot a k) :: U).
          split; [reflexivity|]. split; [|split; [intros ? ?; now right|split; [now left|reflexivity]]].
          assert (UL : forall u' x', In (u', x') U -> u' < u) by (intros u' x' H; eapply sharing_lt; eauto).
          assert (OL : forall u', In u' (vm_open s) -> u' < u).
          { intros u' H. destruct (sh_open _ _ _ _ _ _ I u' H) as (x' & _ & Hx & _). eauto. }
          constructor; cbn [vm_heap set_open set_heap vm_open h_upvalues hset_upvalues h_closures].
          * apply I. * apply I. * apply I.
          * intros u' x' [[= <- <-]|H]; [now apply I|now apply (sh_U _ _ _ _ _ _ I) in H].
          * intros u1 x1 u2 x2 [[= <- <-]|H1] [[= <- <-]|H2].
            -- tauto.
            -- split; [intros <-; apply UL in H2; lia|intros <-; exfalso; eapply P; eauto].
            -- split; [intros ->; apply UL in H1; lia|intros ->; exfalso; eapply P; eauto].
            -- eapply (sh_fun _ _ _ _ _ _ I); eauto.
          * intros u' x' [[= <- <-]|H].
            -- left. exists k. rewrite nth_error_app2, Nat.sub_diag by lia. repeat split; auto. rewrite in_app_iff. right. now left.
            -- rewrite nth_error_app1 by (apply UL in H; exact H).
               destruct (sh_state _ _ _ _ _ _ I u' x' H) as [(i' & Q1 & Q2 & Q3 & Q4)|Q]; [left; exists i'|right; exact Q].
               repeat split; auto. rewrite in_app_iff. now left.
          * intros u' H. rewrite in_app_iff in H. destruct H as [H|[<-|[]]].
            -- destruct (sh_open _ _ _ _ _ _ I u' H) as (x' & i' & Q1 & Q2). exists x', i'. split; [now right|].
               rewrite nth_error_app1 by (apply UL in Q1; exact Q1). exact Q2.
            -- exists (av_slot a k), k. split; [now left|]. now rewrite nth_error_app2, Nat.sub_diag by lia.
          * apply NoDup_snoc; [apply I|]. intros H. apply OL in H. lia.
          * eapply Forall2_impl; [|apply I]. intros k' xs0 (us & Q1 & Q2). exists us. split; [exact Q1|].
            eapply Forall2_impl; [|exact Q2]. intros; now right.
      - unfold captured_var in Ex. destruct within as [k|]; [|discriminate].
        destruct W as (ad & Wk & us & Wc & ->). destruct (nth_error (av_closures a) k) as [xs|] eqn:Ek; [|discriminate].
        destruct (Forall2_nth_error_l _ _ _ (sh_closures _ _ _ _ _ _ I) _ _ Wk) as (xs0 & Ek' & us0 & Q1 & Q2).
        rewrite Ek in Ek'. injection Ek' as <-. rewrite Wc in Q1. injection Q1 as <-.
        destruct (Forall2_nth_error_r _ _ _ Q2 _ _ Ex) as (u & Eu & Hu).
        exists u, s, U. split; [|split; [exact I|split; [auto|split; [exact Hu|reflexivity]]]].
        unfold upvalue_at. rewrite Eu. reflexivity. }
    destruct C as (u & s1 & U1 & E1 & I1 & S1 & M1 & HC1).
    assert (W1 : match within with
      | None => ups = None
      | Some k => exists ad, nth_error ks k = Some ad /\ exists us, nth_error (h_closures (vm_heap s1)) ad = Some (MkClosure f us) /\ ups = Some us
      end) by (rewrite HC1; exact W).
    destruct (IH s1 U1 xs' I1 W1 eq_refl) as (us & s2 & U2 & E2 & I2 & S2 & M2 & HC2).
    exists (u :: us), s2, U2. split.
    { rewrite (rbind_ok _ _ _ _ _ E1). rewrite (rbind_ok _ _ _ _ _ E2). reflexivity. }
    split; [exact I2|]. split; [auto|]. split; [constructor; auto|congruence].
Qed.

(** Assigning a variable: a cell of the stack, or a closed upvalue. *)
Lemma sharing_set_cell f a b s ks U k v : sharing f a b s ks U -> k < List.length b ->
  sharing f (set_value a (av_slot a k) v) (set_nth b k v) s ks U.
Proof.
  intros I Hk. constructor; cbn [set_value av_value av_slot av_next av_closures]; rewrite ?set_nth_length.
  - intros i Hi. destruct (Nat.eq_dec i k) as [->|N].
    + rewrite update_eq. now rewrite (proj2 (set_nth_spec b k v k Hk)), Nat.eqb_refl.
    + rewrite update_neq. 2:{ intros E. apply N. eapply (sh_inj _ _ _ _ _ _ I); eauto. }
      rewrite (proj2 (set_nth_spec b k v i Hk)). destruct (Nat.eqb_spec i k); [congruence|]. now apply (sh_cells _ _ _ _ _ _ I).
  - apply I. - apply I. - apply I. - apply I.
  - intros u x H. destruct (sh_state _ _ _ _ _ _ I u x H) as [Q|(Q1 & Q2)]; [left; exact Q|right].
    rewrite update_neq by (intros E; exact (Q2 k Hk (eq_sym E))). auto.
  - apply I. - apply I. - apply I.
Qed.
Lemma sharing_set_closed f a b s ks U u x v v0 : sharing f a b s ks U -> In (u, x) U ->
  nth_error (h_upvalues (vm_heap s)) u = Some (Closed v0) ->
  sharing f (set_value a x v) b (set_heap (hset_upvalues (set_nth (h_upvalues (vm_heap s)) u (Closed v)) (vm_heap s)) s) ks U.
Proof.
  intros I Hu Ec. assert (Lu : u < List.length (h_upvalues (vm_heap s))) by (eapply sharing_lt; eauto).
  destruct (sh_state _ _ _ _ _ _ I u x Hu) as [(i & E1 & _)|(_ & Nx)]; [congruence|].
  constructor; cbn [set_value av_value av_slot av_next av_closures vm_heap set_heap vm_open h_upvalues hset_upvalues h_closures].
  - intros i Hi. rewrite update_neq by (now apply Nx). now apply (sh_cells _ _ _ _ _ _ I).
  - apply I. - apply I. - apply I. - apply I.
  - intros u' x' H. rewrite (proj2 (set_nth_spec_ _ u _ u' Lu)). destruct (Nat.eqb_spec u' u) as [->|N].
    + assert (x = x') by (now apply (proj1 (sh_fun _ _ _ _ _ _ I _ _ _ _ Hu H))). subst x'. right. rewrite update_eq. auto.
    + destruct (sh_state _ _ _ _ _ _ I u' x' H) as [Q|(Q1 & Q2)]; [left; exact Q|right].
      rewrite update_neq. 2:{ intros E. apply N. now apply (proj2 (sh_fun _ _ _ _ _ _ I _ _ _ _ H Hu)). } auto.
  - intros u' H. destruct (sh_open _ _ _ _ _ _ I u' H) as (x' & i & Q1 & Q2). exists x', i. split; [exact Q1|].
    rewrite (proj2 (set_nth_spec_ _ u _ u' Lu)). destruct (Nat.eqb_spec u' u) as [->|N]; [congruence|exact Q2].
  - apply I. - apply I.
Qed.

(** Ending a scope. *)
Lemma sharing_end f a b s ks U k : sharing f a b s ks U -> k < List.length b ->
  let a' := Vars (update (av_value a) (av_next a) VNull) (update (av_slot a) k (av_next a)) (S (av_next a)) (av_closures a) in
  let b' := set_nth b k VNull in
  (forall u, ~ In (u, av_slot a k) U) -> sharing f a' b' s ks U.
Proof.
  intros I Hk a' b' NU. constructor; cbn [a' b' av_value av_slot av_next av_closures]; unfold b'; rewrite ?set_nth_length.
  - intros i Hi. rewrite (proj2 (set_nth_spec b k VNull i Hk)). destruct (Nat.eqb_spec i k) as [->|N].
    + rewrite !update_eq. reflexivity.
    + rewrite (update_neq (av_slot a)) by assumption. rewrite update_neq by (apply (sh_next _ _ _ _ _ _ I) in Hi; lia).
      now apply (sh_cells _ _ _ _ _ _ I).
  - intros i j Hi Hj. unfold update. pose proof (sh_next _ _ _ _ _ _ I i Hi). pose proof (sh_next _ _ _ _ _ _ I j Hj).
    destruct (Nat.eqb_spec i k), (Nat.eqb_spec j k); try lia. apply I; auto.
  - intros i Hi. unfold update. pose proof (sh_next _ _ _ _ _ _ I i Hi). destruct (Nat.eqb_spec i k); lia.
  - intros u x H. apply (sh_U _ _ _ _ _ _ I) in H. lia.
  - apply I.
  - intros u x H. pose proof (sh_U _ _ _ _ _ _ I u x H) as Lx. rewrite (update_neq (av_value a)) by lia.
    destruct (sh_state _ _ _ _ _ _ I u x H) as [(i & Q1 & Q2 & Q3 & Q4)|(Q1 & Q2)].
    + left. exists i. repeat split; auto. rewrite update_neq; auto. intros ->. rewrite <- Q3 in H. exact (NU u H).
    + right. split; [exact Q1|]. intros i Hi. unfold update. destruct (Nat.eqb_spec i k); [lia|auto].
  - apply I. - apply I. - apply I.
Qed.
Lemma sharing_close f a b s ks U k m u : sharing f a b s ks U -> k < List.length b ->
  let a' := Vars (update (av_value a) (av_next a) VNull) (update (av_slot a) k (av_next a)) (S (av_next a)) (av_closures a) in
  let b' := set_nth b k VNull in
  nth_error (vm_open s) m = Some u -> nth_error (h_upvalues (vm_heap s)) u = Some (Open k) -> In (u, av_slot a k) U ->
  sharing f a' b'
    (set_heap (hset_upvalues (set_nth (h_upvalues (vm_heap s)) u (Closed (av_value a (av_slot a k)))) (vm_heap s))
       (set_open (remove_nth m (vm_open s)) s)) ks U.
Proof.
  intros I Hk a' b' Em Eu Hu. assert (Lu : u < List.length (h_upvalues (vm_heap s))) by (eapply sharing_lt; eauto).
  constructor; cbn [a' b' av_value av_slot av_next av_closures vm_heap set_heap set_open vm_open h_upvalues hset_upvalues h_closures]; unfold b'; rewrite ?set_nth_length.
  - intros i Hi. rewrite (proj2 (set_nth_spec b k VNull i Hk)). destruct (Nat.eqb_spec i k) as [->|N].
    + rewrite !update_eq. reflexivity.
    + rewrite (update_neq (av_slot a)) by assumption. rewrite update_neq by (apply (sh_next _ _ _ _ _ _ I) in Hi; lia).
      now apply (sh_cells _ _ _ _ _ _ I).
  - intros i j Hi Hj. unfold update. pose proof (sh_next _ _ _ _ _ _ I i Hi). pose proof (sh_next _ _ _ _ _ _ I j Hj).
    destruct (Nat.eqb_spec i k), (Nat.eqb_spec j k); try lia. apply I; auto.
  - intros i Hi. unfold update. pose proof (sh_next _ _ _ _ _ _ I i Hi). destruct (Nat.eqb_spec i k); lia.
  - intros u' x H. apply (sh_U _ _ _ _ _ _ I) in H. lia.
  - apply I.
  - intros u' x H. pose proof (sh_U _ _ _ _ _ _ I u' x H) as Lx. rewrite (update_neq (av_value a)) by lia.
    rewrite (proj2 (set_nth_spec_ _ u _ u' Lu)). destruct (Nat.eqb_spec u' u) as [->|N].
    + assert (av_slot a k = x) by (now apply (proj1 (sh_fun _ _ _ _ _ _ I _ _ _ _ Hu H))). subst x. right. split; [reflexivity|].
      intros i Hi. unfold update. destruct (Nat.eqb_spec i k) as [->|Nk]; [lia|]. intros E. apply Nk. eapply (sh_inj _ _ _ _ _ _ I); eauto.
    + destruct (sh_state _ _ _ _ _ _ I u' x H) as [(i & Q1 & Q2 & Q3 & Q4)|(Q1 & Q2)].
      * left. exists i. repeat split; auto.
        -- rewrite update_neq; auto. intros ->. apply N. apply (proj2 (sh_fun _ _ _ _ _ _ I _ _ _ _ H Hu)). auto.
        -- eapply remove_nth_other; eauto. apply I.
      * right. split; [exact Q1|]. intros i Hi. unfold update. destruct (Nat.eqb_spec i k); [lia|auto].
  - intros u' H. assert (u' <> u) by (intros ->; eapply remove_nth_gone; [apply I|exact Em|exact H]).
    apply remove_nth_in in H. destruct (sh_open _ _ _ _ _ _ I u' H) as (x' & i & Q1 & Q2). exists x', i. split; [exact Q1|].
    rewrite (proj2 (set_nth_spec_ _ u _ u' Lu)). destruct (Nat.eqb_spec u' u) as [->|N]; [congruence|exact Q2].
  - apply remove_nth_nodup. apply I.
  - apply I.
Qed.

Section Refinement.
Variables (w : world) (r : rec) (bc : bytecode) (c : nat) (p : pos) (f : fn_bytecode).
Hypothesis Hc : nth_error (bc_constants bc) c = Some (CFunction f).

Lemma cell_some n fr i k : cell n fr i = Some k -> k = fr_start fr + i /\ fr_start fr + i < fr_end fr /\ fr_end fr <= n.
Proof.
  unfold cell. destruct (Nat.ltb_spec (fr_start fr + i) (fr_end fr)); [|discriminate].
  destruct (Nat.leb_spec (fr_end fr) n); [|discriminate]. intros [= <-]. auto.
Qed.

Lemma environment_ok a b s ks U k xs : sharing f a b s ks U -> nth_error (av_closures a) k = Some xs ->
  exists ad us, nth_error ks k = Some ad /\ nth_error (h_closures (vm_heap s)) ad = Some (MkClosure f us) /\
    Forall2 (fun u x => In (u, x) U) us xs /\
    forall t, environment ks (Some k) (with_stack b t s) = ROk (Some us) (with_stack b t s).
Proof.
  intros I E. destruct (Forall2_nth_error_r _ _ _ (sh_closures _ _ _ _ _ _ I) _ _ E) as (ad & E1 & us & E2 & F2).
  exists ad, us. repeat split; auto. intros t. unfold environment. rewrite E1. cbn [vm_heap with_stack set_stack]. rewrite E2. reflexivity.
Qed.

Lemma simulate_step a b t s ks U op o a' : fits b t 2 -> sharing f a b s ks U ->
  var_step (List.length b) a op = Some (o, a') ->
  exists b' s' ks' U', machine_step w r bc c p ks op (with_stack b t s) = ROk (o, ks') (with_stack b' t s') /\
    List.length b' = List.length b /\ sharing f a' b' s' ks' U'.
Proof.
  intros F I E. unfold fits in F. destruct op as [fr i|fr i v|fr within cs|k j|k j v|fr i]; cbn [var_step] in E.
  - destruct (cell _ fr i) as [k|] eqn:Ek; [|discriminate]. injection E as <- <-. apply cell_some in Ek as (-> & L1 & L2).
    assert (Hk : fr_start fr + i < List.length b) by lia.
    exists b, s, ks, U. split; [|split; [reflexivity|exact I]]. cbn [machine_step step].
    unfold rbind. rewrite (frame_get_ws fr i b t _ s L1 L2 ltac:(unfold fits; lia) (sh_cells _ _ _ _ _ _ I _ Hk)).
    rewrite push_ws by (unfold fits; lia). unfold rret at 1. rewrite pop_ws by (unfold fits; lia). reflexivity.
  - destruct (cell _ fr i) as [k|] eqn:Ek; [|discriminate]. injection E as <- <-. apply cell_some in Ek as (-> & L1 & L2).
    exists (set_nth b (fr_start fr + i) v), s, ks, U. split; [|split; [apply set_nth_length|apply sharing_set_cell; auto; lia]].
    cbn [machine_step step]. unfold rbind. rewrite push_ws by (unfold fits; lia). rewrite pop_ws by (unfold fits; lia).
    rewrite frame_set_ws by (unfold fits; lia). rewrite push_ws by (unfold fits; rewrite set_nth_length; lia).
    unfold rret at 1. rewrite pop_ws by (unfold fits; rewrite set_nth_length; lia). reflexivity.
  - destruct (match within with Some k => _ | None => true end) eqn:Ew; [|discriminate].
    destruct (all_some _) as [xs|] eqn:Exs; [|discriminate]. injection E as <- <-.
    assert (W : exists ups, environment ks within (with_stack b t s) = ROk ups (with_stack b t s) /\
       match within with
       | None => ups = None
       | Some k => exists ad, nth_error ks k = Some ad /\ exists us, nth_error (h_closures (vm_heap s)) ad = Some (MkClosure f us) /\ ups = Some us
       end).
    { destruct within as [k|]; [|exists None; split; reflexivity]. apply Nat.ltb_lt in Ew.
      destruct (nth_error (av_closures a) k) as [ys|] eqn:Ek; [|apply nth_error_None in Ek; lia].
      destruct (environment_ok _ _ _ _ _ _ _ I Ek) as (ad & us & E1 & E2 & _ & Env). exists (Some us). split; [apply Env|]. eauto. }
    destruct W as (ups & W1 & W2).
    destruct (capture_all f a b t ks ups within fr cs s U xs I W2 Exs) as (us & s1 & U1 & E1 & I1 & S1 & M1 & HC1).
    set (ad := List.length (h_closures (vm_heap s1))).
    set (s2 := set_heap (hset_closures (h_closures (vm_heap s1) ++ [MkClosure f us]) (vm_heap s1)) s1).
    exists b, s2, (ks ++ [ad]), U1. split; [|split; [reflexivity|]].
    + cbn [machine_step]. rewrite (rbind_ok _ _ _ _ _ W1). cbn [step]. unfold create_closure, const_at. rewrite Hc. cbn [value_of_const].
      unfold rret at 1. unfold rbind. rewrite E1. unfold heap_alloc, closure_new.
      cbn [vm_heap with_stack set_stack]. rewrite set_heap_ws. fold s2. fold ad.
      rewrite push_ws by (unfold fits; lia). unfold rret at 1. rewrite pop_ws by (unfold fits; lia). reflexivity.
    + constructor; cbn [av_value av_slot av_next av_closures s2 vm_heap set_heap vm_open h_upvalues hset_closures h_closures]; try apply I1.
      apply Forall2_app.
      * eapply Forall2_impl; [|apply I1]. intros k' xs0 (us0 & Q1 & Q2). exists us0. split; [|exact Q2].
        rewrite nth_error_app1; [exact Q1|]. apply nth_error_Some. rewrite Q1. discriminate.
      * constructor; [|constructor]. exists us. split; [|exact M1]. unfold ad. now rewrite nth_error_app2, Nat.sub_diag by lia.
  - unfold captured_var in E. destruct (nth_error (av_closures a) k) as [xs|] eqn:Ek; [|discriminate].
    destruct (nth_error xs j) as [x|] eqn:Ej; [|discriminate]. injection E as <- <-.
    destruct (environment_ok _ _ _ _ _ _ _ I Ek) as (ad & us & _ & _ & F2 & Env).
    destruct (Forall2_nth_error_r _ _ _ F2 _ _ Ej) as (u & Eu & Hu).
    exists b, s, ks, U. split; [|split; [reflexivity|exact I]].
    cbn [machine_step]. rewrite (rbind_ok _ _ _ _ _ (Env t)). cbn [step]. unfold rbind, load_upvalue, upvalue_at, rbind. rewrite Eu.
    unfold rret at 1. unfold heap_get, upvalue_state_of. cbn [vm_heap with_stack set_stack].
    destruct (sh_state _ _ _ _ _ _ I u x Hu) as [(i & Q1 & Q2 & Q3 & Q4)|(Q1 & Q2)]; rewrite Q1; cbn [VM.lift].
    + unfold stack_get. change (vm_stack (with_stack b t s)) with (stack_with b t).
      unfold stack_with at 1. cbn [st_vals]. rewrite <- app_assoc, nth_error_app1, (sh_cells _ _ _ _ _ _ I i Q2), Q3 by exact Q2. cbn [VM.lift].
      rewrite push_ws by (unfold fits; lia). unfold rret at 1. rewrite pop_ws by (unfold fits; lia). reflexivity.
    + rewrite push_ws by (unfold fits; lia). unfold rret at 1. rewrite pop_ws by (unfold fits; lia). reflexivity.
  - unfold captured_var in E. destruct (nth_error (av_closures a) k) as [xs|] eqn:Ek; [|discriminate].
    destruct (nth_error xs j) as [x|] eqn:Ej; [|discriminate]. injection E as <- <-.
    destruct (environment_ok _ _ _ _ _ _ _ I Ek) as (ad & us & _ & _ & F2 & Env).
    destruct (Forall2_nth_error_r _ _ _ F2 _ _ Ej) as (u & Eu & Hu).
    destruct (sh_state _ _ _ _ _ _ I u x Hu) as [(i & Q1 & Q2 & Q3 & Q4)|(Q1 & Q2)].
    + exists (set_nth b i v), s, ks, U. split; [|split; [apply set_nth_length|rewrite <- Q3; apply sharing_set_cell; auto]].
      cbn [machine_step]. rewrite (rbind_ok _ _ _ _ _ (Env t)). cbn [step]. unfold rbind. rewrite push_ws by (unfold fits; lia).
      unfold upvalue_at. rewrite Eu. unfold rret at 1. rewrite pop_ws by (unfold fits; lia).
      unfold write_upvalue, rbind, heap_get, upvalue_state_of. cbn [vm_heap with_stack set_stack]. rewrite Q1. cbn [VM.lift].
      unfold on_stack_, on_stack. change (vm_stack (with_stack b t s)) with (stack_with b t).
      rewrite stack_with_canon, (set_canon VNull max_stack_size) by (rewrite ?cells_len; auto; lia). cbn [omap].
      rewrite set_nth_app_l by lia. change (set_stack _ (with_stack b t s)) with (with_stack (set_nth b i v) t s).
      rewrite push_ws by (unfold fits; rewrite set_nth_length; lia). unfold rret at 1. rewrite pop_ws by (unfold fits; rewrite set_nth_length; lia). reflexivity.
    + exists b, (set_heap (hset_upvalues (set_nth (h_upvalues (vm_heap s)) u (Closed v)) (vm_heap s)) s), ks, U.
      split; [|split; [reflexivity|eapply sharing_set_closed; eauto]].
      cbn [machine_step]. rewrite (rbind_ok _ _ _ _ _ (Env t)). cbn [step]. unfold rbind. rewrite push_ws by (unfold fits; lia).
      unfold upvalue_at. rewrite Eu. unfold rret at 1. rewrite pop_ws by (unfold fits; lia).
      unfold write_upvalue, rbind, heap_get, upvalue_state_of. cbn [vm_heap with_stack set_stack]. rewrite Q1. cbn [VM.lift].
      unfold heap_upd_, heap_upd, upvalue_write. cbn [vm_heap with_stack set_stack].
      destruct (Nat.ltb_spec u (List.length (h_upvalues (vm_heap s)))) as [_|L]; [|eapply sharing_lt in Hu; eauto; lia]. cbn [omap].
      rewrite set_heap_ws.
      rewrite push_ws by (unfold fits; lia). unfold rret at 1. rewrite pop_ws by (unfold fits; lia). reflexivity.
  - destruct (cell _ fr i) as [k|] eqn:Ek; [|discriminate]. injection E as <- <-. apply cell_some in Ek as (-> & L1 & L2).
    assert (Hk : fr_start fr + i < List.length b) by lia.
    destruct (find_sharing _ _ _ _ _ _ _ I Hk) as (res & E & P).
    cbn [machine_step step]. unfold rbind, close_upvalue, rbind.
    rewrite (frame_get_ws fr i b t _ s L1 L2 ltac:(unfold fits; lia) (sh_cells _ _ _ _ _ _ I _ Hk)).
    rewrite frame_set_ws by (unfold fits; lia). unfold find_open_upvalue. cbn [vm_heap with_stack set_stack vm_open]. rewrite E. cbn [VM.lift].
    destruct res as [[m u]|].
    + destruct P as (P1 & P2 & P3). unfold heap_upd_, heap_upd, upvalue_write. cbn [vm_heap with_stack set_stack set_open].
      destruct (Nat.ltb_spec u (List.length (h_upvalues (vm_heap s)))) as [_|L]; [|eapply sharing_lt in P3; eauto; lia]. cbn [omap rret].
      change (vm_open (with_stack (set_nth b (fr_start fr + i) VNull) t s)) with (vm_open s). rewrite set_open_ws, set_heap_ws. eexists _, _, ks, U. split; [reflexivity|]. split; [|eapply sharing_close; eauto]. apply set_nth_length.
    + eexists _, s, ks, U. split; [reflexivity|]. split; [apply set_nth_length|]. now apply sharing_end.
Qed.

Lemma simulate_run : forall ops a b t s ks U os, fits b t 2 -> sharing f a b s ks U ->
  var_run (List.length b) a ops = Some os ->
  exists b' s', machine_run w r bc c p ks ops (with_stack b t s) = ROk os (with_stack b' t s').
Proof.
  induction ops as [|op ops IH]; intros a b t s ks U os F I E; cbn [var_run] in E.
  - injection E as <-. exists b, s. reflexivity.
  - destruct (var_step _ a op) as [[o a']|] eqn:E1; [|discriminate].
    destruct (var_run _ a' ops) as [l|] eqn:E2; [|discriminate]. injection E as <-.
    destruct (simulate_step a b t s ks U op o a' F I E1) as (b1 & s1 & ks1 & U1 & M1 & L1 & I1).
    rewrite <- L1 in E2. assert (F1 : fits b1 t 2) by (unfold fits in *; now rewrite L1).
    destruct (IH a' b1 t s1 ks1 U1 l F1 I1 E2) as (b2 & s2 & M2). exists b2, s2. cbn [machine_run].
    rewrite (rbind_ok _ _ _ _ _ M1). cbn [fst snd]. rewrite (rbind_ok _ _ _ _ _ M2). reflexivity.
Qed.
End Refinement.

Lemma captured_shared w r bc c p f ops cells temps s os :
  nth_error (bc_constants bc) c = Some (CFunction f) -> vm_open s = [] -> fits cells temps 2 ->
  var_run (List.length cells) (vars_of cells) ops = Some os ->
  exists cells' s', machine_run w r bc c p [] ops (with_stack cells temps s) = ROk os (with_stack cells' temps s').
Proof. intros Hc O F E. eapply simulate_run; eauto. now apply sharing_initial. Qed.

