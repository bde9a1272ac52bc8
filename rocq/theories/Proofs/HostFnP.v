(** Functions of the runtime: conversions and texts. *)
From Coq Require Import Ascii.
From Verif.Model Require Import Text.
From Verif.Spec Require Import HostSpec.
From Verif.Proofs Require Import VmPrimP StackP CallP TextP HeapInvP.
#[local] Open Scope string_scope.
#[local] Open Scope list_scope.
#[local] Open Scope nat_scope.

(** ** Calls *)
Lemma call_bound w k below temps this m args s : fits below temps (S (List.length args)) ->
  r_call (machine w (S k)) (List.length args) (with_stack below (rev args ++ VFnBound this (VFnNative m) :: temps) s) =
  (let* v := call_native w (machine w k) m (this :: args) in push v) (with_stack below temps s).
Proof.
  intros F. cbn [machine r_call]. unfold call_fn. unfold rbind at 1.
  rewrite (peek_callee below args (VFnBound this (VFnNative m)) temps s). unfold call_fn_native. unfold rbind at 1 2. rewrite Nat.add_1_r.
  assert (E : rev args ++ VFnBound this (VFnNative m) :: temps = rev (VFnBound this (VFnNative m) :: args) ++ temps) by (cbn [rev]; now rewrite <- app_assoc).
  rewrite E. rewrite pop_count_ws; [|now rewrite rev_length|exact F]. rewrite rev_involutive. reflexivity.
Qed.
Lemma call_answers w k below temps this m args s v s' : fits below temps (S (List.length args)) ->
  call_native w (machine w k) m (this :: args) (with_stack below temps s) = ROk v (with_stack below temps s') ->
  answers w (S k) below temps (VFnBound this (VFnNative m)) args s v s'.
Proof. intros F H. unfold answers. rewrite call_bound by exact F. unfold rbind. rewrite H. apply push_ws. unfold fits in *. lia. Qed.
Lemma by_reply w n this args s v : (forall r below temps, call_native w r n (this :: args) (with_stack below temps s) = ROk v (with_stack below temps s)) ->
  replies w n this args s v.
Proof. intros H k below temps F. apply call_answers; auto. Qed.
Lemma by_panic w n this args s : (forall r below temps, call_native w r n (this :: args) (with_stack below temps s) = RPanic) -> call_panics w n this args s.
Proof. intros H k below temps F. rewrite call_bound by exact F. unfold rbind. now rewrite H. Qed.
Lemma by_convert w n x s v : (forall c o s', one_more_object s c o s' -> replies w n (VObject o) [x] s' v) -> converts w n x s v.
Proof.
  intros H k below temps c F M. destruct (construct_with_new w (S k) below temps [x] c _ s M F) as (o & s' & O & C).
  exists o, s'. split; [exact O|]. apply C; [unfold fits in *; cbn [List.length] in *; lia|]. exact (H c o s' O k below temps F).
Qed.

(** ** Integers and texts *)
Lemma text_of_int w z s : exists t, usual t z /\ converts w NStringNew (VInt z) s (VString t) /\ replies w NToString (VInt z) [] s (VString t).
Proof.
  exists (i64_text z). split; [apply text_usual|]. split; [apply by_convert; intros c o s' _|]; apply by_reply; intros r below temps; cbn [call_native];
    unfold to_text, rbind, heap_get, value_text; (destruct (_ + _); reflexivity).
Qed.
Lemma int_of_text w t z s : signed t z -> in_i64 z = true -> converts w NIntNew (VString t) s (VInt z).
Proof. intros H R. apply by_convert. intros c o s' _. apply by_reply. intros r below temps. cbn [call_native]. now rewrite (parse_signed _ _ H R). Qed.
Lemma no_int_of_text w t s : (forall z, signed t z -> in_i64 z = false) -> converts w NIntNew (VString t) s VNull.
Proof.
  intros H. apply by_convert. intros c o s' _. apply by_reply. intros r below temps. cbn [call_native].
  destruct (i64_of_text t) as [z|] eqn:E; [|reflexivity]. apply parse_only_signed in E as [E1 E2]. rewrite (H z E1) in E2. discriminate.
Qed.
Lemma int_round_trip w z s s' : in_i64 z = true -> exists t, converts w NStringNew (VInt z) s (VString t) /\ converts w NIntNew (VString t) s' (VInt z).
Proof. intros R. destruct (text_of_int w z s) as (t & U & C & _). exists t. split; [exact C|]. apply int_of_text; auto using usual_signed. Qed.

(** ** Texts of values *)
Definition refines {A} (x y : outcome A) : Prop := forall t, x = Ok t -> y = Ok t.
Lemma rf_refl {A} (x : outcome A) : refines x x. Proof. now intros t. Qed.
Lemma rf_bind {A B} (x y : outcome A) (f g : A -> outcome B) : refines x y -> (forall a, refines (f a) (g a)) -> refines (obind x f) (obind y g).
Proof. intros H K t E. destruct x as [a| | |]; try discriminate E. rewrite (H a eq_refl). exact (K a t E). Qed.
Lemma rf_map {A B} (x y : outcome A) (f : A -> B) : refines x y -> refines (omap f x) (omap f y).
Proof. intros H t E. destruct x as [a| | |]; try discriminate E. now rewrite (H a eq_refl). Qed.

Lemma join_concat ts : join ts = String.concat ", " ts.
Proof. induction ts as [|t [|t' ts] IH]; [reflexivity|reflexivity|]. cbn [join String.concat] in *. now rewrite IH. Qed.
Lemma concat_cons (x : string) l : String.concat "" (x :: l) = (x ++ String.concat "" l)%string.
Proof. destruct l; cbn [String.concat]; [now rewrite app_nil_s|reflexivity]. Qed.

Section Show.
Variables (w : world) (h : heap).
Notation nm := (closure_name h).
Notation ft := (float_text w).
Notation shown_at := (text_at nm ft h).
Lemma texts_ok f vs ts : texts f vs = Ok ts <-> Forall2 (fun v t => f v = Ok t) vs ts.
Proof.
  revert ts. induction vs as [|v vs IH]; intros ts; cbn [texts]; split; intros H.
  - injection H as <-. constructor.
  - inversion H. reflexivity.
  - destruct (f v) as [t| | |] eqn:E; try discriminate H. cbn [obind] in H. destruct (texts f vs) as [l| | |] eqn:El; try discriminate H. injection H as <-.
    constructor; [exact E|]. now apply IH.
  - inversion H as [|x t l ts' E F]; subst. rewrite E. cbn [obind]. apply IH in F. rewrite F. reflexivity.
Qed.
Lemma field_texts_ok f (m : value_map) t : field_texts f m = Ok t <->
  exists ts, Forall2 (fun v t => f v = Ok t) (map snd m) ts /\ t = String.concat "" (map (fun p => field_text (fst p) (snd p)) (combine (map fst m) ts)).
Proof.
  revert t. induction m as [|[k v] m IH]; intros t; cbn [field_texts map fst snd]; split; intros H.
  - injection H as <-. exists []. split; [constructor|reflexivity].
  - destruct H as (ts & F & ->). inversion F. reflexivity.
  - destruct (f v) as [x| | |] eqn:E; try discriminate H. cbn [obind] in H. destruct (field_texts f m) as [l| | |] eqn:El; try discriminate H. injection H as <-.
    destruct (proj1 (IH l) eq_refl) as (ts & F & ->). exists (x :: ts). split; [now constructor|]. cbn [combine map fst snd]. rewrite concat_cons. unfold field_text at 2. now rewrite !app_assoc_s.
  - destruct H as (ts & F & ->). inversion F as [|a x l ts' E F']; subst. rewrite E. cbn [obind].
    rewrite (proj2 (IH _) (ex_intro _ ts' (conj F' eq_refl))). cbn [omap combine map fst snd]. rewrite concat_cons. unfold field_text at 2. now rewrite !app_assoc_s.
Qed.
Lemma object_text_ok f o t : object_text h f o = Ok t <->
  exists ob label m ts, nth_error (h_objects h) o = Some ob /\ label_of h (ob_class ob) label /\ nth_error (h_fields h) (ob_fields ob) = Some m /\
    Forall2 (fun v t => f v = Ok t) (map snd m) ts /\ t = object_line label (map fst m) ts.
Proof.
  unfold object_text, object_class, object_map, class_get. destruct (nth_error (h_objects h) o) as [ob|]; [|split; [discriminate|now intros (ob & ? & ? & ? & ? & _)]].
  cbn [obind]. split.
  - intros H. destruct (ob_class ob) as [c|] eqn:C.
    + destruct (nth_error (h_classes h) c) as [k|] eqn:K; [|discriminate H]. cbn [obind omap] in H.
      destruct (nth_error (h_fields h) (ob_fields ob)) as [m|] eqn:M; [|discriminate H]. cbn [obind] in H.
      destruct (field_texts f m) as [x| | |] eqn:F; try discriminate H. injection H as <-. apply field_texts_ok in F as (ts & F & ->).
      exists ob, ("<" ++ cl_name k ++ ">")%string, m, ts. repeat split; auto. rewrite C. exists k. auto.
    + cbn [obind] in H. destruct (nth_error (h_fields h) (ob_fields ob)) as [m|] eqn:M; [|discriminate H]. cbn [obind] in H.
      destruct (field_texts f m) as [x| | |] eqn:F; try discriminate H. injection H as <-. apply field_texts_ok in F as (ts & F & ->).
      exists ob, "", m, ts. repeat split; auto. now rewrite C.
  - intros (ob' & label & m & ts & [= <-] & L & M & F & ->).
    assert (FT : field_texts f m = Ok (String.concat "" (map (fun p => field_text (fst p) (snd p)) (combine (map fst m) ts)))) by (apply field_texts_ok; eauto).
    destruct (ob_class ob) as [c|]; cbn [label_of] in L.
    + destruct L as (k & K & ->). rewrite K. cbn [obind omap]. rewrite M. cbn [obind]. rewrite FT. reflexivity.
    + subst label. cbn [obind]. rewrite M. cbn [obind]. rewrite FT. reflexivity.
Qed.
Lemma F2_imp {A B} (P Q : A -> B -> Prop) l l' : (forall a b, P a b -> Q a b) -> Forall2 P l l' -> Forall2 Q l l'.
Proof. intros H. induction 1; constructor; auto. Qed.
Lemma with_refines f g : (forall v, refines (f v) (g v)) -> forall v, refines (text_with nm ft h f v) (text_with nm ft h g v).
Proof.
  intros H. assert (OT : forall o, refines (object_text h f o) (object_text h g o)).
  { intros o t E. apply object_text_ok. apply object_text_ok in E as (ob & label & m & ts & E1 & E2 & E3 & E4 & E5). exists ob, label, m, ts. repeat split; auto.
    revert E4. apply F2_imp. intros a b. apply H. }
  induction v; cbn [text_with]; try apply rf_refl.
  - now apply rf_map.
  - apply rf_bind; [apply rf_refl|]. intros vs. apply rf_map. intros ts E. apply texts_ok. apply texts_ok in E. revert E. apply F2_imp. intros a b. apply H.
  - apply OT.
  - apply rf_bind; [apply rf_refl|]. intros k. apply OT.
Qed.
Lemma at_step : forall d v, refines (shown_at d v) (shown_at (S d) v).
Proof.
  induction d as [|d IH]; intros v; [|exact (with_refines _ _ IH v)]. apply (with_refines (fun _ => Panic)). intros u t E. discriminate E.
Qed.
Lemma at_le d d' v : d <= d' -> refines (shown_at d v) (shown_at d' v).
Proof. induction 1 as [|d' _ IH]; intros t E; [exact E|]. apply at_step. now apply IH. Qed.

(** Every text given is the text of the value ... *)
Lemma with_shows f v t : (forall v t, f v = Ok t -> shows w h v t) -> text_with nm ft h f v = Ok t -> shows w h v t.
Proof.
  intros H. revert t.
  assert (OT : forall o t, object_text h f o = Ok t -> shows w h (VObject o) t).
  { intros o t E. apply object_text_ok in E as (ob & label & m & ts & E1 & E2 & E3 & E4 & ->). econstructor; eauto. revert E4. apply F2_imp. exact H. }
  induction v; intros t E; cbn [text_with] in E.
  - injection E as <-. constructor.
  - injection E as <-. constructor.
  - injection E as <-. destruct b; constructor.
  - injection E as <-. constructor. apply text_usual.
  - injection E as <-. constructor.
  - injection E as <-. constructor.
  - unfold closure_name in E. destruct (nth_error (h_closures h) addr) as [c|] eqn:C; [|discriminate E]. injection E as <-. now constructor.
  - injection E as <-. constructor.
  - destruct (text_with nm ft h f v2) as [x| | |] eqn:X; try discriminate E. injection E as <-. constructor. now apply IHv2.
  - unfold array_elements in E. destruct (nth_error (h_arrays h) addr) as [ar|] eqn:A; [|discriminate E]. cbn [obind] in E.
    destruct (texts f (ar_elements ar)) as [ts| | |] eqn:T; try discriminate E. injection E as <-. rewrite join_concat. econstructor; [unfold elements; now rewrite A|].
    apply texts_ok in T. revert T. apply F2_imp. exact H.
  - injection E as <-. constructor.
  - injection E as <-. constructor.
  - now apply OT.
  - unfold class_get in E. destruct (nth_error (h_classes h) addr) as [k|] eqn:K; [|discriminate E]. econstructor; [exact K|]. now apply OT.
Qed.
Lemma at_shows : forall d v t, shown_at d v = Ok t -> shows w h v t.
Proof. induction d as [|d IH]; intros v t; cbn [text_at]; apply with_shows; [discriminate|exact IH]. Qed.
(** ... and every value with a text is given it, with enough depth. *)
Lemma F2_exists vs ts : Forall2 (fun v t => exists d, shown_at d v = Ok t) vs ts -> exists d, Forall2 (fun v t => shown_at d v = Ok t) vs ts.
Proof.
  induction 1 as [|v t vs ts (d & E) _ (d' & F)]; [exists 0; constructor|]. exists (Nat.max d d'). constructor; [exact (at_le _ _ _ (Nat.le_max_l _ _) _ E)|].
  revert F. apply F2_imp. intros a b. apply at_le. lia.
Qed.
Lemma shows_at : forall v t, shows w h v t -> exists d, shown_at d v = Ok t.
Proof.
  fix IH 3. intros v t [ | | | |z x U|x|x|x|f|a c C|n|r f x S|a vs ts E F|o ob label m ts E1 E2 E3 F|c k x K S].
  1-4: exists 0; reflexivity.
  - exists 0. cbn. f_equal. eapply usual_fun; [apply text_usual|exact U].
  - exists 0; reflexivity.
  - exists 0; reflexivity.
  - exists 0; reflexivity.
  - exists 0; reflexivity.
  - exists 0. cbn [text_at text_with]. unfold closure_name. now rewrite C.
  - exists 0; reflexivity.
  - destruct (IH _ _ S) as (d & E). exists d. destruct d; cbn [text_at text_with] in *; now rewrite E.
  - assert (G : Forall2 (fun v t => exists d, shown_at d v = Ok t) vs ts).
    { clear E. induction F as [|v1 t1 vs1 ts1 S1 F1 IHF]; constructor; [exact (IH _ _ S1)|exact IHF]. }
    apply F2_exists in G as (d & G). exists (S d). cbn [text_at text_with]. unfold elements in E. unfold array_elements. destruct (nth_error (h_arrays h) a) as [ar|]; [|discriminate E]. injection E as ->.
    cbn [obind]. apply texts_ok in G. rewrite G. cbn [omap]. now rewrite join_concat.
  - assert (G : Forall2 (fun v t => exists d, shown_at d v = Ok t) (map snd m) ts).
    { clear E3. revert F. generalize (map snd m). intros vs F. induction F as [|v1 t1 vs1 ts1 S1 F1 IHF]; constructor; [exact (IH _ _ S1)|exact IHF]. }
    apply F2_exists in G as (d & G). exists (S d). cbn [text_at text_with]. apply object_text_ok. exists ob, label, m, ts. auto.
  - destruct (IH _ _ S) as (d & E). exists d. destruct d; cbn [text_at text_with] in *; unfold class_get; rewrite K; exact E.
Qed.

(** ** A value that does not contain itself is nested at most as deep as there are arrays and objects *)
Definition ready (d : nat) (v : value) : bool := match shown_at d v with Ok _ => true | _ => false end.
Lemma ready_le d d' v : d <= d' -> ready d v = true -> ready d' v = true.
Proof. unfold ready. intros L. destruct (shown_at d v) as [t| | |] eqn:E; try discriminate. intros _. now rewrite (at_le _ _ _ L _ E). Qed.
(** The array or object whose nesting decides that of a value. *)
Fixpoint core (v : value) : option (nat + nat) :=
  match v with
  | VArray a => Some (inl a)
  | VObject o => Some (inr o)
  | VClass c => match nth_error (h_classes h) c with Some k => Some (inr (cl_object k)) | None => None end
  | VFnBound _ f => core f
  | _ => None
  end.
Definition box (c : nat + nat) : value := match c with inl a => VArray a | inr o => VObject o end.
Lemma ready_core d v : match core v with Some c => ready d v = ready d (box c) | None => ready d v = ready 0 v end.
Proof.
  assert (W : forall f g v, match core v with
     | Some c => (exists t, text_with nm ft h f v = Ok t) <-> (exists t, text_with nm ft h f (box c) = Ok t)
     | None => text_with nm ft h f v = text_with nm ft h g v end).
  { intros f g. induction v0; cbn [core]; try reflexivity.
    - destruct (core v0_2) as [c|]; cbn [text_with].
      + rewrite <- IHv0_2. split; intros (t & E).
        * destruct (text_with nm ft h f v0_2) as [x| | |]; try discriminate E. eauto.
        * rewrite E. cbn [omap]. eauto.
      + now rewrite IHv0_2.
    - cbn [text_with]. unfold class_get. destruct (nth_error (h_classes h) addr) as [k|]; reflexivity. }
  assert (D : forall d, exists f, forall v, shown_at d v = text_with nm ft h f v) by (intros [|k]; eexists; intros; reflexivity).
  destruct (D d) as (f & Ef), (D 0) as (g & Eg). specialize (W f g v). unfold ready. rewrite Ef, Eg. destruct (core v) as [c|].
  - rewrite Ef. destruct (text_with nm ft h f v) as [t| | |] eqn:E1; destruct (text_with nm ft h f (box c)) as [t'| | |] eqn:E2; try reflexivity; exfalso;
      first [destruct (proj1 W (ex_intro _ _ eq_refl)) as (? & X); discriminate X | destruct (proj2 W (ex_intro _ _ eq_refl)) as (? & X); discriminate X].
  - now rewrite W.
Qed.
Lemma F2_ready (f : value -> outcome string) vs : (exists ts, Forall2 (fun v t => f v = Ok t) vs ts) <-> (forall v, In v vs -> exists t : string, f v = Ok t).
Proof.
  split.
  - intros (ts & F). induction F as [|v t vs ts E _ IH]; [contradiction|]. intros u [<-|I]; eauto.
  - induction vs as [|v vs IH]; intros H; [exists []; constructor|]. destruct (H v) as (t & E); [now left|]. destruct IH as (ts & F); [intros u I; apply H; now right|].
    exists (t :: ts). now constructor.
Qed.
(** What is directly inside an array or object. *)
Definition inside (c : nat + nat) : option (list value) :=
  match c with
  | inl a => elements h a
  | inr o => match nth_error (h_objects h) o with
             | Some ob => match nth_error (h_fields h) (ob_fields ob) with Some m => Some (map snd m) | None => None end
             | None => None
             end
  end.
Lemma ready_box d c : ready (S d) (box c) = true -> exists vs, inside c = Some vs /\ (forall v, In v vs -> ready d v = true) /\
  (forall d', (forall v, In v vs -> ready d' v = true) -> ready (S d') (box c) = true).
Proof.
  assert (RD : forall d v, (exists t, shown_at d v = Ok t) <-> ready d v = true).
  { intros k v. unfold ready. destruct (shown_at k v); split; try discriminate; eauto; intros (t & E); discriminate. }
  intros R. apply RD in R as (t & E). destruct c as [a|o]; cbn [box text_at text_with inside] in *.
  - unfold array_elements in E. unfold elements. destruct (nth_error (h_arrays h) a) as [ar|] eqn:A; [|discriminate E]. cbn [obind] in E.
    destruct (texts _ (ar_elements ar)) as [ts| | |] eqn:T; try discriminate E. exists (ar_elements ar). split; [reflexivity|]. split.
    + intros v I. apply RD. apply texts_ok in T. exact (proj1 (F2_ready _ _) (ex_intro _ ts T) v I).
    + intros d' H. apply RD. cbn [text_at text_with]. unfold array_elements. rewrite A. cbn [obind].
      destruct (proj2 (F2_ready (shown_at d') (ar_elements ar))) as (ts' & F); [intros v I; apply RD; auto|]. apply texts_ok in F. rewrite F. cbn [omap]. eauto.
  - apply object_text_ok in E as (ob & label & m & ts & E1 & E2 & E3 & F & _). rewrite E1, E3. exists (map snd m). split; [reflexivity|]. split.
    + intros v I. apply RD. exact (proj1 (F2_ready _ _) (ex_intro _ ts F) v I).
    + intros d' H. apply RD. cbn [text_at text_with].
      destruct (proj2 (F2_ready (shown_at d') (map snd m))) as (ts' & F'); [intros v I; apply RD; auto|]. eexists. apply object_text_ok. exists ob, label, m, ts'. auto.
Qed.
Lemma chain : forall d c, ready (S d) (box c) = true -> ready d (box c) = false ->
  exists l, List.length l = S d /\ NoDup l /\ forall x, In x l -> ready (S d) (box x) = true.
Proof.
  induction d as [|d IH]; intros c R N.
  - exists [c]. split; [reflexivity|]. split; [repeat constructor; auto|]. intros x [<-|[]]. exact R.
  - destruct (ready_box _ _ R) as (vs & _ & R1 & R2).
    assert (X : exists v, In v vs /\ ready d v = false).
    { destruct (forallb (ready d) vs) eqn:A.
      - rewrite forallb_forall in A. rewrite (R2 d A) in N. discriminate.
      - assert (Y : forall l, forallb (ready d) l = false -> exists v, In v l /\ ready d v = false).
        { induction l as [|y l IHl]; [discriminate|]. cbn [forallb]. destruct (ready d y) eqn:Ey; cbn [andb]; intros H; [|exists y; split; [now left|exact Ey]].
          destruct (IHl H) as (v & I & E). exists v. split; [now right|exact E]. }
        now apply Y. }
    destruct X as (v & I & E). pose proof (R1 v I) as E'. pose proof (ready_core d v) as C1. pose proof (ready_core (S d) v) as C2.
    destruct (core v) as [c'|]; [|congruence]. rewrite C1 in E. rewrite C2 in E'. destruct (IH c' E' E) as (l & L & ND & A).
    exists (c :: l). split; [cbn [List.length]; now rewrite L|]. split.
    + constructor; [|exact ND]. intros Ic. apply A in Ic. congruence.
    + intros x [<-|Ix]; [exact R|]. apply ready_le with (d := S d); auto.
Qed.
Lemma ready_known d c : ready d (box c) = true ->
  In c (map inl (seq 0 (List.length (h_arrays h))) ++ map inr (seq 0 (List.length (h_objects h)))).
Proof.
  intros R. apply ready_le with (d' := S d) in R; [|lia]. apply ready_box in R as (vs & R & _). apply in_or_app. destruct c as [a|o]; [left|right]; apply in_map; apply in_seq; cbn [inside] in R.
  - unfold elements in R. assert (nth_error (h_arrays h) a <> None) as X by (destruct (nth_error _ a); congruence). apply nth_error_Some in X. lia.
  - assert (nth_error (h_objects h) o <> None) as X by (destruct (nth_error (h_objects h) o); congruence). apply nth_error_Some in X. lia.
Qed.
Lemma enough_depth d v : ready d v = true -> ready (List.length (h_arrays h) + List.length (h_objects h)) v = true.
Proof.
  set (N := List.length (h_arrays h) + List.length (h_objects h)).
  assert (M : forall k c, ready k (box c) = true -> ready N (box c) = true).
  { induction k as [|k IH]; intros c R; [apply ready_le with (d := 0); [lia|exact R]|].
    destruct (ready k (box c)) eqn:E; [now apply IH|]. destruct (chain k c R E) as (l & L & ND & A).
    apply ready_le with (d := S k); [|exact R]. rewrite <- L. unfold N.
    replace (List.length (h_arrays h) + List.length (h_objects h)) with (List.length (map (@inl nat nat) (seq 0 (List.length (h_arrays h))) ++ map inr (seq 0 (List.length (h_objects h)))))
      by (rewrite app_length, !map_length, !seq_length; reflexivity).
    apply NoDup_incl_length; [exact ND|]. intros x I. eapply ready_known. now apply A. }
  intros R. pose proof (ready_core d v) as C1. pose proof (ready_core N v) as C2. destruct (core v) as [c|].
  - rewrite C2. rewrite C1 in R. eapply M; exact R.
  - congruence.
Qed.
Theorem value_text_shows v t : value_text nm ft h v = Ok t <-> shows w h v t.
Proof.
  split; [apply at_shows|]. intros S. destruct (shows_at _ _ S) as (d & E). assert (R : ready d v = true) by (unfold ready; now rewrite E).
  apply enough_depth in R. unfold value_text. unfold ready in R.
  destruct (shown_at (List.length (h_arrays h) + List.length (h_objects h)) v) as [t'| | |] eqn:E'; try discriminate R. f_equal.
  pose proof (at_le _ _ v (Nat.le_max_l d (List.length (h_arrays h) + List.length (h_objects h))) _ E) as X.
  pose proof (at_le _ _ v (Nat.le_max_r d (List.length (h_arrays h) + List.length (h_objects h))) _ E') as Y. congruence.
Qed.
Lemma value_text_other v : (forall t, ~ shows w h v t) -> forall t, value_text nm ft h v <> Ok t.
Proof. intros H t E. apply value_text_shows in E. exact (H t E). Qed.

(** ** A value that contains itself has no text *)
Lemma with_holds f v u t : holds h v u -> text_with nm ft h f v = Ok t -> exists t', f u = Ok t'.
Proof.
  intros H. revert t. induction H as [a vs u E I|o ob m name u E1 E2 I|c k u K _ IH|r g u _ IH]; intros t T; cbn [text_with] in T.
  - unfold elements in E. unfold array_elements in T. destruct (nth_error (h_arrays h) a) as [ar|]; [|discriminate E]. injection E as <-. cbn [obind] in T.
    destruct (texts f (ar_elements ar)) as [ts| | |] eqn:X; try discriminate T. apply texts_ok in X. exact (proj1 (F2_ready _ _) (ex_intro _ ts X) u I).
  - apply object_text_ok in T as (ob' & label & m' & ts & E3 & _ & E4 & F & _). rewrite E1 in E3. injection E3 as <-. rewrite E2 in E4. injection E4 as <-.
    exact (proj1 (F2_ready _ _) (ex_intro _ ts F) u (in_map snd _ _ I)).
  - unfold class_get in T. rewrite K in T. exact (IH t T).
  - destruct (text_with nm ft h f g) as [x| | |]; try discriminate T. exact (IH x eq_refl).
Qed.
Lemma contains_deeper v u : contains h v u -> forall d, ready d v = true -> exists d', d' < d /\ ready d' u = true.
Proof.
  assert (ONE : forall v u, holds h v u -> forall d, ready d v = true -> exists d', d' < d /\ ready d' u = true).
  { intros v0 u0 H d R. unfold ready in R. destruct (shown_at d v0) as [t| | |] eqn:E; try discriminate R. destruct d as [|d]; cbn [text_at] in E; destruct (with_holds _ _ _ _ H E) as (t' & E'); [discriminate E'|].
    exists d. split; [lia|]. unfold ready. now rewrite E'. }
  induction 1 as [v u H|v x u H _ IH]; [exact (ONE v u H)|]. intros d R. destruct (ONE _ _ H d R) as (d1 & L1 & R1). destruct (IH d1 R1) as (d2 & L2 & R2). exists d2. split; [lia|exact R2].
Qed.
Lemma cyclic_no_text v : contains h v v -> forall t, ~ shows w h v t.
Proof.
  intros C. assert (N : forall d, ready d v = true -> False).
  { induction d as [d IH] using (well_founded_induction lt_wf). intros R. destruct (contains_deeper _ _ C d R) as (d' & L & R'). exact (IH d' L R'). }
  intros t S. destruct (shows_at _ _ S) as (d & E). apply (N d). unfold ready. now rewrite E.
Qed.
(** Then the recursion overflows the host's stack. *)
Definition ok_or_panic {A} (x : outcome A) : Prop := match x with Ok _ | Panic => True | _ => False end.
Lemma op_bind {A B} (x : outcome A) (f : A -> outcome B) : ok_or_panic x -> (forall a, ok_or_panic (f a)) -> ok_or_panic (obind x f).
Proof. destruct x; cbn; auto. Qed.
Lemma op_map {A B} (x : outcome A) (f : A -> B) : ok_or_panic x -> ok_or_panic (omap f x).
Proof. destruct x; cbn; auto. Qed.
Lemma op_with f v : (forall v, ok_or_panic (f v)) -> ok_or_panic (text_with nm ft h f v).
Proof.
  intros H. assert (OT : forall o, ok_or_panic (object_text h f o)).
  { intros o. unfold object_text. apply op_bind; [unfold object_class; destruct (nth_error _ o); exact I|]. intros c. apply op_bind.
    - destruct c as [c|]; [|exact I]. apply op_map. unfold class_get. destruct (nth_error _ c); exact I.
    - intros k. apply op_bind; [unfold object_map; destruct (nth_error _ o); [destruct (nth_error _ _)|]; exact I|]. intros m. apply op_map.
      induction m as [|[x y] m IH]; [exact I|]. cbn [field_texts]. apply op_bind; [apply H|]. intros. now apply op_map. }
  induction v; cbn [text_with]; try exact I; try now apply op_map.
  - unfold closure_name. destruct (nth_error _ addr); exact I.
  - apply op_bind; [unfold array_elements; destruct (nth_error _ addr); exact I|]. intros vs. apply op_map. induction vs as [|x vs IH]; [exact I|]. cbn [texts]. apply op_bind; [apply H|]. intros. now apply op_map.
  - apply OT.
  - apply op_bind; [unfold class_get; destruct (nth_error _ addr); exact I|]. intros k. apply OT.
Qed.
Lemma no_text_panics v : (forall t, ~ shows w h v t) -> value_text nm ft h v = Panic.
Proof.
  intros N. assert (O : forall d v, ok_or_panic (shown_at d v)) by (induction d as [|d IH]; intros x; apply op_with; [intros; exact I|exact IH]).
  specialize (O (List.length (h_arrays h) + List.length (h_objects h)) v). unfold value_text. pose proof (value_text_other v N) as X. unfold value_text in X.
  destruct (text_at _ _ _ _ v) as [t| | |]; try contradiction O; [destruct (X t eq_refl)|reflexivity].
Qed.

(** ** Every other value has one *)
Lemma forallb_not {A} (p : A -> bool) l : forallb p l = false -> exists v, In v l /\ p v = false.
Proof.
  induction l as [|y l IH]; [discriminate|]. cbn [forallb]. destruct (p y) eqn:E; cbn [andb]; intros H; [|exists y; split; [now left|exact E]].
  destruct (IH H) as (v & I & X). exists v. split; [now right|exact X].
Qed.
Lemma core_live v c : (forall u, within h v u -> live h u) -> core v = Some c -> live h (box c) \/ exists k, nth_error (h_classes h) k <> None /\ exists cl, nth_error (h_classes h) k = Some cl /\ c = inr (cl_object cl).
Proof.
  induction v; cbn [core]; try discriminate; intros W E.
  - apply IHv2; [intros u H; apply W; now constructor|exact E].
  - injection E as <-. left. exact (W _ (wi_self _ _)).
  - injection E as <-. left. exact (W _ (wi_self _ _)).
  - right. exists addr. destruct (nth_error (h_classes h) addr) as [k|]; [|discriminate E]. injection E as <-. split; [discriminate|eauto].
Qed.
Lemma core_none v : (forall u, within h v u -> live h u) -> core v = None -> ready 0 v = true.
Proof.
  unfold ready. cbn [text_at]. induction v; cbn [core text_with]; try discriminate; intros W E; try reflexivity.
  - specialize (W _ (wi_self _ _)). cbn [live] in W. unfold closure_name. apply nth_error_Some in W. destruct (nth_error (h_closures h) addr); [reflexivity|contradiction].
  - specialize (IHv2 (fun u H => W u (wi_bound _ _ _ _ H)) E). destruct (text_with _ _ _ _ v2); try discriminate IHv2. reflexivity.
  - specialize (W _ (wi_self _ _)). cbn [live] in W. apply nth_error_Some in W. destruct (nth_error (h_classes h) addr); [discriminate E|contradiction].
Qed.
Hypothesis inv : heap_inv h.
Definition sound (c : nat + nat) : Prop :=
  exists vs, inside c = Some vs /\ forall d, (forall v, In v vs -> ready d v = true) -> ready (S d) (box c) = true.
Lemma core_sound v c : (forall u, within h v u -> live h u) -> core v = Some c -> sound c.
Proof.
  assert (RD : forall d v, (exists t, shown_at d v = Ok t) <-> ready d v = true).
  { intros k x. unfold ready. destruct (shown_at k x); split; try discriminate; eauto; intros (t & E); discriminate. }
  assert (OB : forall o ob, nth_error (h_objects h) o = Some ob -> (forall k, ob_class ob = Some k -> k < List.length (h_classes h)) -> sound (inr o)).
  { intros o ob E L. pose proof (hi_fields _ inv _ _ E) as F. apply nth_error_Some in F. destruct (nth_error (h_fields h) (ob_fields ob)) as [m|] eqn:M; [|contradiction].
    exists (map snd m). cbn [inside]. rewrite E, M. split; [reflexivity|]. intros d H. apply RD. cbn [text_at text_with].
    destruct (proj2 (F2_ready (shown_at d) (map snd m))) as (ts & G); [intros x I; apply RD; auto|].
    assert (LB : exists label, label_of h (ob_class ob) label).
    { destruct (ob_class ob) as [k|]; cbn [label_of]; [|eauto]. specialize (L k eq_refl). apply nth_error_Some in L. destruct (nth_error (h_classes h) k) as [kk|] eqn:K; [|contradiction]. eauto. }
    destruct LB as (label & LB). eexists. apply object_text_ok. exists ob, label, m, ts. auto. }
  intros W E. destruct (core_live v c W E) as [L|(k & _ & cl & K & ->)].
  - destruct c as [a|o]; cbn [box live] in L.
    + apply nth_error_Some in L. destruct (nth_error (h_arrays h) a) as [ar|] eqn:A; [|contradiction]. exists (ar_elements ar). cbn [inside]. unfold elements. rewrite A. split; [reflexivity|].
      intros d H. apply RD. cbn [box text_at text_with]. unfold array_elements. rewrite A. cbn [obind].
      destruct (proj2 (F2_ready (shown_at d) (ar_elements ar))) as (ts & F); [intros x I; apply RD; auto|]. apply texts_ok in F. rewrite F. cbn [omap]. eauto.
    + destruct L as (ob & Eo & Lc). exact (OB o ob Eo Lc).
  - destruct (hi_class_object _ inv _ _ K) as (ob & Eo & Ec). apply (OB _ _ Eo). intros k' X. congruence.
Qed.
Lemma core_holds v c vs x : core v = Some c -> inside c = Some vs -> In x vs -> holds h v x.
Proof.
  assert (OB : forall o vs x, inside (inr o) = Some vs -> In x vs -> holds h (VObject o) x).
  { intros o l y E I. cbn [inside] in E. destruct (nth_error (h_objects h) o) as [ob|] eqn:O; [|discriminate E]. destruct (nth_error (h_fields h) (ob_fields ob)) as [m|] eqn:M; [|discriminate E].
    injection E as <-. apply in_map_iff in I as ([name u] & <- & I). exact (ho_object _ _ _ _ _ _ O M I). }
  revert vs. induction v; cbn [core]; try discriminate; intros vs E In I.
  - constructor. now apply (IHv2 vs).
  - injection E as <-. exact (ho_array _ _ _ _ In I).
  - injection E as <-. now apply (OB _ vs).
  - destruct (nth_error (h_classes h) addr) as [k|] eqn:K; [|discriminate E]. injection E as <-. econstructor; [exact K|]. now apply (OB _ vs).
Qed.
Lemma within_holds v x u : within h v x -> holds h x u -> within h v u.
Proof. induction 1 as [v|r f x _ IH|v y x H _ IH]; intros H'; [exact (wi_held _ _ _ _ H' (wi_self _ _))|constructor; auto|exact (wi_held _ _ _ _ H (IH H'))]. Qed.
Lemma within_trans v x u : within h v x -> within h x u -> within h v u.
Proof. induction 1 as [v|r f x _ IH|v y x H _ IH]; intros H'; [exact H'|constructor; auto|exact (wi_held _ _ _ _ H (IH H'))]. Qed.
Lemma contains_within v u : contains h v u -> within h v u.
Proof. induction 1 as [v u H|v x u H _ IH]; [exact (wi_held _ _ _ _ H (wi_self _ _))|exact (wi_held _ _ _ _ H IH)]. Qed.
Lemma same_core v u c : core v = Some c -> core u = Some c -> forall z, contains h v z -> contains h u z.
Proof.
  intros Cv Cu. assert (H1 : forall z, holds h v z -> holds h u z).
  { intros z Hz. assert (J : exists l, inside c = Some l /\ In z l).
    { clear Cu. induction Hz as [e l z E I|o ob m name z E1 E2 I|e k z K _ IHz|r f z _ IHz]; cbn [core] in Cv.
      - injection Cv as <-. cbn [inside]. eauto.
      - injection Cv as <-. cbn [inside]. rewrite E1, E2. exists (map snd m). split; [reflexivity|]. exact (in_map snd _ _ I).
      - rewrite K in Cv. apply IHz. exact Cv.
      - now apply IHz. }
    destruct J as (l & J & Iz). exact (core_holds u c l z Cu J Iz). }
  intros z H. inversion H as [a b H2|a x b H2 H3]; subst; [exact (co_one _ _ _ (H1 _ H2))|exact (co_more _ _ _ _ (H1 _ H2) H3)].
Qed.
(** Without enough depth there is a row of arrays and objects, each inside the one before. *)
Lemma descent : forall d v, (forall u, within h v u -> live h u) -> (forall u, within h v u -> ~ contains h u u) -> ready d v = false ->
  exists l, List.length l = S d /\ NoDup l /\ (forall c, In c l -> sound c) /\
  (forall c, In c l -> core v = Some c \/ exists u, contains h v u /\ core u = Some c).
Proof.
  induction d as [|d IH]; intros v W A R.
  - destruct (core v) as [c|] eqn:C; [|now rewrite core_none in R]. exists [c]. split; [reflexivity|]. split; [constructor; [intros []|constructor]|].
    split; intros x [<-|[]]; [exact (core_sound v c W C)|now left].
  - pose proof (ready_core (S d) v) as RC. destruct (core v) as [c|] eqn:C; [|rewrite RC, core_none in R by assumption; discriminate R].
    destruct (core_sound v c W C) as (vs & I & RS). rewrite RC in R.
    destruct (forallb (ready d) vs) eqn:F; [rewrite forallb_forall in F; rewrite (RS d F) in R; discriminate|]. apply forallb_not in F as (x & Ix & Rx).
    pose proof (core_holds v c vs x C I Ix) as Hx.
    assert (Wx : within h v x) by exact (wi_held _ _ _ _ Hx (wi_self _ _)).
    destruct (IH x) as (l & L & ND & SD & IN); [intros u H; apply W; exact (within_trans _ _ _ Wx H)|intros u H; apply A; exact (within_trans _ _ _ Wx H)|exact Rx|].
    assert (CO : forall y, In y l -> exists u, contains h v u /\ core u = Some y).
    { intros y Iy. destruct (IN y Iy) as [E|(u & Hu & E)]; [exists x; split; [now apply co_one|exact E]|exists u; split; [exact (co_more _ _ _ _ Hx Hu)|exact E]]. }
    exists (c :: l). split; [cbn [List.length]; now rewrite L|]. split; [constructor; [|exact ND]|].
    + intros Ic. destruct (CO c Ic) as (u & Hu & E). apply (A u (contains_within _ _ Hu)). exact (same_core v u c C E u Hu).
    + split; intros y [<-|Iy]; [exact (core_sound v c W C)|exact (SD y Iy)|now left|right; exact (CO y Iy)].
Qed.
Lemma has_text v : (forall u, within h v u -> live h u) -> (forall u, within h v u -> ~ contains h u u) -> exists t, shows w h v t.
Proof.
  intros W A. destruct (ready (List.length (h_arrays h) + List.length (h_objects h)) v) eqn:R.
  - unfold ready in R. destruct (shown_at _ v) as [t| | |] eqn:E; try discriminate R. exists t. exact (at_shows _ _ _ E).
  - exfalso. destruct (descent _ v W A R) as (l & L & ND & SD & _).
    assert (X : List.length l <= List.length (map (@inl nat nat) (seq 0 (List.length (h_arrays h))) ++ map inr (seq 0 (List.length (h_objects h))))).
    { apply NoDup_incl_length; [exact ND|]. intros c Ic. destruct (SD c Ic) as (vs & I & _). apply in_or_app. destruct c as [a|o]; [left|right]; apply in_map; apply in_seq; cbn [inside] in I.
      - unfold elements in I. assert (nth_error (h_arrays h) a <> None) as X by (destruct (nth_error _ a); congruence). apply nth_error_Some in X. lia.
      - assert (nth_error (h_objects h) o <> None) as X by (destruct (nth_error (h_objects h) o); congruence). apply nth_error_Some in X. lia. }
    rewrite app_length, !map_length, !seq_length in X. lia.
Qed.
End Show.
Lemma shows_one w h v t t' : shows w h v t -> shows w h v t' -> t = t'.
Proof. intros A B. apply value_text_shows in A, B. congruence. Qed.

Lemma nth_more {A} (l l' : list A) : (forall i, i < List.length l -> nth_error l' i = nth_error l i) -> forall i x, nth_error l i = Some x -> nth_error l' i = Some x.
Proof. intros H i x E. rewrite H; [exact E|]. apply nth_error_Some. congruence. Qed.
Lemma shows_more w s c o s' : one_more_object s c o s' -> forall v t, shows w (vm_heap s) v t -> shows w (vm_heap s') v t.
Proof.
  intros (EO & (h' & Es) & _ & _ & OB & FD & AR & CL & CS & _). rewrite EO in OB.
  pose proof (nth_more _ _ OB) as OB'. pose proof (nth_more _ _ FD) as FD'.
  fix IH 3. intros v t [ | | | |z x U|x|x|x|f|a c' C|n|r f x S|a vs ts E F|o' ob label m ts E1 E2 E3 F|c' k x K S]; try (constructor; assumption).
  - constructor. now rewrite CS.
  - constructor. exact (IH _ _ S).
  - econstructor.
    + unfold elements in *. rewrite AR. exact E.
    + clear E. induction F as [|v1 t1 vs1 ts1 S1 F1 IHF]; constructor; [exact (IH _ _ S1)|exact IHF].
  - econstructor.
    + apply OB'. exact E1.
    + unfold label_of in *. destruct (ob_class ob); [rewrite CL; exact E2|exact E2].
    + apply FD'. exact E3.
    + clear E3. revert F. generalize (map snd m). intros vs F. induction F as [|v1 t1 vs1 ts1 S1 F1 IHF]; constructor; [exact (IH _ _ S1)|exact IHF].
  - econstructor; [rewrite CL; exact K|]. exact (IH _ _ S).
Qed.

Lemma to_string_replies w v t s : shows w (vm_heap s) v t -> replies w NToString v [] s (VString t).
Proof.
  intros S. apply by_reply. intros r below temps. cbn [call_native]. unfold to_text, rbind, heap_get. rewrite ws_heap.
  apply value_text_shows in S. now rewrite S.
Qed.
Lemma string_converts w v t s : shows w (vm_heap s) v t -> converts w NStringNew v s (VString t).
Proof.
  intros S. apply by_convert. intros c o s' O. apply (shows_more w _ _ _ _ O) in S. apply by_reply. intros r below temps. cbn [call_native]. unfold to_text, rbind, heap_get. rewrite ws_heap.
  apply value_text_shows in S. now rewrite S.
Qed.
Lemma holds_more s c o s' : one_more_object s c o s' -> forall v u, holds (vm_heap s) v u -> holds (vm_heap s') v u.
Proof.
  intros (EO & (h' & Es) & _ & _ & OB & FD & AR & CL & CS & _). rewrite EO in OB. pose proof (nth_more _ _ OB) as OB'. pose proof (nth_more _ _ FD) as FD'.
  induction 1 as [a vs u E I|o' ob m name u E1 E2 I|c' k u K _ IH|r g u _ IH].
  - econstructor; [|exact I]. unfold elements in *. now rewrite AR.
  - econstructor; [exact (OB' _ _ E1)|exact (FD' _ _ E2)|exact I].
  - econstructor; [rewrite CL; exact K|exact IH].
  - now constructor.
Qed.
Lemma contains_more s c o s' : one_more_object s c o s' -> forall v u, contains (vm_heap s) v u -> contains (vm_heap s') v u.
Proof. intros O v u. induction 1 as [v u H|v x u H _ IH]; [apply co_one|eapply co_more; [|exact IH]]; eapply holds_more; eauto. Qed.
Lemma cyclic_to_string w v s : contains (vm_heap s) v v -> call_panics w NToString v [] s.
Proof.
  intros C. apply by_panic. intros r below temps. cbn [call_native]. unfold to_text, rbind, heap_get. rewrite ws_heap.
  now rewrite (no_text_panics w _ v (cyclic_no_text w _ v C)).
Qed.
Lemma cyclic_string w v s : contains (vm_heap s) v v -> forall k below temps c, fits below temps 2 -> method (vm_heap s) c "new" = Some (VFnNative NStringNew) ->
  r_call (machine w (S (S k))) 1 (with_stack below (v :: VClass c :: temps) s) = RPanic.
Proof.
  intros C k below temps c F M.
  destruct (construct_alloc w (machine w (S k)) below temps [v] c s) as (o & s' & O & E). cbn [List.length rev app] in E.
  replace (r_call (machine w (S (S k))) 1) with (call_fn w (machine w (S k)) 1) by reflexivity. rewrite E. clear E.
  assert (M' : class_method c "new" (vm_heap s') = Ok (Some (VFnNative NStringNew))).
  { destruct O as (_ & _ & _ & _ & _ & _ & _ & Hcl & _). apply class_method_some. unfold method. now rewrite Hcl. }
  apply (contains_more _ _ _ _ O) in C. unfold call_class_constructor.
  assert (CP : call_panics w NStringNew (VObject o) [v] s').
  { apply by_panic. intros r b t. cbn [call_native]. unfold to_text, rbind, heap_get. rewrite ws_heap. now rewrite (no_text_panics w _ v (cyclic_no_text w _ v C)). }
  specialize (CP k below temps F). cbn [List.length rev app] in CP.
  unfold rbind, heap_get. rewrite ws_heap, M'. cbn [lift].
  assert (PK := poke_callee below [v] (VClass c) temps s' (VFnBound (VObject o) (VFnNative NStringNew)) F). cbn [rev app List.length] in PK.
  rewrite PK. rewrite CP. reflexivity.
Qed.
