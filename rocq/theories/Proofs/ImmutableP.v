(** Running an accepted program changes no variable that is not declared [mut]; modules and globals that are
    known stay known. *)
From Coq Require Import Lia.
From Verif.Spec Require Import StaticSpec StaticTop.
From Verif.Spec Require Import MeaningSpec.
From Verif.Proofs Require Import ExprInd VmStepsP StackP.
#[local] Open Scope string_scope.
#[local] Open Scope list_scope.
#[local] Open Scope nat_scope.

(** * Only statements declare *)
Lemma decls_seq_none {A} (f : A -> StaticSpec.env) l : (forall x, In x l -> f x = []) -> decls_seq f l = [].
Proof.
  induction l as [|x l IH]; intros H; [reflexivity|]. change (decls_seq f l ++ f x = []).
  rewrite (IH (fun y Hy => H y (or_intror Hy))), (H x (or_introl eq_refl)). reflexivity.
Qed.
Lemma opt_all_in f o x : opt_all f o = true -> o = Some x -> f x = true.
Proof. intros H ->. exact H. Qed.

Ltac split_and :=
  repeat match goal with
  | H : _ && _ = true |- _ => apply andb_true_iff in H as [? ?]
  | H : forallb _ _ = true |- _ => rewrite forallb_forall in H
  end.

Local Ltac sub Q := match goal with R : forall x Q, _ -> _ -> _ -> decls x = [] |- _ => apply (R _ Q); [cbn [esize]; lia|assumption|reflexivity] end.
Definition declares (e : expr) : bool := match e with EVarDecl _ _ _ _ | EImportDecl _ _ _ | EExportDecl _ => true | _ => false end.
Lemma no_decls n : forall e P, esize e <= n -> supported P e = true -> pl_stmt P = false \/ declares e = false -> decls e = [].
Proof.
  induction n as [|n IH]; [intros e P L; pose proof (esize_pos e); lia|].
  intros e P L HS HP.
  assert (R : forall x Q, esize x < esize e -> supported Q x = true -> pl_stmt Q = false -> decls x = []).
  { intros x Q Lx HX HQ. apply (IH x Q); [lia|exact HX|left; exact HQ]. }
  destruct e; try reflexivity; cbn [supported] in HS;
    try (destruct HP as [HP|HP]; [rewrite HP in HS; discriminate HS|discriminate HP]); try discriminate HS; clear HP; split_and.
  - (* object *) cbn [decls]. apply decls_seq_none. intros [key x] Hx. apply (R x (later_of P)); [|apply (HS _ Hx)|reflexivity].
    rewrite size_ELitObject. pose proof (fsize_in _ _ _ Hx). lia.
  - (* list *) cbn [decls]. apply decls_seq_none. intros x Hx. apply (R x (later_of P)); [|auto|reflexivity]. rewrite size_ELitList. pose proof (lsize_in _ _ Hx). lia.
  - (* ? *) cbn [decls]. destruct (pl_chain P); try discriminate; sub (target_of P).
  - (* !! *) cbn [decls]. sub (target_of P).
  - (* field *) cbn [decls]. sub (target_of P).
  - (* call *) cbn [decls]. rewrite (R e (target_of P)); [|rewrite size_EFnCall; lia|assumption|reflexivity]. rewrite app_nil_r.
    apply decls_seq_none. intros x Hx. apply (R x (arg_of P)); [|auto|reflexivity]. rewrite size_EFnCall. pose proof (lsize_in _ _ Hx). lia.
  - (* super *) cbn [decls]. apply decls_seq_none. intros x Hx. apply (R x (arg_of P)); [|auto|reflexivity]. rewrite size_ESuperCall. pose proof (lsize_in _ _ Hx). lia.
  - (* index *) cbn [decls]. replace (decls e1) with (@nil (string * bool)) by (symmetry; sub (target_of P)). rewrite app_nil_r. sub (arg_of P).
  - (* is *) cbn [decls]. replace (decls e) with (@nil (string * bool)) by (symmetry; sub (first_of P)). destruct (ta_nullable _); reflexivity.
  - (* prefix *) cbn [decls]. sub (first_of P).
  - (* binary *)
    assert (D : decls e1 = [] /\ decls e2 = []) by (destruct op; split_and; split; first [sub (first_of P)|sub (later_of P)]).
    destruct D as [D1 D2]. cbn [decls]. rewrite D1, D2. destruct op; reflexivity.
  - (* assignment *)
    destruct e1; try discriminate; split_and; cbn [decls].
    + rewrite app_nil_r. destruct op; first [sub (first_of P)|sub (later_of P)].
    + replace (decls e2) with (@nil (string * bool)) by (symmetry; sub (later_of P)). cbn [app].
      apply (R _ (first_of P)); [cbn [esize]; lia|assumption|reflexivity].
    + replace (decls e2) with (@nil (string * bool)) by (symmetry; sub (later_of P)). cbn [app].
      rewrite (R e1_1 (first_of P)), (R e1_2 (later_of P)); try reflexivity; try assumption; cbn [esize]; lia.
  - (* if *) cbn [decls]. replace (decls e1) with (@nil (string * bool)) by (symmetry; sub (first_of P)).
    replace (decls e2) with (@nil (string * bool)) by (symmetry; sub (first_of P)). rewrite !app_nil_r.
    destruct secondary as [x|]; [|reflexivity]. cbn [opt_all] in *. apply (R x (first_of P)); [|assumption|reflexivity]. rewrite size_EIf. cbn [osize]. lia.
  - (* for *) assert (D : decls e1 = [] /\ match e1 with EBinary (BRangeInclusive | BRangeExclusive) a b => decls a = [] /\ decls b = [] | _ => True end).
    { destruct e1; try (split_and; split; [sub (first_of P)|exact I]).
      destruct op; split_and; try (split; [sub (first_of P)|exact I]).
      all: assert (A : decls e1_1 = []) by (apply (R _ (later_of P)); [cbn [esize]; lia|assumption|reflexivity]).
      all: assert (B : decls e1_2 = []) by (apply (R _ (first_of P)); [cbn [esize]; lia|assumption|reflexivity]).
      all: cbn [decls]; rewrite A, B; auto. }
    destruct D as [D1 D2]. cbn [decls]. destruct e1; try exact D1. destruct op; try exact D1; destruct D2 as [A B]; rewrite A, B; reflexivity.
  - (* return *) cbn [decls]. destruct result as [x|]; [|reflexivity]. cbn [opt_all] in *.
    apply (R x (first_of P)); [|assumption|reflexivity]. rewrite size_EReturn. cbn [osize]. lia.
Qed.
Lemma undeclared P e : supported P e = true -> pl_stmt P = false -> decls e = [].
Proof. intros H HP. apply (no_decls (esize e) e P); auto. Qed.
Lemma plain_undeclared P e : supported P e = true -> declares e = false -> decls e = [].
Proof. intros H HP. apply (no_decls (esize e) e P); auto. Qed.
Lemma unhoisted P e : supported P e = true -> pl_stmt P = false -> hoisted_name e = [].
Proof. intros H HP. destruct e; try reflexivity; cbn [supported] in H; rewrite HP in H; discriminate H. Qed.

(** * The variables that must not change
    [F] is a set of variables.  An environment shields them if the names that lead to them are not mutable. *)
Definition shields (F : nat -> Prop) (G : StaticSpec.env) (E : env) : Prop :=
  forall x l, assoc_get x E = Some l -> F l -> mutability x G <> Some true.
Definition bounded (n : nat) (E : env) : Prop := forall x l, assoc_get x E = Some l -> l < n.
Definition constant (H : StaticSpec.env) : Prop := Forall (fun p => snd p = false) H.
Definition source_ok (G : StaticSpec.env) (src : source) : Prop :=
  exists H P, constant H /\ block_ok assigns_ok (H ++ G) (fst (body_parts (src_body src))) (snd (body_parts (src_body src))) = true /\
  forall x, In x (statements (fst (body_parts (src_body src))) (snd (body_parts (src_body src)))) -> supported P x = true.
Record inv (F : nat -> Prop) (m : memory) : Prop := {
  in_frozen : forall l, F l -> l < List.length (m_cells m);
  in_closures : forall a c, nth_error (m_closures m) a = Some (Some c) ->
    exists G, shields F G (cl_env c) /\ bounded (List.length (m_cells m)) (cl_env c) /\ source_ok G (cl_source c);
  in_fns : forall n src, In (n, src) (m_fns m) -> exists G, source_ok G src }.
Record after (F : nat -> Prop) (m m' : memory) : Prop := {
  af_vm : vm_steps (m_vm m) (m_vm m');
  af_length : List.length (m_cells m) <= List.length (m_cells m');
  af_cells : forall l, F l -> nth_error (m_cells m') l = nth_error (m_cells m) l }.
Definition memory_of (a : answer) : option memory :=
  match a with AVal _ m | ABreak m | AContinue m | AReturn _ m | ANull m | AFail _ m => Some m | ACrash | AUnknown => None end.
Definition good (F : nat -> Prop) (m : memory) (a : answer) : Prop :=
  match memory_of a with Some m' => after F m m' /\ inv F m' | None => True end.
Record env_ok (F : nat -> Prop) (G : StaticSpec.env) (E : env) (m : memory) : Prop := {
  eo_shields : shields F G E;
  eo_bounded : bounded (List.length (m_cells m)) E }.
Definition free (F : nat -> Prop) (names : list string) (E : env) : Prop :=
  forall x l, In x names -> assoc_get x E = Some l -> ~ F l.
Definition grows (F : nat -> Prop) (E E1 : env) : Prop := forall x l, assoc_get x E1 = Some l -> F l -> assoc_get x E = Some l.

Record keeps (F : nat -> Prop) (I : interp) : Prop := {
  k_eval : forall P G S k e m, inv F m -> env_ok F G (s_env S) m -> supported P e = true -> assigns_ok G e = true ->
    free F (hoisted_name e) (s_env S) -> good F m (i_eval I S k e m);
  k_call : forall room f args m, inv F m -> good F m (i_call I room f args m);
  k_range : forall P G S k c x body v limit m, inv F m -> env_ok F G (s_env S) m -> supported P body = true -> pl_stmt P = false ->
    assigns_ok ((x, false) :: G) body = true -> good F m (i_range I S k c x body v limit m);
  k_iter : forall P G S k x body next m, inv F m -> env_ok F G (s_env S) m -> supported P body = true -> pl_stmt P = false ->
    assigns_ok ((x, false) :: G) body = true -> good F m (i_iter I S k x body next m);
  k_import : forall room name m, inv F m -> good F m (i_import I room name m) }.

Section Keeps.
Variable F : nat -> Prop.

Lemma after_refl m : after F m m.
Proof. split; [constructor|lia|reflexivity]. Qed.
Lemma after_trans m1 m2 m3 : after F m1 m2 -> after F m2 m3 -> after F m1 m3.
Proof. intros [A B C] [A' B' C']. split; [eapply vs_trans; eassumption|lia|]. intros l H. now rewrite C', C. Qed.
Lemma good_after m m1 a : after F m m1 -> good F m1 a -> good F m a.
Proof. unfold good. intros A. destruct (memory_of a); [|auto]. intros [B V]. split; [now apply (after_trans _ m1)|exact V]. Qed.
Lemma good_here v m : inv F m -> good F m (AVal v m).
Proof. intros V. split; [apply after_refl|exact V]. Qed.
Lemma env_after G E m m1 : after F m m1 -> env_ok F G E m -> env_ok F G E m1.
Proof. intros A [X Y]. split; [exact X|]. intros x l H. apply Y in H. pose proof (af_length _ _ _ A). lia. Qed.

Lemma g_vbind m a f : good F m a -> (forall v m1, after F m m1 -> inv F m1 -> good F m1 (f v m1)) -> good F m (vbind a f).
Proof. destruct a; cbn [vbind]; auto. intros [A V] H. eapply good_after; [exact A|]. now apply H. Qed.
Lemma g_called m a f : good F m a -> (forall v m1, after F m m1 -> inv F m1 -> good F m1 (f v m1)) -> good F m (called a f).
Proof. destruct a; cbn [called]; try (intros; exact Logic.I). intros [A V] H. eapply good_after; [exact A|]. now apply H. Qed.
Lemma set_vm_after s m : vm_steps (m_vm m) s -> after F m (set_vm s m).
Proof. intros H. split; [exact H|cbn; lia|reflexivity]. Qed.
Lemma set_vm_inv s m : inv F m -> inv F (set_vm s m).
Proof. intros [A B C]. split; assumption. Qed.
Lemma g_with_vm {A} (r : run A) m f : sound r -> inv F m -> (forall v m1, after F m m1 -> inv F m1 -> good F m1 (f v m1)) -> good F m (with_vm r m f).
Proof.
  intros S V H. unfold with_vm. specialize (S (m_vm m)). destruct (r (m_vm m)) as [a s|e s| |]; try exact Logic.I.
  - eapply good_after; [apply set_vm_after, S|]. apply H; [now apply set_vm_after|now apply set_vm_inv].
  - split; [now apply set_vm_after|now apply set_vm_inv].
Qed.
Lemma g_load E x m : inv F m -> good F m (load E x m).
Proof.
  intros V. unfold load. destruct (assoc_get x E) as [l|].
  - destruct (nth_error _ _) as [[v|]|]; try exact Logic.I. now apply good_here.
  - destruct (assoc_get x _); (split; [apply after_refl|exact V]).
Qed.
Lemma sound_assert_is n c v : sound (assert_is n c v).
Proof. unfold assert_is. sn. Qed.
Lemma sound_is_type c v : sound (is_type c v).
Proof. unfold is_type. sn. Qed.
Lemma sound_set_fields key t v : sound (set_field key t v).
Proof. unfold set_field. sn. Qed.
Lemma sound_get_index t i : sound (get_index t i).
Proof. unfold get_index. sn. Qed.
Lemma sound_set_index t i v : sound (set_index t i v).
Proof. unfold set_index. sn. Qed.
Lemma sound_inherit name v : sound (inherit name v).
Proof. unfold inherit. sn. Qed.
Lemma sound_set_meth key c f : sound (set_method key c f).
Proof. unfold set_method. sn. Qed.
Lemma sound_super_method key c v : sound (super_method key c v).
Proof. unfold super_method. sn. Qed.
Lemma sound_no_calls w n args : sound (call_native w no_calls n args).
Proof. apply sound_call_native; intros; intros s; exact Logic.I. Qed.
Lemma begin_import_steps name s o s' : assoc_get name (vm_modules s) = None -> begin_import name s = ROk o s' -> vm_steps s s'.
Proof.
  intros E H. unfold begin_import, rbind, heap_alloc in H. destruct (object_new (Some (vm_module_class s)) (vm_heap s)) as [o1 h] eqn:Eo.
  injection H as -> <-. apply (vs_trans _ (set_heap h s)); [apply vs_one; constructor; eapply HNewObject; eauto|].
  apply vs_one. apply (CLoad (set_heap h s)). exact E.
Qed.
Hint Resolve sound_assert_is sound_is_type sound_set_fields sound_get_index sound_set_index sound_inherit sound_set_meth sound_super_method sound_no_calls
  sound_array_borrows sound_get_field : sound.

Lemma g_check E t v m f : inv F m -> (forall m1, after F m m1 -> inv F m1 -> good F m1 (f m1)) -> good F m (check E t v m f).
Proof.
  intros V H. unfold check. destruct t; [|apply H; [apply after_refl|exact V]].
  apply g_vbind; [now apply g_load|]. intros c m1 A1 V1. apply g_with_vm; [auto with sound|exact V1|]. intros _ m2 A2 V2. apply H; [eapply after_trans; eassumption|exact V2].
Qed.
Lemma g_outcome x m : inv F m -> good F m (of_outcome x m).
Proof. intros V. destruct x; try exact Logic.I; (split; [apply after_refl|exact V]). Qed.
Lemma g_cond v m f : inv F m -> (forall b, good F m (f b)) -> good F m (as_condition v m f).
Proof. intros V H. destruct v; cbn [as_condition]; auto; (split; [apply after_refl|exact V]). Qed.
Lemma g_logical v m f : inv F m -> (forall b, good F m (f b)) -> good F m (as_logical v m f).
Proof. intros V H. destruct v; cbn [as_logical]; auto; (split; [apply after_refl|exact V]). Qed.
Lemma g_chained S m a : good F m a -> good F m (EvalSpec.chained S a).
Proof. destruct a; cbn [EvalSpec.chained]; auto. destruct (s_chain S); auto. Qed.
Lemma g_again m a f : good F m a -> (forall m1, after F m m1 -> inv F m1 -> good F m1 (f m1)) -> good F m (again a f).
Proof.
  destruct a; cbn [again]; auto; intros [A V] H; try (eapply good_after; [exact A|]; now apply H).
Qed.

Lemma alloc_ok x m : inv F m -> after F m (snd (alloc x m)) /\ inv F (snd (alloc x m)).
Proof.
  intros [A B C]. unfold alloc. cbn [snd]. split.
  - split; [constructor|cbn; rewrite app_length; cbn; lia|]. intros l H. cbn. apply nth_error_app1. now apply A.
  - split; cbn; rewrite ?app_length; cbn.
    + intros l H. apply A in H. lia.
    + intros a c H. destruct (B a c H) as (G & X & Y & Z). exists G. split; [exact X|]. split; [|exact Z]. intros x0 l Hl. apply Y in Hl. lia.
    + exact C.
Qed.
Lemma declare_ok x b G E m v : inv F m -> env_ok F G E m ->
  env_ok F ((x, b) :: G) ((x, fst (alloc v m)) :: E) (snd (alloc v m)).
Proof.
  intros V [X Y]. split.
  - intros y l H HF. cbn [assoc_get mutability] in *. rewrite (String.eqb_sym x y). destruct (String.eqb y x) eqn:Ex.
    + unfold alloc in H. cbn [fst] in H. injection H as <-. apply (in_frozen _ _ V) in HF. lia.
    + now apply (X y l).
  - intros y l H. cbn [assoc_get] in H. unfold alloc in *. cbn [fst snd] in *. cbn. rewrite app_length. cbn.
    destruct (String.eqb y x); [injection H as <-; lia|]. apply Y in H. lia.
Qed.
Lemma fresh_ok x G E m v : inv F m -> env_ok F G E m -> env_ok F G ((x, fst (alloc v m)) :: E) (snd (alloc v m)).
Proof.
  intros V HE. destruct (declare_ok x false G E m v V HE) as [X Y]. split; [|exact Y]. intros y l H HF M. cbn [assoc_get] in H.
  destruct (String.eqb y x).
  - unfold alloc in H. cbn [fst] in H. injection H as <-. apply (in_frozen _ _ V) in HF. lia.
  - exact (eo_shields _ _ _ _ HE y l H HF M).
Qed.
Lemma declare_grows x E m v : inv F m -> grows F E ((x, fst (alloc v m)) :: E).
Proof.
  intros V y l H HF. cbn [assoc_get] in H. destruct (String.eqb y x); [|exact H]. injection H as <-. apply (in_frozen _ _ V) in HF. cbn in HF. lia.
Qed.
Lemma grows_refl E : grows F E E. Proof. intros x l H _. exact H. Qed.
Lemma grows_trans E1 E2 E3 : grows F E1 E2 -> grows F E2 E3 -> grows F E1 E3.
Proof. intros A B x l H HF. apply A; [|exact HF]. now apply B. Qed.
Lemma free_grows names E E1 : grows F E E1 -> free F names E -> free F names E1.
Proof. intros G H x l Hx Hl HF. apply (H x l Hx); [|exact HF]. now apply G. Qed.

Lemma mutability_constant x H G : constant H -> mutability x (H ++ G) = Some true -> mutability x G = Some true.
Proof.
  induction H as [|[y b] H IH]; intros C E; [exact E|]. inversion C as [|? ? C1 C2]; subst. cbn in C1, E. subst b. destruct (String.eqb y x); [discriminate|now apply IH].
Qed.
Lemma constant_immutable xs : constant (immutable xs).
Proof. apply Forall_forall. intros p H. unfold immutable in H. rewrite <- in_rev in H. apply in_map_iff in H as (x & <- & _). reflexivity. Qed.
Lemma env_constant H G E m : constant H -> env_ok F G E m -> env_ok F (H ++ G) E m.
Proof. intros C [X Y]. split; [|exact Y]. intros x l Hl HF M. apply (X x l Hl HF). now apply (mutability_constant x H). Qed.

Lemma g_store E x v m : inv F m -> (forall l, assoc_get x E = Some l -> ~ F l) -> good F m (store E x v m).
Proof.
  intros [A B C] H. unfold store. destruct (assoc_get x E) as [l|]; [|exact Logic.I]. split.
  - split; [constructor|cbn; rewrite set_nth_len; lia|]. intros l' HF. cbn. apply nth_error_set_nth_neq. intros ->. exact (H _ eq_refl HF).
  - split; cbn; rewrite ?set_nth_len; assumption.
Qed.

(** * Expressions *)
Variables (w : world) (lit : nat -> fn_bytecode) (I : interp).
Hypothesis K : keeps F I.

Lemma sub P G S k e m : inv F m -> env_ok F G (s_env S) m -> supported P e = true -> pl_stmt P = false -> assigns_ok G e = true -> good F m (i_eval I S k e m).
Proof. intros V E HS HP HA. eapply (k_eval _ _ K); try eassumption. rewrite (unhoisted P e HS HP). intros x l []. Qed.

Local Tactic Notation "vb" ident(v) ident(m) ident(A) ident(V) := apply g_vbind; [|intros v m A V].
Local Tactic Notation "wv" ident(v) ident(m) ident(A) ident(V) := apply g_with_vm; [solve [auto with sound|sn]|assumption|intros v m A V].
Local Ltac env := first [eassumption|eapply env_after; [eassumption|]; env].
Local Ltac ev Q := eapply (sub Q); [assumption|cbn [s_env inner deep target]; env|assumption|reflexivity|assumption].

Lemma k_overload room name l r m : inv F m -> good F m (overload I room name l r m).
Proof.
  intros V. unfold overload. wv v m1 A1 V1. destruct v; try now apply (k_call _ _ K).
  destruct (assoc_get _ _); [now apply (k_call _ _ K)|]. split; [apply after_refl|assumption].
Qed.
Lemma k_operate room o l r m : inv F m -> good F m (operate w I room o l r m).
Proof. intros V. unfold operate. destruct o; try (now apply k_overload); destruct (builtin_binary _ _ _ _); first [now apply g_outcome|now apply k_overload]. Qed.

Lemma seq_ok_none G es : (forall x, In x es -> decls x = []) -> seq_ok assigns_ok G es = true -> forall x, In x es -> assigns_ok G x = true.
Proof.
  induction es as [|e es IH]; intros D H x Hx; [destruct Hx|]. cbn [seq_ok] in H. apply andb_true_iff in H as [H1 H2].
  rewrite (D e (or_introl eq_refl)) in H2. destruct Hx as [<-|Hx]; [exact H1|]. apply IH; auto. intros y Hy. apply D. now right.
Qed.
Lemma fields_ok_none G es : (forall k x, In (k, x) es -> decls x = []) -> fields_ok assigns_ok G es = true -> forall k x, In (k, x) es -> assigns_ok G x = true.
Proof.
  induction es as [|[k0 e] es IH]; intros D H k x Hx; [destruct Hx|]. cbn [fields_ok] in H. apply andb_true_iff in H as [H1 H2].
  rewrite (D k0 e (or_introl eq_refl)) in H2. destruct Hx as [Hx|Hx]; [injection Hx as <- <-; exact H1|]. eapply IH; eauto. intros k1 y Hy. apply (D k1). now right.
Qed.

Lemma k_list P G es : pl_stmt P = false -> (forall x, In x es -> supported P x = true) -> (forall x, In x es -> assigns_ok G x = true) ->
  forall S k m f, inv F m -> env_ok F G (s_env S) m ->
  (forall vs m1, after F m m1 -> inv F m1 -> good F m1 (f vs m1)) -> good F m (eval_list I S k es m f).
Proof.
  intros HP. induction es as [|e es IH]; intros HS HA S k m f V E H; cbn [eval_list]; [apply H; [apply after_refl|exact V]|].
  vb v m1 A1 V1; [apply (sub P G); [assumption|assumption|apply HS; now left|assumption|apply HA; now left]|].
  apply IH; [intros; apply HS; now right|intros; apply HA; now right|assumption|cbn [s_env deep]; env|].
  intros vs m2 A2 V2. apply H; [eapply after_trans; eassumption|assumption].
Qed.
Lemma k_fields P G es : pl_stmt P = false -> (forall k x, In (k, x) es -> supported P x = true) -> (forall k x, In (k, x) es -> assigns_ok G x = true) ->
  forall S k o m, inv F m -> env_ok F G (s_env S) m -> good F m (eval_fields I S k o es m).
Proof.
  intros HP. induction es as [|[key e] es IH]; intros HS HA S k o m V E; cbn [eval_fields]; [now apply good_here|].
  vb v m1 A1 V1; [apply (sub P G); [assumption|assumption|apply (HS key); now left|assumption|apply (HA key); now left]|]. wv u m2 A2 V2.
  apply IH; [intros k1 x Hx; eapply HS; right; eauto|intros k1 x Hx; eapply HA; right; eauto|assumption|env].
Qed.

Definition goes (G : StaticSpec.env) (S : scene) (m : memory) (f : scene -> memory -> answer) : Prop :=
  forall S1 m1, after F m m1 -> inv F m1 -> env_ok F G (s_env S1) m1 -> grows F (s_env S) (s_env S1) -> good F m1 (f S1 m1).
Lemma k_destructure xs v : forall G S m f, inv F m -> env_ok F G (s_env S) m -> goes G S m f -> good F m (destructure xs v S m f).
Proof.
  induction xs as [|x xs IH]; intros G S m f V E H; cbn [destructure]; [apply H; [apply after_refl|exact V|exact E|apply grows_refl]|].
  wv y m1 A1 V1. pose proof (alloc_ok (Some y) m1 V1) as [A2 V2]. pose proof (env_after G _ _ _ A1 E) as E1.
  pose proof (fresh_ok x G (s_env S) m1 (Some y) V1 E1) as E2. pose proof (declare_grows x (s_env S) m1 (Some y) V1) as G2.
  destruct (alloc (Some y) m1) as [l m2]. cbn [fst snd] in *. eapply good_after; [exact A2|].
  apply (IH G); [exact V2|exact E2|].
  intros S3 m3 A3 V3 E3 G3. apply H; [eapply after_trans; [exact A1|]; eapply after_trans; eassumption|exact V3|exact E3|].
  eapply grows_trans; [|exact G3]. exact G2.
Qed.

Lemma k_make_fn n src E G m : inv F m -> env_ok F G E m -> source_ok G src -> good F m (make_fn lit n src E m).
Proof.
  intros [A B C] [X Y] HS. unfold make_fn. destruct (Nat.eqb _ _); (split; [split; [constructor|cbn; lia|reflexivity]|]); split; cbn; try assumption.
  - intros n' src' [H|H]; [injection H as <- <-; eauto|eauto].
  - intros a c H. destruct (Nat.lt_ge_cases a (List.length (m_closures m))) as [La|La].
    + rewrite nth_error_app1 in H by exact La. now apply (B a).
    + rewrite nth_error_app2 in H by exact La. destruct (a - List.length (m_closures m)) as [|j]; [|destruct j; discriminate H]. injection H as <-. cbn. eauto.
Qed.

Lemma body_supported P body : match body with EBlock es t => forallb (supported P) es && opt_all (supported P) t | _ => supported P body end = true ->
  forall x, In x (statements (fst (body_parts body)) (snd (body_parts body))) -> supported P x = true.
Proof.
  intros H x Hx. unfold statements in Hx. destruct body; cbn [body_parts fst snd app] in Hx; try (destruct Hx as [<-|[]]; exact H).
  split_and. apply in_app_or in Hx as [Hx|Hx]; [auto|]. destruct trailing as [y|]; [|destruct Hx]. destruct Hx as [<-|[]]. assumption.
Qed.
Lemma body_assigns G body : body_ok assigns_ok G body = block_ok assigns_ok G (fst (body_parts body)) (snd (body_parts body)).
Proof. destruct body; reflexivity. Qed.
Lemma constant_params args : constant (params args). Proof. apply constant_immutable. Qed.
Lemma source_fn G self args r body k P : match body with EBlock es t => forallb (supported P) es && opt_all (supported P) t | _ => supported P body end = true ->
  forall H, constant H -> body_ok assigns_ok (H ++ G) body = true -> source_ok G (Source self args r body k).
Proof. intros HS H C A. exists H, P. split; [exact C|]. rewrite <- body_assigns. split; [exact A|]. now apply body_supported. Qed.
Lemma function_source G self args r body k P a : match body with EBlock es t => forallb (supported P) es && opt_all (supported P) t | _ => supported P body end = true ->
  body_ok assigns_ok (function_env a G) body = true -> source_ok G (Source self args r body k).
Proof.
  intros HS A. apply (source_fn G _ _ _ _ _ P HS (params a ++ [("", false)])); [|rewrite <- app_assoc; exact A].
  apply Forall_app. split; [apply constant_params|]. now constructor.
Qed.

Definition proceeds (G : StaticSpec.env) (S : scene) (m : memory) (f : scene -> value -> memory -> answer) : Prop :=
  forall S1 v m1, after F m m1 -> inv F m1 -> env_ok F G (s_env S1) m1 -> grows F (s_env S) (s_env S1) -> good F m1 (f S1 v m1).

Lemma k_declaration P G S k e m f : match e with EImportDecl _ _ _ | EExportDecl _ => False | _ => True end ->
  inv F m -> env_ok F G (s_env S) m -> supported P e = true -> assigns_ok G e = true -> free F (hoisted_name e) (s_env S) ->
  proceeds (decls e ++ G) S m f -> good F m (declaration lit I S k e m f).
Proof.
  intros NI V E HS HA HF H.
  assert (D : declares e = false -> good F m (vbind (i_eval I S k e m) (fun v m1 => f S v m1))).
  { intros HD. rewrite (plain_undeclared P e HS HD) in H. vb v m1 A1 V1; [eapply (k_eval _ _ K); eassumption|]. apply H; try assumption; [env|apply grows_refl]. }
  destruct e; try (now apply D); try (destruct NI); clear D; cbn [declaration].
  - (* let *) cbn [supported assigns_ok] in HS, HA. split_and.
    assert (De : decls e = []) by (apply (undeclared (first_of P)); [assumption|reflexivity]).
    destruct kind as [x|xs]; cbn [decls] in H; rewrite De, ?app_nil_r in H.
    + vb v m1 A1 V1; [ev (first_of P)|]. pose proof (alloc_ok (Some v) m1 V1) as [A2 V2]. pose proof (env_after G _ _ _ A1 E) as E1.
      pose proof (declare_ok x is_mutable G (s_env S) m1 (Some v) V1 E1) as E2. pose proof (declare_grows x (s_env S) m1 (Some v) V1) as G2.
      destruct (alloc (Some v) m1) as [l m2]. cbn [fst snd] in *. eapply good_after; [exact A2|].
      apply g_check; [exact V2|]. intros m3 A3 V3. apply H; [eapply after_trans; [exact A1|]; eapply after_trans; eassumption|exact V3|cbn [s_env declare]; env|exact G2].
    + vb v m1 A1 V1; [ev (first_of P)|]. eapply k_destructure; [assumption|env|]. intros S1 m2 A2 V2 E2 G2.
      apply H; [eapply after_trans; eassumption|assumption|apply env_constant; [apply constant_immutable|assumption]|assumption].
  - (* fn *) cbn [supported assigns_ok hoisted_name decls app] in *. split_and.
    vb v m1 A1 V1; [eapply k_make_fn; [assumption|eassumption|]; eapply function_source; eassumption|].
    vb u m2 A2 V2; [apply g_store; [assumption|]; intros l Hl; apply (HF name l); [now left|exact Hl]|].
    apply H; [eapply after_trans; eassumption|assumption|env|apply grows_refl].
  - (* operator *) cbn [supported assigns_ok hoisted_name decls app] in *. split_and.
    vb v m1 A1 V1; [eapply k_make_fn; [assumption|eassumption|]; eapply function_source; eassumption|].
    destruct (assoc_get _ (vm_globals (m_vm m1))) eqn:Eg; [split; [apply after_refl|assumption]|].
    assert (A2 : after F m1 (set_vm (set_globals (assoc_set (operator_name (overloaded op)) v (vm_globals (m_vm m1))) (m_vm m1)) m1))
      by (apply set_vm_after, vs_one; constructor; exact Eg).
    eapply good_after; [exact A2|]. apply H; [eapply after_trans; eassumption|now apply set_vm_inv|env|apply grows_refl].
Qed.
Lemma k_item P G S k e m f : inv F m -> env_ok F G (s_env S) m -> supported P e = true -> assigns_ok G e = true -> free F (hoisted_name e) (s_env S) ->
  proceeds (decls e ++ G) S m f -> good F m (item lit I S k e m f).
Proof.
  intros V E HS HA HF H.
  assert (D : match e with EImportDecl _ _ _ | EExportDecl _ => False | _ => True end -> good F m (declaration lit I S k e m f)).
  { intros NI. eapply k_declaration; eassumption. }
  destruct e; try (now apply D); clear D; cbn [item].
  - (* import *) vb v m1 A1 V1; [now apply (k_import _ _ K)|]. eapply k_destructure; [assumption|env|]. intros S1 m2 A2 V2 E2 G2. cbn [decls] in H.
    assert (C : constant (match module_import with Some x => [(x, false)] | None => [] end ++ immutable item_imports)).
    { apply Forall_app. split; [destruct module_import; repeat constructor|apply constant_immutable]. }
    destruct module_import as [y|].
    + pose proof (alloc_ok (Some v) m2 V2) as [A3 V3]. pose proof (fresh_ok y G (s_env S1) m2 (Some v) V2 E2) as E3.
      pose proof (declare_grows y (s_env S1) m2 (Some v) V2) as G3. destruct (alloc (Some v) m2) as [l m3]. cbn [fst snd] in *.
      eapply good_after; [exact A3|].
      apply H; [eapply after_trans; [eassumption|]; eapply after_trans; eassumption|exact V3|now apply env_constant|eapply grows_trans; eassumption].
    + apply H; [eapply after_trans; eassumption|exact V2|now apply env_constant|assumption].
  - (* export *) cbn [supported assigns_ok hoisted_name decls] in *. split_and. destruct (exported e) as [name|] eqn:Ex; [|exact Logic.I].
    destruct (_ <? _); [exact Logic.I|]. vb exports m1 A1 V1; [now apply g_load|].
    eapply (k_declaration (export_of P) G); [destruct e; try exact Logic.I; discriminate Ex|assumption|cbn [s_env deep]; env|assumption|assumption|exact HF|].
    intros S1 y m2 A2 V2 E2 G2. wv u m3 A3 V3. apply H; [eapply after_trans; [eassumption|]; eapply after_trans; eassumption|assumption|cbn [s_env]; env|exact G2].
Qed.
Lemma k_items P t es : forall G S k m, inv F m -> env_ok F G (s_env S) m -> (forall x, In x (statements es t) -> supported P x = true) ->
  statements_ok assigns_ok t G es = true -> free F (flat_map hoisted_name (statements es t)) (s_env S) -> good F m (items lit I S k es t m).
Proof.
  induction es as [|e es IH]; intros G S k m V E HS HA HF; cbn [items].
  - destruct t as [e|]; [|now apply good_here]. cbn [statements_ok] in HA. cbn in HS, HF. rewrite app_nil_r in HF.
    apply (k_item P G); [assumption|assumption|apply HS; now left|assumption|assumption|]. intros S1 v m1 A1 V1 _ _. now apply good_here.
  - cbn [statements_ok] in HA. apply andb_true_iff in HA as [HA1 HA2]. unfold statements in *. cbn [app flat_map] in HS, HF.
    eapply (k_item P G); [assumption|assumption|apply HS; now left|exact HA1|intros x l Hx; apply HF; apply in_or_app; now left|].
    intros S1 v m1 A1 V1 E1 G1. apply (IH (decls e ++ G)); [exact V1|exact E1|intros; apply HS; now right|exact HA2|].
    eapply free_grows; [exact G1|]. intros x l Hx. apply HF. apply in_or_app. now right.
Qed.
Lemma k_hoist names : forall G S m, inv F m -> env_ok F G (s_env S) m ->
  forall S1 m1, hoist names S m = (S1, m1) -> after F m m1 /\ inv F m1 /\ env_ok F G (s_env S1) m1 /\ grows F (s_env S) (s_env S1) /\ free F names (s_env S1).
Proof.
  induction names as [|x names IH]; intros G S m V E S1 m1 H; cbn [hoist] in H.
  - injection H as <- <-. split; [apply after_refl|]. split; [exact V|]. split; [exact E|]. split; [apply grows_refl|intros y l []].
  - pose proof (alloc_ok None m V) as [A2 V2]. pose proof (fresh_ok x G (s_env S) m None V E) as E2. pose proof (declare_grows x (s_env S) m None V) as G2.
    assert (N2 : ~ F (fst (alloc None m))) by (intros HF; apply (in_frozen _ _ V) in HF; cbn in HF; lia).
    destruct (alloc None m) as [l m2]. cbn [fst snd] in *. destruct (IH G (declare x l S) m2 V2 E2 _ _ H) as (A3 & V3 & E3 & G3 & F3).
    split; [eapply after_trans; eassumption|]. split; [exact V3|]. split; [exact E3|]. split; [eapply grows_trans; eassumption|].
    intros y c [<-|Hy] Hc HF; [|exact (F3 y c Hy Hc HF)]. specialize (G3 x c Hc HF). cbn [declare s_env assoc_get] in G3. rewrite String.eqb_refl in G3.
    injection G3 as <-. exact (N2 HF).
Qed.
Lemma k_block P G S k es t m : inv F m -> env_ok F G (s_env S) m -> (forall x, In x (statements es t) -> supported P x = true) ->
  block_ok assigns_ok G es t = true -> good F m (block lit I S k es t m).
Proof.
  intros V E HS HA. unfold block. destruct (hoist (hoisted es t) S m) as [S1 m1] eqn:EH.
  destruct (k_hoist _ G _ _ V E _ _ EH) as (A1 & V1 & E1 & G1 & F1). eapply good_after; [exact A1|].
  eapply k_items; [exact V1| |exact HS|exact HA|exact F1]. apply env_constant; [apply constant_immutable|exact E1].
Qed.
Definition body_in (body : expr) : Prop :=
  exists P, match body with EBlock es t => forallb (supported P) es && opt_all (supported P) t | _ => supported P body end = true.
Lemma k_members G E c es : forall k m, inv F m -> env_ok F G E m ->
  (forall x, In x es -> class_item_ok assigns_ok G x = true) ->
  (forall x, In x es -> match x with EFnDecl _ _ _ body | EOpDecl _ _ _ body => body_in body | _ => False end) ->
  good F m (members lit E k c es m).
Proof.
  induction es as [|e es IH]; intros k m V HE HA HB; cbn [members]; [now apply good_here|].
  destruct (member k e) as [[[key is_method] src]|] eqn:EM; [|exact Logic.I].
  assert (HS : source_ok G src).
  { specialize (HA e (or_introl eq_refl)). specialize (HB e (or_introl eq_refl)). destruct e; try destruct HB; cbn [member class_item_ok] in EM, HA; unfold has_self, receiver in *.
    - destruct args as [|a rest]; [injection EM as _ _ <-; eapply function_source; eassumption|].
      destruct (String.eqb (fa_name a) "self"); injection EM as _ _ <-; [|eapply function_source; eassumption].
      eapply source_fn; [eassumption|apply (constant_params (a :: rest))|exact HA].
    - destruct args as [|a rest]; [discriminate|]. destruct (String.eqb (fa_name a) "self"); [|discriminate]. injection EM as _ _ <-.
      eapply source_fn; [eassumption|apply (constant_params (a :: rest))|exact HA]. }
  vb f m1 A1 V1; [eapply k_make_fn; eassumption|]. destruct is_method; wv u m2 A2 V2; (apply IH; [assumption|env|intros; apply HA; now right|intros; apply HB; now right]).
Qed.
Lemma k_class P G S k name es base m : inv F m -> env_ok F G (s_env S) m -> supported P (EClassDecl name es base) = true ->
  assigns_ok G (EClassDecl name es base) = true -> free F [name] (s_env S) -> good F m (class_decl lit I S k name es base m).
Proof.
  intros V E HS HA HF. unfold class_decl. cbn [supported assigns_ok] in HS, HA. split_and.
  assert (HM : forall x, In x es -> class_item_ok assigns_ok (("super", true) :: G) x = true).
  { destruct base as [b|]; [|assumption]. assert (D : decls b = []) by (apply (undeclared (first_of P)); [assumption|reflexivity]). rewrite D in *. assumption. }
  vb bv m1 A1 V1; [destruct base; [ev (first_of P)|now apply g_load]|].
  pose proof (alloc_ok (Some bv) m1 V1) as [A2 V2]. pose proof (env_after G _ _ _ A1 E) as E1.
  pose proof (declare_ok "super" true G (s_env S) m1 (Some bv) V1 E1) as E2. pose proof (declare_grows "super" (s_env S) m1 (Some bv) V1) as G2.
  destruct (alloc (Some bv) m1) as [l m2]. cbn [fst snd] in *. eapply good_after; [exact A2|]. cbn [s_env declare].
  wv c m3 A3 V3. vb u m4 A4 V4.
  - apply g_store; [assumption|]. intros a Ha HFa. specialize (G2 name a Ha HFa). exact (HF name a (or_introl eq_refl) G2 HFa).
  - eapply k_members; [assumption|env|exact HM|]. intros x Hx. match goal with H : forall x, In x es -> match x with _ => _ end = true |- _ => specialize (H x Hx) end.
    destruct x; try discriminate; split_and; eexists; eassumption.
Qed.
Lemma k_initialize room c self args m : inv F m -> good F m (initialize I room c self args m).
Proof.
  intros V. unfold initialize. wv n m1 A1 V1. destruct n; [now apply (k_call _ _ K)|]. destruct (_ <? _); [now apply good_here|].
  wv cl m2 A2 V2. destruct (cl_base cl); [|now apply good_here]. wv bn m3 A3 V3. destruct bn; [split; [apply after_refl|assumption]|now apply good_here].
Qed.
Local Ltac val := now apply good_here.
Lemma k_assign P G S k op l r m : inv F m -> env_ok F G (s_env S) m -> supported P (EAssignment op l r) = true ->
  assigns_ok G (EAssignment op l r) = true -> good F m (assign w I S k op l r m).
Proof.
  intros V E HS HA. unfold assign. cbn [supported assigns_ok] in HS, HA. destruct l; try discriminate; split_and.
  - destruct (mutability name G) as [[|]|] eqn:M; try discriminate.
    assert (HF : forall l, assoc_get name (s_env S) = Some l -> ~ F l) by (intros l Hl HF; exact (eo_shields _ _ _ _ E name l Hl HF M)).
    destruct op; cbn [compound]; [vb v m1 A1 V1; [ev (first_of P)|]; now apply g_store| | | |];
      (vb old m1 A1 V1; [now apply g_load|]; vb v m2 A2 V2; [ev (later_of P)|]; vb y m3 A3 V3; [now apply k_operate|]; now apply g_store).
  - assert (D : decls l = []) by (apply (undeclared (first_of P)); [assumption|reflexivity]). rewrite D in *. cbn [app] in *.
    vb t m1 A1 V1; [ev (first_of P)|].
    destruct (compound op); [wv old m2 A2 V2; vb v m3 A3 V3; [ev (later_of P)|]; vb y m4 A4 V4; [now apply k_operate|]; wv u m5 A5 V5; val|].
    vb v m3 A3 V3; [ev (later_of P)|]. wv u m5 A5 V5. val.
  - assert (D : decls l1 = []) by (apply (undeclared (first_of P)); [assumption|reflexivity]).
    assert (D2 : decls l2 = []) by (apply (undeclared (later_of P)); [assumption|reflexivity]). rewrite D, D2 in *. cbn [app] in *.
    vb t m1 A1 V1; [ev (first_of P)|]. vb i m2 A2 V2; [ev (later_of P)|].
    destruct (compound op); [wv old m3 A3 V3; vb v m4 A4 V4; [ev (later_of P)|]; vb y m5 A5 V5; [now apply k_operate|]; wv u m6 A6 V6; val|].
    vb v m3 A3 V3; [ev (later_of P)|]. wv u m5 A5 V5. val.
Qed.
Lemma k_binary P G S k op l r m : inv F m -> env_ok F G (s_env S) m -> supported P (EBinary op l r) = true ->
  assigns_ok G (EBinary op l r) = true -> good F m (binary_op w I S k op l r m).
Proof.
  intros V E HS HA. unfold binary_op. cbn [supported assigns_ok] in HS, HA.
  assert (D : decls l = [] /\ decls r = []).
  { destruct op; split_and; split; first [apply (undeclared (first_of P)); [assumption|reflexivity]|apply (undeclared (later_of P)); [assumption|reflexivity]]. }
  destruct D as [D1 D2]. rewrite D1, D2 in *. cbn [app] in *.
  destruct op; split_and;
    try (vb a m1 A1 V1; [ev (first_of P)|]; vb b m2 A2 V2; [ev (later_of P)|]; cbn [operation]; first [now apply k_operate|now apply (k_call _ _ K)]).
  - vb a m1 A1 V1; [ev (first_of P)|]. apply g_logical; [assumption|]. intros b. destruct b; [|val].
    vb c m2 A2 V2; [ev (first_of P)|]. apply g_logical; [assumption|]. intros _. val.
  - vb a m1 A1 V1; [ev (first_of P)|]. apply g_logical; [assumption|]. intros b. destruct b; [val|].
    vb c m2 A2 V2; [ev (first_of P)|]. apply g_logical; [assumption|]. intros _. val.
  - vb a m1 A1 V1; [ev (first_of P)|]. destruct a; try val. ev (first_of P).
Qed.
Lemma k_prefix op v m : inv F m -> good F m (prefix_op w op v m).
Proof. intros V. destruct op, v; cbn [prefix_op]; first [now apply g_outcome|val|split; [apply after_refl|assumption]]. Qed.
Local Ltac und x Q := assert (decls x = []) as -> by (apply (undeclared Q); [assumption|reflexivity]).
Local Ltac undin x Q := let D := fresh "D" in assert (D : decls x = []) by (apply (undeclared Q); [assumption|reflexivity]); rewrite D in *; cbn [app] in *.

Lemma block_statements P es t : (forall x, In x es -> supported P x = true) -> opt_all (supported P) t = true -> forall x, In x (statements es t) -> supported P x = true.
Proof.
  intros A B x Hx. apply in_app_or in Hx as [Hx|Hx]; [auto|]. destruct t as [y|]; [|destruct Hx]. destruct Hx as [<-|[]]. exact B.
Qed.

Lemma k_range_loop P G S k op x first last body m : (op = BRangeInclusive \/ op = BRangeExclusive) ->
  inv F m -> env_ok F G (s_env S) m -> supported P (EFor x (EBinary op first last) body) = true ->
  assigns_ok G (EFor x (EBinary op first last) body) = true ->
  good F m (vbind (i_eval I (inner S) k last m) (fun limit m1 =>
      vbind (i_eval I (deep 1 S) (k + fns last) first m1) (fun v m2 =>
      i_range I (inner S) (k + fns last + fns first) (match op with BRangeInclusive => true | _ => false end) x body v limit m2))).
Proof.
  intros HO V E HS HA. destruct HO as [-> | ->]; cbn [supported assigns_ok] in HS, HA; split_and; undin last (first_of P); undin first (later_of P);
    (vb b m1 A1 V1; [ev (first_of P)|]; vb a m2 A2 V2; [ev (later_of P)|]; eapply (k_range _ _ K); [assumption|cbn [s_env inner]; env|eassumption|reflexivity|assumption]).
Qed.
Lemma k_iter_loop P G S k x e1 body m : (match e1 with EBinary (BRangeInclusive | BRangeExclusive) _ _ => False | _ => True end) ->
  inv F m -> env_ok F G (s_env S) m -> supported P (EFor x e1 body) = true -> assigns_ok G (EFor x e1 body) = true ->
  good F m (vbind (i_eval I (inner S) k e1 m) (fun v m1 =>
      with_vm (get_field "iter" v) m1 (fun f m2 =>
      vbind (i_call I (s_room S) f [] m2) (fun it m3 =>
      with_vm (get_field "next" it) m3 (fun next m4 => i_iter I (inner S) (k + fns e1) x body next m4))))).
Proof.
  intros HN V E HS HA.
  assert (H : supported (first_of P) e1 = true /\ supported (iter_of P) body = true /\ assigns_ok G e1 = true /\ assigns_ok ((x, false) :: decls e1 ++ G) body = true).
  { cbn [supported assigns_ok] in HS, HA. destruct e1; try (split_and; auto; fail). destruct op; try (destruct HN); split_and; auto. }
  destruct H as (S1 & S2 & A1 & A2). undin e1 (first_of P).
  vb v m1 B1 V1; [ev (first_of P)|]. wv f m2 B2 V2. vb it m3 B3 V3; [now apply (k_call _ _ K)|]. wv next m4 B4 V4.
  eapply (k_iter _ _ K); [assumption|cbn [s_env inner]; env|eassumption|reflexivity|assumption].
Qed.

Lemma k_evals P G S k e m : inv F m -> env_ok F G (s_env S) m -> supported P e = true -> assigns_ok G e = true ->
    free F (hoisted_name e) (s_env S) -> good F m (eval w lit I S k e m).
Proof.
  intros V E HS HA HF. unfold eval. destruct (_ <? _); [exact Logic.I|].
  destruct e; try val; try exact Logic.I.
  - (* variable *) now apply g_load.
  - (* function *) cbn [supported assigns_ok] in HS, HA. split_and. eapply k_make_fn; [assumption|eassumption|]. eapply function_source; eassumption.
  - (* object *) cbn [supported assigns_ok] in HS, HA. rewrite forallb_forall in HS.
    assert (HS' : forall key x, In (key, x) items -> supported (later_of P) x = true) by (intros key x Hx; exact (HS _ Hx)).
    wv o m1 A1 V1. eapply (k_fields (later_of P) G); [reflexivity|exact HS'| |assumption|cbn [s_env deep]; env].
    apply fields_ok_none; [|exact HA]. intros key x Hx. apply (undeclared (later_of P)); [eapply HS'; exact Hx|reflexivity].
  - (* list *) cbn [supported assigns_ok] in HS, HA. split_and. eapply (k_list (later_of P) G); [reflexivity|assumption| |assumption|exact E|].
    + apply seq_ok_none; [|exact HA]. intros x Hx. apply (undeclared (later_of P)); [auto|reflexivity].
    + intros vs m1 A1 V1. wv a m2 A2 V2. val.
  - (* ? *) cbn [supported assigns_ok] in HS, HA. apply g_chained. vb v m1 A1 V1; [destruct (pl_chain P); try discriminate; ev (target_of P)|].
    destruct v; try val. split; [apply after_refl|assumption].
  - (* !! *) cbn [supported assigns_ok] in HS, HA. split_and. apply g_chained. vb v m1 A1 V1; [ev (target_of P)|]. wv ok m2 A2 V2.
    apply g_cond; [assumption|]. intros b. destruct b; [wv r m3 A3 V3; val|]. destruct (s_fn S) as [[rt|]|]; try exact Logic.I.
    apply g_check; [assumption|]. intros m3 A3 V3. split; [apply after_refl|assumption].
  - (* field *) cbn [supported assigns_ok] in HS, HA. apply g_chained. vb v m1 A1 V1; [ev (target_of P)|]. wv x m2 A2 V2. val.
  - (* super access *) vb c m1 A1 V1; [now apply g_load|]. vb self m2 A2 V2; [now apply g_load|]. wv x m3 A3 V3. val.
  - (* call *) cbn [supported assigns_ok] in HS, HA. split_and. undin e (target_of P). apply g_chained. vb f m1 A1 V1; [ev (target_of P)|].
    eapply (k_list (arg_of P) G); [reflexivity|assumption| |assumption|cbn [s_env deep]; env|].
    + apply seq_ok_none; [|assumption]. intros x Hx. apply (undeclared (arg_of P)); [auto|reflexivity].
    + intros vs m2 A2 V2. now apply (k_call _ _ K).
  - (* super call *) cbn [supported assigns_ok] in HS, HA. split_and. vb self m1 A1 V1; [now apply g_load|].
    eapply (k_list (arg_of P) G); [reflexivity|assumption| |assumption|cbn [s_env deep]; env|].
    + apply seq_ok_none; [|assumption]. intros x Hx. apply (undeclared (arg_of P)); [auto|reflexivity].
    + intros vs m2 A2 V2. vb c m3 A3 V3; [now apply g_load|]. wv cl m4 A4 V4. now apply k_initialize.
  - (* index *) cbn [supported assigns_ok] in HS, HA. split_and. undin e1 (target_of P). apply g_chained. vb v m1 A1 V1; [ev (target_of P)|].
    vb i m2 A2 V2; [ev (arg_of P)|]. wv x m3 A3 V3. val.
  - (* is *) cbn [supported assigns_ok] in HS, HA. assert (D : decls e = []) by (apply (undeclared (first_of P)); [assumption|reflexivity]).
    assert (HA' : assigns_ok G e = true) by (destruct (ta_nullable type_); split_and; assumption).
    vb v m1 A1 V1; [ev (first_of P)|]. destruct (ta_nullable type_).
    + destruct v; try val; (vb again m2 A2 V2; [ev (first_of P)|]; vb c m3 A3 V3; [now apply g_load|]; wv x m4 A4 V4; val).
    + vb c m3 A3 V3; [now apply g_load|]. wv x m4 A4 V4. val.
  - (* prefix *) cbn [supported assigns_ok] in HS, HA. vb v m1 A1 V1; [ev (first_of P)|]. now apply k_prefix.
  - (* binary *) eapply k_binary; eassumption.
  - (* assignment *) eapply k_assign; eassumption.
  - (* class *) eapply k_class; [assumption|exact E|exact HS|exact HA|exact HF].
  - (* if *) cbn [supported assigns_ok] in HS, HA. split_and. undin e1 (first_of P). undin e2 (first_of P).
    vb v m1 A1 V1; [ev (first_of P)|]. apply g_cond; [assumption|]. intros b. destruct b; [ev (first_of P)|].
    destruct secondary as [x|]; [|val]. cbn [opt_all] in *. ev (first_of P).
  - (* while *) destruct e2; try exact Logic.I. pose proof HS as HS0. pose proof HA as HA0. cbn [supported assigns_ok] in HS, HA. split_and.
    set (Q := loop_of true (loop_kept [e1; EBlock expressions trailing]) P) in *. undin e1 Q.
    assert (R : forall m1, after F m m1 -> inv F m1 -> good F m1 (i_eval I S k (EWhile e1 (EBlock expressions trailing)) m1)).
    { intros m1 A1 V1. eapply (k_eval _ _ K); [assumption|env|exact HS0|exact HA0|exact HF]. }
    assert (C : good F m (i_eval I (inner S) k e1 m)) by (ev Q).
    destruct (i_eval I (inner S) k e1 m) as [v m1|m1|m1|v m1|m1|er m1| |] eqn:EC; try (apply (g_again m _ _ C R)).
    destruct C as [A1 V1]. eapply good_after; [exact A1|]. apply g_cond; [assumption|]. intros b. destruct b; [|val].
    apply g_again; [|intros m2 A2 V2; apply R; [eapply after_trans; eassumption|assumption]].
    eapply (k_block (stmt_of Q)); [assumption|cbn [s_env inner]; env|apply block_statements; assumption|assumption].
  - (* for *) destruct e1; try (eapply k_iter_loop; [exact Logic.I|eassumption|eassumption|exact HS|exact HA]).
    destruct op; try (eapply k_iter_loop; [exact Logic.I|eassumption|eassumption|exact HS|exact HA]).
    + apply (k_range_loop P G S k BRangeInclusive); auto.
    + apply (k_range_loop P G S k BRangeExclusive); auto.
  - (* loop *) destruct e; try exact Logic.I. pose proof HS as HS0. pose proof HA as HA0. cbn [supported assigns_ok] in HS, HA. split_and.
    apply g_again; [|intros m2 A2 V2; eapply (k_eval _ _ K); [assumption|env|exact HS0|exact HA0|exact HF]].
    eapply k_block; [assumption|exact E|apply block_statements; eassumption|assumption].
  - (* block *) cbn [supported assigns_ok] in HS, HA. split_and. eapply k_block; [assumption|exact E|apply block_statements; eassumption|assumption].
  - split; [apply after_refl|assumption].
  - split; [apply after_refl|assumption].
  - (* return *) cbn [supported assigns_ok] in HS, HA. split_and. destruct (s_fn S) as [[rt|]|]; try exact Logic.I.
    + vb v m1 A1 V1; [destruct result as [x|]; [cbn [opt_all] in *; ev (first_of P)|val]|].
      apply g_check; [assumption|]. intros m3 A3 V3. split; [apply after_refl|assumption].
    + destruct result; [exact Logic.I|]. vb v m1 A1 V1; [now apply g_load|]. split; [apply after_refl|assumption].
Qed.
Lemma good_as m m1 a a1 : memory_of a = Some m1 -> memory_of a1 = Some m1 -> good F m a -> good F m a1.
Proof. unfold good. intros -> ->. auto. Qed.
Lemma k_ranges P G S k c x body v limit m : inv F m -> env_ok F G (s_env S) m -> supported P body = true -> pl_stmt P = false ->
    assigns_ok ((x, false) :: G) body = true -> good F m (EvalSpec.range w I S k c x body v limit m).
Proof.
  intros V E HS HP HA. unfold EvalSpec.range. destruct (_ <? _); [exact Logic.I|]. vb b m1 A1 V1; [now apply k_operate|].
  apply g_cond; [assumption|]. intros cnd. destruct cnd; [|val].
  pose proof (alloc_ok (Some v) m1 V1) as [A2 V2]. pose proof (declare_ok x false G (s_env S) m1 (Some v) V1 (env_after _ _ _ _ A1 E)) as E2.
  destruct (alloc (Some v) m1) as [l m2]. cbn [fst snd] in *. eapply good_after; [exact A2|].
  pose proof (sub P _ (declare x l (deep 1 S)) k body m2 V2 E2 HS HP HA) as B.
  destruct (i_eval I _ k body m2) as [r m3|m3|m3|r m3|m3|er m3| |]; try exact B; try exact Logic.I. destruct B as [A3 V3]. eapply good_after; [exact A3|].
  destruct (nth_error (m_cells m3) l) as [[y|]|]; try exact Logic.I. vb nx m4 A4 V4; [now apply k_operate|].
  eapply (k_range _ _ K); [assumption|env|eassumption|assumption|assumption].
Qed.
Lemma k_iters P G S k x body next m : inv F m -> env_ok F G (s_env S) m -> supported P body = true -> pl_stmt P = false ->
    assigns_ok ((x, false) :: G) body = true -> good F m (EvalSpec.iter I S k x body next m).
Proof.
  intros V E HS HP HA. unfold EvalSpec.iter. destruct (_ <? _); [exact Logic.I|]. vb r m1 A1 V1; [now apply (k_call _ _ K)|].
  wv d m2 A2 V2. apply g_cond; [assumption|]. intros b. destruct b; [val|]. wv v m3 A3 V3.
  assert (E0 : env_ok F G (s_env S) m3) by env.
  pose proof (alloc_ok (Some v) m3 V3) as [A4 V4]. pose proof (declare_ok x false G (s_env S) m3 (Some v) V3 E0) as E4.
  destruct (alloc (Some v) m3) as [l m4]. cbn [fst snd] in *. eapply good_after; [exact A4|].
  pose proof (sub P _ (declare x l (deep 1 S)) k body m4 V4 E4 HS HP HA) as B.
  destruct (i_eval I _ k body m4) as [y m5|m5|m5|y m5|m5|er m5| |]; try exact B; try exact Logic.I. destruct B as [A5 V5]. eapply good_after; [exact A5|].
  eapply (k_iter _ _ K); [assumption|env|eassumption|assumption|assumption].
Qed.

Lemma k_bind_args ps : forall G args S m f, inv F m -> env_ok F G (s_env S) m -> goes G S m f -> good F m (bind_args ps args S m f).
Proof.
  induction ps as [|p ps IH]; intros G args S m f V E H; cbn [bind_args]; [apply H; [apply after_refl|exact V|exact E|apply grows_refl]|].
  set (v := hd VNull args). pose proof (alloc_ok (Some v) m V) as [A2 V2].
  pose proof (fresh_ok (fa_name p) G (s_env S) m (Some v) V E) as E2. pose proof (declare_grows (fa_name p) (s_env S) m (Some v) V) as G2.
  destruct (alloc (Some v) m) as [l m2]. cbn [fst snd] in *. eapply good_after; [exact A2|].
  apply g_check; [exact V2|]. intros m3 A3 V3. apply (IH G); [exact V3|cbn [s_env declare]; env|].
  intros S4 m4 A4 V4 E4 G4. apply H; [eapply after_trans; [exact A2|]; eapply after_trans; eassumption|exact V4|exact E4|].
  eapply grows_trans; [|exact G4]. exact G2.
Qed.
Lemma k_run_fn room n src E G slot0 args m : inv F m -> env_ok F G E m -> source_ok G src -> good F m (run_fn lit I room n src E slot0 args m).
Proof.
  intros V HE (H & P & C & HA & HS). unfold run_fn. destruct (_ <? _); [exact Logic.I|].
  pose proof (alloc_ok (Some slot0) m V) as [A2 V2]. pose proof (fresh_ok (src_self src) G E m (Some slot0) V HE) as E2.
  destruct (alloc (Some slot0) m) as [l m2]. cbn [fst snd] in *. eapply good_after; [exact A2|].
  destruct (body_parts (src_body src)) as [es t]. cbn [fst snd] in *.
  eapply k_bind_args; [exact V2|exact E2|]. intros S3 m3 A3 V3 E3 _.
  pose proof (k_block P (H ++ G) S3 (src_first src) es t m3 V3 (env_constant _ _ _ _ C E3) HS HA) as B.
  destruct (block lit I S3 (src_first src) es t m3) as [v m4|m4|m4|v m4|m4|er m4| |]; try exact B; try exact Logic.I. destruct B as [A4 V4]. eapply good_after; [exact A4|].
  destruct (src_role src); [apply g_check; [assumption|]; intros m5 A5 V5; val|]. destruct (nth_error (m_cells m4) l) as [[y|]|]; try exact Logic.I. val.
Qed.
Lemma k_construct room c args m : inv F m -> good F m (construct I room c args m).
Proof. intros V. unfold construct. wv o m1 A1 V1. now apply k_initialize. Qed.
Definition serves {A} (m : memory) (f : A -> memory -> answer) : Prop := forall a m1, after F m m1 -> inv F m1 -> good F m1 (f a m1).
Lemma k_each room f vs : forall m x, inv F m -> serves m x -> good F m (call_each I room f vs m x).
Proof.
  induction vs as [|v vs IH]; intros m x V H; cbn [call_each]; [apply H; [apply after_refl|exact V]|].
  apply g_called; [now apply (k_call _ _ K)|]. intros y m1 A1 V1. apply IH; [exact V1|]. intros ys m2 A2 V2. apply H; [eapply after_trans; eassumption|exact V2].
Qed.
Lemma k_until room f vs : forall m x, inv F m -> serves m x -> good F m (call_until I room f vs m x).
Proof.
  induction vs as [|v vs IH]; intros m x V H; cbn [call_until]; [apply H; [apply after_refl|exact V]|].
  apply g_called; [now apply (k_call _ _ K)|]. intros y m1 A1 V1.
  assert (H1 : serves m1 x) by (intros a m2 A2 V2; apply H; [eapply after_trans; eassumption|exact V2]).
  destruct y; try (apply IH; assumption). destruct b; [|apply IH; assumption]. apply H1; [apply after_refl|exact V1].
Qed.
Lemma k_reading {A} a (go : list value -> memory -> (A -> memory -> answer) -> answer) m x : inv F m -> serves m x ->
  (forall vs m1 f, inv F m1 -> serves m1 f -> good F m1 (go vs m1 f)) -> good F m (reading a go m x).
Proof.
  intros V H G. unfold reading. wv u m1 A1 V1. wv vs m2 A2 V2. apply G; [exact V2|]. intros y m3 A3 V3. wv z m4 A4 V4. apply H; [|exact V4].
  eapply after_trans; [exact A1|]. eapply after_trans; [exact A2|]. eapply after_trans; eassumption.
Qed.
Lemma k_host room n args m : inv F m -> good F m (host_fn w lit I room n args m).
Proof.
  intros V.
  assert (D : good F m match shown n args with
      | Some v => of_outcome (omap VString (value_text (closure_named lit m) (float_text w) (vm_heap (m_vm m)) v)) m
      | None => with_vm (call_native w no_calls n args) m AVal
      end) by (destruct (shown n args); [now apply g_outcome|wv x m1 A1 V1; val]).
  destruct n; try exact D; destruct args as [|v [|f args]]; try exact D; destruct v; try exact D; clear D; cbn [host_fn]; apply k_reading; try assumption.
  all: try (intros y m1 A1 V1; first [val|wv arr m2 A2 V2; val]).
  all: intros vs m1 g V1 Hg; first [apply k_until; assumption|apply k_each; [assumption|]; first [exact Hg|intros ys m2 A2 V2; now apply Hg]].
Qed.
Lemma empty_env G m : env_ok F G [] m. Proof. split; intros x l H; discriminate H. Qed.
Lemma k_calls room f args m : inv F m -> good F m (call w lit fn_eqb I room f args m).
Proof.
  intros V. unfold call. destruct (_ <? _); [exact Logic.I|]. destruct (match f with VFnBound _ _ => _ | _ => _ end) as [g s0].
  destruct g; try (split; [apply after_refl|assumption]).
  all: try (now apply k_construct). all: try (now apply k_host).
  - destruct (find _ (m_fns m)) as [[n src]|] eqn:Ef; [|exact Logic.I]. destruct (fn_eqb _ _); [|exact Logic.I].
    apply find_some in Ef as [Ef _]. destruct (in_fns _ _ V _ _ Ef) as (G & Z). eapply k_run_fn; [exact V|apply empty_env|exact Z].
  - destruct (nth_error (m_closures m) _) as [[c|]|] eqn:Ec; try exact Logic.I. destruct (in_closures _ _ V _ _ Ec) as (G & X & Y & Z).
    eapply k_run_fn; [exact V|split; eassumption|exact Z].
Qed.
Variable library : list string -> string -> outcome module.
Hypothesis L : forall seen name md, library seen name = Ok md -> supported script_place (md_tree md) = true /\ assigns_ok [("#export", false)] (md_tree md) = true.
Lemma k_imports room name m : inv F m -> good F m (import library I room name m).
Proof.
  intros V. unfold import. destruct (assoc_get name (vm_modules (m_vm m))) as [v|] eqn:En; [val|].
  unfold with_vm. destruct (begin_import name (m_vm m)) as [o s|er s| |] eqn:EB; try exact Logic.I.
  - assert (A1 : after F m (set_vm s m)) by (apply set_vm_after; eapply begin_import_steps; eassumption).
    assert (V1 : inv F (set_vm s m)) by now apply set_vm_inv.
    eapply good_after; [exact A1|]. destruct (library (vm_loads (m_vm m)) name) as [md|er| |] eqn:EL; try exact Logic.I; [|split; [apply after_refl|exact V1]].
    destruct (_ <? _); [exact Logic.I|]. destruct (L _ _ _ EL) as [HS HA].
    pose proof (alloc_ok (Some (VObject o)) _ V1) as [A2 V2].
    pose proof (declare_ok "#export" false [] [] _ (Some (VObject o)) V1 (empty_env _ _)) as E2.
    destruct (alloc (Some (VObject o)) (set_vm s m)) as [l m2]. cbn [fst snd] in *. eapply good_after; [exact A2|].
    pose proof (sub script_place _ (Scene [("#export", l)] None (room - md_slots md) false) (md_first md) _ m2 V2 E2 HS eq_refl HA) as B.
    destruct (i_eval I _ (md_first md) (md_tree md) m2) as [v m3|m3|m3|v m3|m3|er m3| |]; try exact B; try exact Logic.I.
    destruct B as [A3 V3]. eapply good_after; [exact A3|]. destruct (nth_error (m_cells m3) l) as [[y|]|]; try exact Logic.I. val.
  - exfalso. revert EB. unfold begin_import, rbind, heap_alloc. destruct (object_new _ _). discriminate.
Qed.
End Keeps.

Definition tidy (pg : program) : Prop :=
  forall seen name md, pg_library pg seen name = Ok md -> supported script_place (md_tree md) = true /\ assigns_ok [("#export", false)] (md_tree md) = true.
Theorem interpreter_keeps F w pg n : tidy pg -> keeps F (interpreter w pg n).
Proof.
  intros T. induction n as [|n IH]; [split; intros; exact Logic.I|].
  split; intros; cbn [interpreter i_eval i_call i_range i_iter i_import].
  - eapply k_evals; eassumption.
  - now apply k_calls.
  - eapply k_ranges; eassumption.
  - eapply k_iters; eassumption.
  - eapply k_imports; eassumption.
Qed.
