(** Consequences of ImmutableP.v: variables that are not [mut], range loops, the objects of modules. *)
From Coq Require Import Lia.
From Verif.Model Require Import Script.
From Verif.Spec Require Import StaticSpec StaticTop.
From Verif.Spec Require Import FlowSpec ConstantSpec.
From Verif.Proofs Require Import CodecP ScopeP CaptureP StaticP StaticVisitP WellFormedP StaticTopP GlobalsP MonoP CompileP FlowP ImmutableP.
#[local] Open Scope string_scope.
#[local] Open Scope list_scope.
#[local] Open Scope nat_scope.

(** * Linked programs are accepted by the static rules *)
Lemma compile_from_assigns first kind root b : compile_from first kind root = Ok b -> assigns_ok (initial_env kind) root = true.
Proof.
  unfold compile_from. destruct (compile_m kind root _) as [[x s']| | |] eqn:H; try discriminate. intros _. unfold compile_m in H.
  apply bind_ok in H as (u & s0 & E0 & H). apply bind_ok in H as (a & s1 & E1 & _).
  assert (V : view s0 = [(kind, [VS KBlock 0 (initial_env kind)])]) by (destruct kind; try (injection E0 as _ <-; reflexivity)).
  destruct (visit_sees root _ _ _ _ _ _ [] [] E1 V) as (_ & A & _). unfold rest in A. cbn [map flat_map concat] in A. now rewrite app_nil_r in A.
Qed.
Lemma linked_tidy w pg root bc : MeaningSpec.linked w pg root bc -> tidy pg.
Proof.
  intros L seen name md E. pose proof (lk_modules _ _ _ _ L seen name) as H. rewrite E in H. destruct H as (mb & _ & M).
  pose proof (ml_supported _ _ _ M) as S. apply andb_true_iff in S as [S _]. split; [exact S|]. exact (compile_from_assigns _ _ _ _ (ml_code _ _ _ M)).
Qed.

Definition none : nat -> Prop := fun _ => False.
Lemma start_inv s : inv none (MeaningSpec.start s).
Proof.
  split; [intros l []| |intros n src []]. intros a c H. cbn in H. rewrite nth_error_map in H. destruct (nth_error _ a); discriminate H.
Qed.
Lemma inv_less (F F' : nat -> Prop) m : (forall l, F' l -> F l) -> inv F m -> inv F' m.
Proof.
  intros H [A B C]. split; [intros l Hl; apply A; auto| |exact C]. intros a c Hc. destruct (B a c Hc) as (G & X & Y & Z). exists G. split; [|auto].
  intros x l Hx Hl. apply (X x l Hx). auto.
Qed.
(** A new variable is not yet known to any function. *)
Definition newest (m : memory) : nat -> Prop := fun l => l = List.length (m_cells m).
Lemma inv_new v m : inv none m -> inv (newest m) (set_cells (m_cells m ++ [v]) m).
Proof.
  intros [A B C]. split.
  - intros l ->. cbn. rewrite app_length. cbn. lia.
  - intros a c H. cbn in H. destruct (B a c H) as (G & X & Y & Z). exists G. split; [|split; [|exact Z]].
    + intros x l Hl ->. apply Y in Hl. lia.
    + intros x l Hl. apply Y in Hl. cbn. rewrite app_length. lia.
  - exact C.
Qed.
Lemma none_env G m : env_ok none G [] m. Proof. split; intros x l H; discriminate H. Qed.

Lemma evaluates_good F w pg P G S k e m a : tidy pg -> evaluates w pg S k e m a -> inv F m -> env_ok F G (s_env S) m -> supported P e = true ->
  pl_stmt P = false -> assigns_ok G e = true -> good F m a.
Proof.
  intros T (_ & fuel & <-) V E HS HP HA. eapply (sub F); try eassumption. now apply interpreter_keeps.
Qed.

(** * Range loops *)
Lemma pass_keeps w pg P G S k x body v m m' : tidy pg -> pass w pg S k x body v m m' -> inv none m -> env_ok none G (s_env S) m ->
  supported P body = true -> pl_stmt P = false -> assigns_ok ((x, false) :: G) body = true -> FlowSpec.kept v m m' /\ inv none m'.
Proof.
  intros T (r & HE) V E HS HP HA. pose proof (inv_new (Some v) m V) as V1.
  assert (E1 : env_ok (newest m) ((x, false) :: G) (s_env (declare x (List.length (m_cells m)) S)) (set_cells (m_cells m ++ [Some v]) m)).
  { split.
    - intros y l Hy ->. cbn [s_env declare assoc_get] in Hy. cbn [mutability]. rewrite (String.eqb_sym x y). destruct (String.eqb y x); [discriminate|].
      apply (eo_bounded _ _ _ _ E) in Hy. lia.
    - intros y l Hy. cbn [s_env declare assoc_get] in Hy. cbn. rewrite app_length. cbn. destruct (String.eqb y x); [injection Hy as <-; lia|].
      apply (eo_bounded _ _ _ _ E) in Hy. lia. }
  destruct (evaluates_good _ _ _ _ _ _ _ _ _ _ T HE V1 E1 HS HP HA) as [A V2]. split.
  - unfold FlowSpec.kept. rewrite (af_cells _ _ _ A _ eq_refl). cbn. rewrite nth_error_app2, Nat.sub_diag by lia. reflexivity.
  - eapply inv_less; [|exact V2]. intros l [].
Qed.
Lemma counting_kept w pg P S k x body : tidy pg -> s_env S = [] -> supported P body = true -> pl_stmt P = false -> assigns_ok [(x, false)] body = true ->
  forall n i m m', inv none m -> counting (fun i m m' => pass w pg S k x body (VInt i) m m') i n m m' ->
  counting (fun i m m' => pass w pg S k x body (VInt i) m m' /\ FlowSpec.kept (VInt i) m m') i n m m'.
Proof.
  intros T ES HS HP HA. induction n as [|n IH]; intros i m m' V H; inversion H as [|? ? ? m1 ? HP1 HC]; subst; [constructor|].
  assert (E : env_ok none [] (s_env S) m) by (rewrite ES; apply none_env).
  destruct (pass_keeps _ _ _ _ _ _ _ _ _ _ _ T HP1 V E HS HP HA) as [K V1]. econstructor; [split; eassumption|]. now apply IH.
Qed.
Theorem range_loop_runs w pg inclusive x first last body bc below s room a b m1 m2 m3 :
  runnable w pg (script_of (EFor x (EBinary (range_op inclusive) first last) body)) bc below s room -> enough + 1 <= room ->
  evaluates w pg (top_scene room 0) 0 last (MeaningSpec.start s) (AVal (VInt b) m1) ->
  evaluates w pg (top_scene room 1) (fns last) first m1 (AVal (VInt a) m2) ->
  (i64_min <= a)%Z -> (b < i64_max)%Z ->
  counting (fun i m m' => pass w pg (top_scene room 1) (fns last + fns first) x body (VInt i) m m') a (count inclusive a b) m2 m3 ->
  exists s', from (fun n => runtime_run w n bc s) (ROk VUnit s') /\ same_store (m_vm m3) s' /\ ready below s'.
Proof.
  intros R RM HL HF HA HB HC. eapply range_runs; try eassumption.
  pose proof (rn_linked _ _ _ _ _ _ _ R) as LK. pose proof (linked_tidy _ _ _ _ LK) as T.
  pose proof (compile_assigns _ _ _ (lk_code _ _ _ _ LK)) as AS. pose proof (lk_supported _ _ _ _ LK) as SU.
  assert (X : exists P Q R, supported P last = true /\ pl_stmt P = false /\ supported Q first = true /\ pl_stmt Q = false /\ supported R body = true /\ pl_stmt R = false /\
    assigns_ok [] last = true /\ assigns_ok [] first = true /\ assigns_ok [(x, false)] body = true).
  { unfold script_of in *. cbn in AS. cbn in SU.
    exists (first_of (stmt_of script_place)), (later_of (stmt_of script_place)), (loop_of false (loop_kept [body]) (stmt_of script_place)).
    destruct inclusive; cbn in AS, SU; repeat (rewrite andb_true_iff in AS); repeat (rewrite andb_true_iff in SU);
      destruct SU as (((S1 & S2) & S3) & _); destruct AS as ((A1 & A2) & A3);
      assert (D1 : decls last = []) by (eapply undeclared; [exact S1|reflexivity]); rewrite D1 in *;
      assert (D2 : decls first = []) by (eapply undeclared; [exact S2|reflexivity]); rewrite D2 in *; auto 12. }
  destruct X as (P & Q & R' & S1 & P1 & S2 & P2 & S3 & P3 & A1 & A2 & A3).
  destruct (evaluates_good none _ _ _ [] _ _ _ _ _ T HL (start_inv s) (none_env _ _) S1 P1 A1) as [_ V1].
  destruct (evaluates_good none _ _ _ [] _ _ _ _ _ T HF V1 (none_env _ _) S2 P2 A2) as [_ V2].
  eapply counting_kept; eauto.
Qed.

(** * Statements one after the other *)
Section Items.
Variables (lit : nat -> fn_bytecode) (I : interp).

Lemma destructure_inv xs v : forall S m next r m', destructure xs v S m next = AVal r m' ->
  exists S1 m1, next S1 m1 = AVal r m' /\ (forall next2, destructure xs v S m next2 = next2 S1 m1) /\
  (forall x, ~ In x xs -> assoc_get x (s_env S1) = assoc_get x (s_env S)) /\ s_room S1 = s_room S.
Proof.
  induction xs as [|x xs IH]; intros S m next r m' H; cbn [destructure] in *.
  - exists S, m. auto.
  - unfold with_vm in *. destruct (get_field x v (m_vm m)) as [y s|e s| |]; try discriminate H. destruct (alloc (Some y) (set_vm s m)) as [l m2].
    destruct (IH _ _ _ _ _ H) as (S1 & m1 & A & B & C & D). exists S1, m1. split; [exact A|]. split; [exact B|]. split; [|exact D].
    intros z Hz. rewrite C by (intros Hi; apply Hz; now right). cbn [declare s_env assoc_get]. destruct (String.eqb_spec z x) as [->|]; [destruct Hz; now left|reflexivity].
Qed.
Definition goes_on (S : scene) (e : expr) (f : (scene -> value -> memory -> answer) -> answer) : Prop :=
  forall next r m', f next = AVal r m' -> exists S1 v1 m1, next S1 v1 m1 = AVal r m' /\ (forall next2, f next2 = next2 S1 v1 m1) /\
  (forall x, ~ In x (declared e) -> assoc_get x (s_env S1) = assoc_get x (s_env S)) /\ s_room S1 = s_room S.
Lemma check_inv E t v m f r m' : check E t v m f = AVal r m' -> exists m1, f m1 = AVal r m' /\ forall g, check E t v m g = g m1.
Proof.
  unfold check. destruct t as [t|]; [|eauto]. destruct (load E (ta_name t) m) as [c m1| | | | | | |]; cbn [vbind]; try discriminate.
  unfold with_vm. destruct (assert_is _ _ _ _); try discriminate. eauto.
Qed.
Lemma declaration_inv S k e m : match e with EImportDecl _ _ _ | EExportDecl _ => False | _ => True end -> goes_on S e (declaration lit I S k e m).
Proof.
  intros NI next r m' H.
  assert (D : (forall f, declaration lit I S k e m f = vbind (i_eval I S k e m) (fun v m1 => f S v m1)) ->
    exists S1 v1 m1, next S1 v1 m1 = AVal r m' /\ (forall next2, declaration lit I S k e m next2 = next2 S1 v1 m1) /\
    (forall x, ~ In x (declared e) -> assoc_get x (s_env S1) = assoc_get x (s_env S)) /\ s_room S1 = s_room S).
  { intros EQ. rewrite EQ in H. destruct (i_eval I S k e m) as [v m1| | | | | | |] eqn:EV; try discriminate H. exists S, v, m1. split; [exact H|]. split; [|auto].
    intros f. now rewrite EQ. }
  destruct e; try (now apply D); try (destruct NI); clear D; cbn [declaration declared] in *.
  - (* let *) destruct kind as [x|xs].
    + destruct (i_eval I S k e m) as [v m1| | | | | | |] eqn:EV; try discriminate H. cbn [vbind] in *. destruct (alloc (Some v) m1) as [l m2].
      apply check_inv in H as (m3 & H & C). exists (declare x l S), v, m3. split; [exact H|]. split; [exact (fun f => C _)|]. split; [|reflexivity].
      intros z Hz. cbn [declare s_env assoc_get]. destruct (String.eqb_spec z x) as [->|]; [destruct Hz; now left|reflexivity].
    + destruct (i_eval I S k e m) as [v m1| | | | | | |] eqn:EV; try discriminate H. cbn [vbind] in *.
      apply destructure_inv in H as (S1 & m2 & H & B & C). exists S1, v, m2. split; [exact H|]. split; [exact (fun f => B _)|exact C].
  - (* fn *) unfold make_fn in *. destruct (Nat.eqb _ _); cbn [vbind] in *;
      (destruct (store _ _ _ _) as [v m2| | | | | | |] eqn:ES; try discriminate H; cbn [vbind] in *; eexists S, _, _; split; [exact H|]; split; [reflexivity|auto]).
  - (* operator *) unfold make_fn in *. destruct (Nat.eqb _ _); cbn [vbind] in *;
      (destruct (assoc_get _ _); [discriminate H|]; eexists S, _, _; split; [exact H|]; split; [reflexivity|auto]).
Qed.
Lemma item_inv S k e m : goes_on S e (item lit I S k e m).
Proof.
  intros next r m' H.
  assert (D : match e with EImportDecl _ _ _ | EExportDecl _ => False | _ => True end -> (forall f, item lit I S k e m f = declaration lit I S k e m f) ->
    exists S1 v1 m1, next S1 v1 m1 = AVal r m' /\ (forall next2, item lit I S k e m next2 = next2 S1 v1 m1) /\
    (forall x, ~ In x (declared e) -> assoc_get x (s_env S1) = assoc_get x (s_env S)) /\ s_room S1 = s_room S).
  { intros NI EQ. rewrite EQ in H. destruct (declaration_inv _ _ _ _ NI _ _ _ H) as (S1 & v1 & m1 & A & B & C). exists S1, v1, m1.
    split; [exact A|]. split; [|exact C]. intros f. now rewrite EQ. }
  destruct e; try (now apply D); clear D; cbn [item declared] in *.
  - (* import *) destruct (i_import I (s_room S) _ m) as [v m1| | | | | | |] eqn:EV; try discriminate H. cbn [vbind] in *.
    apply destructure_inv in H as (S1 & m2 & H & B & C & R). destruct module_import as [y|].
    + destruct (alloc (Some v) m2) as [l m3] eqn:EA. exists (declare y l S1), v, m3. split; [exact H|]. split; [|split; [|exact R]].
      * intros f. rewrite B. now rewrite EA.
      * intros z Hz. cbn [declare s_env assoc_get]. destruct (String.eqb_spec z y) as [->|]; [destruct Hz; now left|]. apply C. intros Hi. apply Hz. apply in_or_app. now right.
    + exists S1, v, m2. split; [exact H|]. split; [exact (fun f => B _)|]. split; [|exact R]. intros z Hz. apply C. intros Hi. apply Hz. exact Hi.
  - (* export *) destruct (exported e) as [name|]; [|discriminate H]. destruct (_ <? _); [discriminate H|].
    destruct (load (s_env S) "#export" m) as [o m1| | | | | | |]; try discriminate H. cbn [vbind] in *.
    assert (NI : match e with EImportDecl _ _ _ | EExportDecl _ => False | _ => True end \/ match e with EImportDecl _ _ _ | EExportDecl _ => True | _ => False end) by (destruct e; auto).
    destruct NI as [NI|NI].
    + destruct (declaration_inv (deep 1 S) k e m1 NI _ _ _ H) as (S1 & v1 & m2 & A & B & C & R). unfold with_vm in A.
      destruct (set_field name o v1 (m_vm m2)) as [u s|er s| |] eqn:EF; try discriminate A.
      exists (Scene (s_env S1) (s_fn S) (s_room S) (s_chain S)), v1, (set_vm s m2). split; [exact A|]. split; [|split; [exact C|reflexivity]].
      intros f. rewrite B. unfold with_vm. now rewrite EF.
    + assert (Q : forall f, declaration lit I (deep 1 S) k e m1 f = vbind (i_eval I (deep 1 S) k e m1) (fun v m1 => f (deep 1 S) v m1)) by (destruct e; try destruct NI; reflexivity).
      rewrite Q in H. destruct (i_eval I (deep 1 S) k e m1) as [v m2| | | | | | |] eqn:EV; try discriminate H. cbn [vbind] in H. unfold with_vm in H.
      destruct (set_field name o v (m_vm m2)) as [u s|er s| |] eqn:EF; try discriminate H.
      eexists (Scene (s_env (deep 1 S)) (s_fn S) (s_room S) (s_chain S)), v, (set_vm s m2). split; [exact H|]. split; [|split; [reflexivity|reflexivity]].
      intros f. rewrite Q. cbn [vbind]. unfold with_vm. now rewrite EF.
Qed.
Lemma items_inv t : forall es rest S k m r m', items lit I S k (es ++ rest) t m = AVal r m' ->
  exists S1 m1, (forall rest2 t2, items lit I S k (es ++ rest2) t2 m = items lit I S1 (k + literals es) rest2 t2 m1) /\
  (forall x, ~ In x (flat_map declared es) -> assoc_get x (s_env S1) = assoc_get x (s_env S)) /\ s_room S1 = s_room S.
Proof.
  induction es as [|e es IH]; intros rest S k m r m' H.
  - exists S, m. cbn [app literals map list_sum fold_right]. split; [|auto]. intros rest2 t2. unfold literals. cbn. now rewrite Nat.add_0_r.
  - cbn [app items] in H. destruct (item_inv _ _ _ _ _ _ _ H) as (S1 & v1 & m1 & A & B & C & R). destruct (IH _ _ _ _ _ _ A) as (S2 & m2 & A2 & C2 & R2).
    exists S2, m2. split; [|split; [|congruence]].
    + intros rest2 t2. cbn [app items]. rewrite B, A2. change (literals (e :: es)) with (fns e + literals es). now rewrite Nat.add_assoc.
    + intros x Hx. cbn [flat_map] in Hx. rewrite in_app_iff in Hx. rewrite C2, C by tauto. reflexivity.
Qed.
End Items.

(** * Invariants along the statements of a block *)
Definition note (S : scene) (m : memory) : memory :=
  Memory (m_vm m) (m_cells m) (m_closures m ++ [Some (Closure 0 (Source "" [] (Returning None) ELitUnit 0) (s_env S))]) (m_fns m).
Lemma note_inv F G S m : inv F m -> env_ok F G (s_env S) m -> inv F (note S m).
Proof.
  intros [A B C] [X Y]. split; [exact A| |exact C]. intros a c H. cbn [m_closures note] in H.
  destruct (Nat.lt_ge_cases a (List.length (m_closures m))) as [La|La].
  - rewrite nth_error_app1 in H by exact La. exact (B a c H).
  - rewrite nth_error_app2 in H by exact La. destruct (a - List.length (m_closures m)) as [|j]; [|destruct j; discriminate H]. injection H as <-.
    exists G. split; [exact X|]. split; [exact Y|]. exists [], script_place. split; [constructor|]. split; [reflexivity|]. intros x [<-|[]]. reflexivity.
Qed.
Lemma noted F S m : inv F (note S m) -> inv F m /\ bounded (List.length (m_cells m)) (s_env S).
Proof.
  intros [A B C]. split.
  - split; [exact A| |exact C]. intros a c H. apply (B a c). cbn [m_closures note]. rewrite nth_error_app1; [exact H|]. apply nth_error_Some. rewrite H. discriminate.
  - destruct (B (List.length (m_closures m)) _ ltac:(cbn [m_closures note]; rewrite nth_error_app2, Nat.sub_diag by lia; reflexivity)) as (G & _ & Y & _). exact Y.
Qed.
Lemma none_shields G E m : bounded (List.length (m_cells m)) E -> env_ok none G E m.
Proof. intros B. split; [intros x l _ []|exact B]. Qed.
Lemma none_free names E : free none names E. Proof. intros x l _ _ []. Qed.
Lemma item_keeps lit I P G S k e m S1 v1 m1 : keeps none I -> inv none m -> bounded (List.length (m_cells m)) (s_env S) -> supported P e = true -> assigns_ok G e = true ->
  (forall next, item lit I S k e m next = next S1 v1 m1) -> inv none m1 /\ bounded (List.length (m_cells m1)) (s_env S1) /\ vm_steps (m_vm m) (m_vm m1).
Proof.
  intros K V B HS HA H.
  assert (X : good none m (item lit I S k e m (fun S v m => AVal v (note S m)))).
  { eapply k_item; [exact K|exact V|apply none_shields, B|exact HS|exact HA|apply none_free|]. intros S2 v2 m2 A2 V2 E2 _. split; [split; [constructor|apply le_n|reflexivity]|].
    eapply note_inv; eassumption. }
  rewrite H in X. destruct X as [A X]. apply noted in X as [X Y]. split; [exact X|]. split; [exact Y|]. exact (af_vm _ _ _ A).
Qed.
Lemma statements_app P t G es rest : (forall x, In x (EvalSpec.statements (es ++ rest) t) -> supported P x = true) -> statements_ok assigns_ok t G (es ++ rest) = true ->
  exists G1, (forall x, In x (EvalSpec.statements rest t) -> supported P x = true) /\ statements_ok assigns_ok t G1 rest = true.
Proof.
  revert G. induction es as [|e es IH]; intros G HS HA; [eauto|]. cbn [app statements_ok] in HA. apply andb_true_iff in HA as [_ HA].
  eapply IH; [|exact HA]. intros x Hx. apply HS. now right.
Qed.
Lemma items_keep lit I P t es rest : keeps none I -> forall G S k m r m', inv none m -> bounded (List.length (m_cells m)) (s_env S) ->
  (forall x, In x (EvalSpec.statements (es ++ rest) t) -> supported P x = true) -> statements_ok assigns_ok t G (es ++ rest) = true ->
  items lit I S k (es ++ rest) t m = AVal r m' ->
  exists S1 m1 G1, (forall rest2 t2, items lit I S k (es ++ rest2) t2 m = items lit I S1 (k + literals es) rest2 t2 m1) /\
  (forall x, ~ In x (flat_map declared es) -> assoc_get x (s_env S1) = assoc_get x (s_env S)) /\ s_room S1 = s_room S /\
  inv none m1 /\ bounded (List.length (m_cells m1)) (s_env S1) /\ vm_steps (m_vm m) (m_vm m1) /\ statements_ok assigns_ok t G1 rest = true.
Proof.
  intros K. induction es as [|e es IH]; intros G S k m r m' V B HS HA H.
  - exists S, m, G. split; [|split; [auto|split; [reflexivity|split; [exact V|split; [exact B|split; [constructor|exact HA]]]]]].
    intros rest2 t2. unfold literals. cbn. now rewrite Nat.add_0_r.
  - cbn [app items] in H. destruct (item_inv _ _ _ _ _ _ _ _ _ H) as (S1 & v1 & m1 & A & B1 & C & R). cbn [app statements_ok] in HA. apply andb_true_iff in HA as [HA1 HA2].
    destruct (item_keeps _ _ _ _ _ _ _ _ _ _ _ K V B (HS e (or_introl eq_refl)) HA1 B1) as (V1 & Y1 & T1).
    destruct (IH _ _ _ _ _ _ V1 Y1 (fun x Hx => HS x (or_intror Hx)) HA2 A) as (S2 & m2 & G2 & A2 & C2 & R2 & V2 & Y2 & T2 & HG2).
    exists S2, m2, G2. split; [|split; [|split; [congruence|split; [exact V2|split; [exact Y2|split; [eapply vs_trans; eassumption|exact HG2]]]]]].
    + intros rest2 t2. cbn [app items]. rewrite B1, A2. change (literals (e :: es)) with (fns e + literals es). now rewrite Nat.add_assoc.
    + intros x Hx. cbn [flat_map] in Hx. rewrite in_app_iff in Hx. rewrite C2, C by tauto. reflexivity.
Qed.

(** * Modules *)
Lemma import_registered w pg : tidy pg -> forall n room name m v m', inv none m -> i_import (interpreter w pg n) room name m = AVal v m' ->
  assoc_get name (vm_modules (m_vm m')) = Some v.
Proof.
  intros T [|n] room name m v m' V H; [discriminate H|]. cbn [interpreter i_import] in H. unfold import in H.
  destruct (assoc_get name (vm_modules (m_vm m))) as [x|] eqn:En; [injection H as <- <-; exact En|].
  unfold with_vm in H. destruct (begin_import name (m_vm m)) as [o s|er s| |] eqn:EB; try discriminate H.
  destruct (pg_library pg (vm_loads (m_vm m)) name) as [md|er| |] eqn:EL; try discriminate H. destruct (_ <? _); [discriminate H|].
  destruct (T _ _ _ EL) as [HS HA]. cbn [alloc] in H.
  set (m1 := set_vm s m) in *. assert (V1 : inv none m1) by now apply set_vm_inv.
  pose proof (inv_new (Some (VObject o)) m1 V1) as V2.
  assert (E2 : env_ok (newest m1) [("#export", false)] [("#export", List.length (m_cells m1))] (set_cells (m_cells m1 ++ [Some (VObject o)]) m1)).
  { split.
    - intros y l Hy _. cbn [mutability]. cbn [assoc_get] in Hy. rewrite String.eqb_sym. destruct (String.eqb y "#export"); discriminate.
    - intros y l Hy. cbn [assoc_get] in Hy. destruct (String.eqb y "#export"); [|discriminate Hy]. injection Hy as <-. cbn. rewrite app_length. cbn. lia. }
  pose proof (sub (newest m1) _ (interpreter_keeps (newest m1) w pg n T) script_place _ (Scene [("#export", List.length (m_cells m1))] None (room - md_slots md) false) (md_first md) _ _ V2 E2 HS eq_refl HA) as B.
  destruct (i_eval _ _ (md_first md) (md_tree md) _) as [u m3|m3|m3|u m3|m3|er m3| |]; try discriminate H.
  destruct B as [A _]. rewrite (af_cells _ _ _ A _ eq_refl) in H. cbn [m_cells set_cells] in H. rewrite nth_error_app2, Nat.sub_diag in H by lia. cbn [nth_error] in H. injection H as <- <-.
  eapply steps_modules; [exact (af_vm _ _ _ A)|]. cbn [m_vm set_cells]. unfold m1. cbn [m_vm set_vm].
  unfold begin_import, rbind, heap_alloc in EB. destruct (object_new (Some (vm_module_class (m_vm m))) (vm_heap (m_vm m))) as [o1 h] eqn:Eo.
  injection EB as -> <-. cbn [vm_modules set_modules set_loads set_heap]. rewrite assoc_get_set, String.eqb_refl. reflexivity.
Qed.

(** * Scripts *)
Lemma script_opens w pg es t bc below s room r m' : runnable w pg (EBlock es t) bc below s room ->
  evaluates w pg (top_scene room 0) 0 (EBlock es t) (MeaningSpec.start s) (AVal r m') ->
  tidy pg /\ inv none (snd (opened es t room s)) /\ bounded (List.length (m_cells (snd (opened es t room s)))) (s_env (fst (opened es t room s))) /\
  vm_steps s (m_vm (snd (opened es t room s))) /\
  (forall x, In x (EvalSpec.statements es t) -> supported (stmt_of script_place) x = true) /\
  (exists G, statements_ok assigns_ok t G es = true) /\
  exists fuel, items (pg_lit pg) (interpreter w pg fuel) (fst (opened es t room s)) 0 es t (snd (opened es t room s)) = AVal r m'.
Proof.
  intros R (_ & fuel & H). pose proof (rn_linked _ _ _ _ _ _ _ R) as LK. pose proof (linked_tidy _ _ _ _ LK) as T.
  pose proof (compile_assigns _ _ _ (lk_code _ _ _ _ LK)) as AS. pose proof (lk_supported _ _ _ _ LK) as SU.
  split; [exact T|]. unfold opened. destruct (hoist (EvalSpec.hoisted es t) (Scene [] None room false) (MeaningSpec.start s)) as [S1 m1] eqn:EH.
  destruct (k_hoist none _ [] (Scene [] None room false) _ (start_inv s) (none_env [] _) _ _ EH) as (A1 & V1 & E1 & _ & _). cbn [fst snd].
  split; [exact V1|]. split; [exact (eo_bounded _ _ _ _ E1)|]. split; [exact (af_vm _ _ _ A1)|]. split.
  - cbn [supported] in SU. split_and. intros x Hx. unfold EvalSpec.statements in Hx. apply in_app_or in Hx as [Hx|Hx]; [auto|].
    destruct t as [y|]; [|destruct Hx]. destruct Hx as [<-|[]]. assumption.
  - split; [eexists; exact AS|]. destruct fuel as [|n]; [discriminate H|]. exists n. cbn [interpreter i_eval] in H. unfold eval in H.
    destruct (_ <? _); [discriminate H|]. unfold block in H. change (inner (top_scene room 0)) with (Scene [] None (room - 0) false) in H. rewrite Nat.sub_0_r in H. rewrite EH in H. exact H.
Qed.
Lemma reads_last w pg n S k x l m r m' : assoc_get x (s_env S) = Some l ->
  items (pg_lit pg) (interpreter w pg n) S k [] (Some (ELitIdent x)) m = AVal r m' -> m' = m /\ nth_error (m_cells m') l = Some (Some r).
Proof.
  intros E H. cbn [items item declaration] in H. destruct n as [|n]; [discriminate H|]. cbn [interpreter i_eval] in H. unfold eval in H.
  destruct (_ <? _); [discriminate H|]. unfold load in H. rewrite E in H. destruct (nth_error (m_cells m) l) as [[v|]|] eqn:EN; try discriminate H. injection H as <- <-. auto.
Qed.

Theorem let_kept w pg before x e0 t after bc below s room r m' :
  let es := reads_back before x e0 t after in
  runnable w pg (EBlock es (Some (ELitIdent x))) bc below s room -> ~ In x (flat_map declared after) ->
  evaluates w pg (top_scene room 0) 0 (EBlock es (Some (ELitIdent x))) (MeaningSpec.start s) (AVal r m') ->
  exists S1 m1 v m2 s',
    completes w pg (fst (opened es (Some (ELitIdent x)) room s)) 0 before (snd (opened es (Some (ELitIdent x)) room s)) S1 m1 /\
    evaluates w pg S1 (literals before) e0 m1 (AVal v m2) /\
    from (fun n => runtime_run w n bc s) (ROk v s') /\ same_store (m_vm m') s' /\ ready below s'.
Proof.
  cbv zeta. intros R NI H. pose proof (runs_agree _ _ _ _ _ _ _ _ R H) as (s' & RR).
  destruct (script_opens _ _ _ _ _ _ _ _ _ _ R H) as (T & V & B & _ & HS & (G & HA) & fuel & HI). clear H.
  set (es := reads_back before x e0 t after) in *. set (o := opened es (Some (ELitIdent x)) room s) in *. clearbody o. unfold es, reads_back in HI, HS, HA.
  pose proof (statements_app _ _ _ _ _ HS HA) as (_ & HS1 & _).
  destruct (items_keep _ _ _ _ _ _ (interpreter_keeps none w pg fuel T) _ _ _ _ _ _ V B HS HA HI) as (S1 & m1 & G1 & C1 & _ & _ & V1 & B1 & _ & HA1).
  rewrite C1 in HI. cbn [Nat.add] in HI, C1. cbn [statements_ok assigns_ok decls] in HA1. split_and.
  pose proof (HS1 _ (or_introl eq_refl)) as HSL. cbn [supported] in HSL. split_and.
  assert (D0 : decls e0 = []) by (eapply undeclared; [eassumption|reflexivity]).
  cbn [items item declaration] in HI. destruct (i_eval (interpreter w pg fuel) S1 (literals before) e0 m1) as [v m2| | | | | | |] eqn:EV; try discriminate HI. cbn [vbind alloc] in HI.
  assert (HE : evaluates w pg S1 (literals before) e0 m1 (AVal v m2)) by (split; [discriminate|exists fuel; exact EV]).
  assert (V2 : inv none m2 /\ List.length (m_cells m1) <= List.length (m_cells m2)).
  { destruct (evaluates_good none _ _ _ G1 _ _ _ _ _ T HE V1 (none_shields _ _ _ B1) ltac:(eassumption) eq_refl ltac:(assumption)) as [A2 V2]. split; [exact V2|exact (af_length _ _ _ A2)]. }
  destruct V2 as [V2 L2]. set (l := List.length (m_cells m2)) in *. set (mm := set_cells (m_cells m2 ++ [Some v]) m2) in *.
  pose proof (inv_new (Some v) m2 V2) as V3. fold mm in V3.
  assert (E3 : env_ok (newest m2) ((x, false) :: G1) (s_env (declare x l S1)) mm).
  { split.
    - intros y c Hy ->. cbn [declare s_env assoc_get] in Hy. cbn [mutability]. rewrite String.eqb_sym. destruct (String.eqb y x); [discriminate|]. apply B1 in Hy. lia.
    - intros y c Hy. cbn [declare s_env assoc_get] in Hy. unfold mm. cbn. rewrite app_length. cbn. destruct (String.eqb y x); [injection Hy as <-; lia|]. apply B1 in Hy. lia. }
  assert (HG : good (newest m2) mm (AVal r m')).
  { rewrite <- HI. apply g_check; [exact V3|]. intros m3 A3 V4. eapply k_items; [now apply interpreter_keeps|exact V4|eapply env_after; [exact A3|exact E3]|
      intros z Hz; apply HS1; right; exact Hz|rewrite D0 in *; assumption|].
    intros y c Hy Hc ->. unfold EvalSpec.statements in Hy. rewrite flat_map_app in Hy. apply in_app_or in Hy as [Hy|[]]. cbn [declare s_env assoc_get] in Hc. destruct (String.eqb_spec y x) as [->|].
    - apply NI. apply in_flat_map in Hy as (z & Hz & Hy). apply in_flat_map. exists z. split; [exact Hz|]. clear - Hy. induction z; cbn in *; try (destruct Hy; fail); auto.
    - apply B1 in Hc. lia. }
  destruct HG as [AF _]. apply check_inv in HI as (m3 & HI & _).
  rewrite <- (app_nil_r after) in HI. destruct (items_inv _ _ _ _ _ _ _ _ _ _ HI) as (S5 & m5 & C5 & X5 & _). rewrite C5 in HI.
  apply (reads_last _ _ _ _ _ x l) in HI as [-> HN]; [|rewrite X5 by exact NI; cbn [declare s_env assoc_get]; now rewrite String.eqb_refl].
  rewrite (af_cells _ _ _ AF l eq_refl) in HN. unfold mm in HN. cbn [m_cells set_cells] in HN. unfold l in HN. rewrite nth_error_app2, Nat.sub_diag in HN by lia. injection HN as <-.
  exists S1, m1, v, m2, s'. split; [exists fuel; exact C1|]. split; [exact HE|exact RR].
Qed.

Theorem import_object w pg before x names path bc below s room r m' :
  let root := EBlock (imports_last before x names path) (Some (ELitIdent x)) in
  runnable w pg root bc below s room ->
  evaluates w pg (top_scene room 0) 0 root (MeaningSpec.start s) (AVal r m') ->
  exists s', from (fun n => runtime_run w n bc s) (ROk r s') /\ assoc_get path (vm_modules s') = Some r /\
    (forall v, assoc_get path (vm_modules s) = Some v -> r = v) /\ ready below s'.
Proof.
  cbv zeta. intros R H. pose proof (runs_agree _ _ _ _ _ _ _ _ R H) as (s' & RR & SS & RD).
  destruct (script_opens _ _ _ _ _ _ _ _ _ _ R H) as (T & V & B & T0 & HS & (G & HA) & fuel & HI). clear H.
  set (es := imports_last before x names path) in *. set (o := opened es (Some (ELitIdent x)) room s) in *. clearbody o. unfold es, imports_last in HI, HS, HA.
  destruct (items_keep _ _ _ _ _ _ (interpreter_keeps none w pg fuel T) _ _ _ _ _ _ V B HS HA HI) as (S1 & m1 & G1 & C1 & _ & _ & V1 & B1 & T1 & HA1).
  rewrite C1 in HI. cbn [Nat.add] in HI. cbn [items item] in HI.
  destruct (i_import (interpreter w pg fuel) (s_room S1) path m1) as [v m2| | | | | | |] eqn:EV; try discriminate HI. cbn [vbind] in HI.
  pose proof (import_registered w pg T _ _ _ _ _ _ V1 EV) as M2.
  assert (K2 : inv none m2 /\ bounded (List.length (m_cells m2)) (s_env S1) /\ vm_steps (m_vm m1) (m_vm m2)).
  { pose proof (k_import _ _ (interpreter_keeps none w pg fuel T) (s_room S1) path m1 V1) as X. rewrite EV in X. destruct X as [A X]. split; [exact X|].
    split; [|exact (af_vm _ _ _ A)]. intros y c Hc. apply B1 in Hc. pose proof (af_length _ _ _ A). lia. }
  destruct K2 as (V2 & B2 & T2). apply destructure_inv in HI as (S3 & m3 & HI & C3 & _).
  assert (T3 : vm_steps (m_vm m2) (m_vm m3)).
  { assert (X : good none m2 (destructure names v S1 m2 (fun _ m => AVal VUnit m))).
    { eapply (k_destructure none) with (G := []); [exact V2|apply none_shields, B2|]. intros S4 m4 A4 V4 _ _. now apply good_here. }
    rewrite C3 in X. destruct X as [A _]. exact (af_vm _ _ _ A). }
  cbn [alloc] in HI. apply (reads_last _ _ _ _ _ x (List.length (m_cells m3))) in HI as [-> HN]; [|cbn [declare s_env assoc_get]; now rewrite String.eqb_refl].
  cbn [m_cells set_cells] in HN. rewrite nth_error_app2, Nat.sub_diag in HN by lia. injection HN as <-. exists s'. split; [exact RR|]. split.
  - rewrite (ss_modules _ _ SS). cbn [m_vm set_cells]. eapply steps_modules; [exact T3|exact M2].
  - split; [|exact RD]. intros u Hu. assert (Q : Some v = Some u); [|now injection Q]. rewrite <- M2. eapply steps_modules; [|exact Hu].
    eapply vs_trans; [exact T0|]. eapply vs_trans; eassumption.
Qed.
