(** Invariants of the code generator: bytecode is well formed at every moment. *)
From Verif.Model Require Import Compiler.
From Verif.Spec Require Import WellFormed.
From Verif.Proofs Require Import CodecP AssemblerP PoolP CaptureP.

(** * Instruction lists *)
Lemma encode_app a b : encode (a ++ b) = encode a ++ encode b.
Proof. apply flat_map_app. Qed.
Definition len (l : list instr) : nat := List.length (encode l).
Lemma len_app a b : len (a ++ b) = len a + len b.
Proof. unfold len. rewrite encode_app, app_length. reflexivity. Qed.
Lemma len_cons i l : len (i :: l) = List.length (encode_instr i) + len l.
Proof. unfold len. cbn [encode flat_map]. apply app_length. Qed.

Lemma targets_app a b : forall p, targets p (a ++ b) = targets p a ++ targets (p + len a) b.
Proof.
  induction a as [|i a IH]; intros p; cbn [app].
  - cbn. now rewrite Nat.add_0_r.
  - destruct i; cbn [targets app]; rewrite IH, len_cons, Nat.add_assoc; reflexivity.
Qed.

Definition same_shape (i j : instr) : Prop :=
  i = j \/ exists o z z', i = IOffset o z /\ j = IOffset o z'.
Lemma shape_len i j : same_shape i j -> List.length (encode_instr i) = List.length (encode_instr j).
Proof. intros [->|(o & z & z' & -> & ->)]; reflexivity. Qed.
Definition reshaped := Forall2 same_shape.
Lemma reshaped_refl l : reshaped l l.
Proof. induction l; constructor; auto. now left. Qed.
Lemma reshaped_len l m : reshaped l m -> len l = len m.
Proof. induction 1 as [|i j l m H _ IH]; [reflexivity|]. now rewrite !len_cons, (shape_len _ _ H), IH. Qed.
Lemma reshaped_trans a b c : reshaped a b -> reshaped b c -> reshaped a c.
Proof.
  intros H. revert c. induction H as [|i j l m H _ IH]; intros c HC; inversion HC; subst; constructor; [|now apply IH].
  match goal with H' : same_shape j _ |- _ => rename H' into K end.
  destruct H as [->|(o & z & z' & -> & ->)]; [exact K|].
  destruct K as [<-|(o2 & z2 & z3 & E & ->)].
  - right. exists o, z, z'. auto.
  - injection E as <- <-. right. exists o, z, z3. auto.
Qed.

(** [later l l']: more instructions and possibly other jump offsets. *)
Definition later (l l' : list instr) : Prop := exists m more, l' = m ++ more /\ reshaped l m.
Lemma later_refl l : later l l.
Proof. exists l, []. rewrite app_nil_r. auto using reshaped_refl. Qed.
Lemma later_trans a b c : later a b -> later b c -> later a c.
Proof.
  intros (m & more & -> & H) (n & more' & -> & K).
  apply Forall2_app_inv_l in K as (n1 & n2 & K1 & K2 & ->).
  exists n1, (n2 ++ more'). rewrite app_assoc. split; [reflexivity|]. eapply reshaped_trans; eauto.
Qed.
Lemma later_app l more : later l (l ++ more).
Proof. exists l, more. auto using reshaped_refl. Qed.
Lemma later_len l l' : later l l' -> len l <= len l'.
Proof. intros (m & more & -> & H). rewrite len_app, (reshaped_len _ _ H). lia. Qed.

Definition jump_field (l : list instr) (p : nat) : Prop :=
  exists a o z b, l = a ++ IOffset o z :: b /\ vm_operands o = OffsetOperand /\ p = len a + 1.

Lemma boundary_later l l' p : later l l' -> boundary l p -> boundary l' p.
Proof.
  intros (m & more & -> & H) (a & b & -> & ->).
  apply Forall2_app_inv_l in H as (m1 & m2 & H1 & H2 & ->).
  exists m1, (m2 ++ more). split; [now rewrite app_assoc|]. apply (reshaped_len _ _ H1).
Qed.
Lemma jump_field_later l l' p : later l l' -> jump_field l p -> jump_field l' p.
Proof.
  intros (m & more & -> & H) (a & o & z & b & -> & Ho & ->).
  apply Forall2_app_inv_l in H as (m1 & m2 & H1 & H2 & ->).
  inversion H2 as [|? j ? m3 HS HR]; subst.
  assert (exists z', j = IOffset o z') as (z' & ->).
  { destruct HS as [<-|(o1 & z1 & z2 & E & ->)]; [eauto|]. injection E as <- <-. eauto. }
  exists m1, o, z', (m3 ++ more). rewrite (reshaped_len _ _ H1). split; [|auto].
  now rewrite <- app_assoc.
Qed.
Lemma boundary_end l : boundary l (len l).
Proof. exists l, []. now rewrite app_nil_r. Qed.

(** * Constants *)
Definition prefix {A} (a b : list A) : Prop := exists more, b = a ++ more.
Lemma prefix_refl {A} (a : list A) : prefix a a.
Proof. exists []. now rewrite app_nil_r. Qed.
Lemma prefix_trans {A} (a b c : list A) : prefix a b -> prefix b c -> prefix a c.
Proof. intros (x & ->) (y & ->). exists (x ++ y). now rewrite app_assoc. Qed.
Lemma prefix_nth {A} (a b : list A) i x : prefix a b -> nth_error a i = Some x -> nth_error b i = Some x.
Proof. intros (m & ->) H. rewrite nth_error_app1; [exact H|]. apply nth_error_Some. congruence. Qed.
Lemma prefix_length {A} (a b : list A) : prefix a b -> List.length a <= List.length b.
Proof. intros (m & ->). rewrite app_length. lia. Qed.

Lemma instr_ok_mono c c' i : prefix c c' -> instr_ok c i -> instr_ok c' i.
Proof.
  intros P. destruct i as [o|o b|o a b|o z|k ups]; cbn [instr_ok]; auto.
  destruct (nth_error c k) as [x|] eqn:E; [|tauto]. rewrite (prefix_nth _ _ _ _ P E). auto.
Qed.
Lemma is_symbol_mono c c' b : prefix c c' -> is_symbol c b -> is_symbol c' b.
Proof. intros P (s & H). exists s. eapply prefix_nth; eauto. Qed.
Lemma is_pushable_mono c c' b : prefix c c' -> is_pushable c b -> is_pushable c' b.
Proof.
  unfold is_pushable. intros P. destruct (nth_error c b) as [x|] eqn:E; [|tauto].
  rewrite (prefix_nth _ _ _ _ P E). auto.
Qed.
Lemma operand_ok_mono c c' s s' u u' i :
  prefix c c' -> s <= s' -> u <= u' -> operand_ok c s u i -> operand_ok c' s' u' i.
Proof.
  intros P Hs Hu. destruct i as [o|o b|o a b|o z|k ups]; cbn [operand_ok]; auto.
  - intros [Hb H]. split; [exact Hb|].
    destruct o; eauto using is_symbol_mono, is_pushable_mono; lia.
  - intros (H1 & H2 & H3 & H4). repeat split; eauto using is_symbol_mono. lia.
  - intros (H1 & (f & Hf & Hl) & H3). repeat split; auto.
    + exists f. split; [eapply prefix_nth; eauto|exact Hl].
    + eapply Forall_impl; [|exact H3]. intros [a b]. intros [(?&?&?)|(?&?&?)]; [left|right]; repeat split; auto; lia.
Qed.

(** * The invariant *)
Definition const_wf (next : nat) (k : const) : Prop :=
  match k with CFunction f => fn_id f < next /\ wf_bytecode (fn_code f) | _ => True end.

Record scope_ok (l : list instr) (slots : nat) (sc : scope) : Prop := {
  so_exits : Forall (jump_field l) (sc_exits sc);
  so_call : Forall (jump_field l) (cc_exits (sc_call sc));
  so_vars : Forall (fun v => sv_slot v < slots) (sc_vars sc);
  so_entry : match sc_entry sc with Some p => boundary l p | None => True end }.

Definition slots_of (c : context) : nat := ss_slot_count (cx_scopes c).
Definition ups_of (c : context) : nat := List.length (cx_upvalues c).
Definition consts_of (c : context) : list const := asm_consts (cx_asm c).

Record ctx_ok (next : nat) (l : list instr) (c : context) : Prop := {
  co_data : asm_data (cx_asm c) = encode l;
  co_instr : Forall (instr_ok (consts_of c)) l;
  co_oper : Forall (operand_ok (consts_of c) (slots_of c) (ups_of c)) l;
  co_jumps : (Z.of_nat (len l) <= 32767)%Z -> jumps_ok l;
  co_scopes : Forall (scope_ok l (slots_of c)) (ss_scopes (cx_scopes c));
  co_consts : Forall (const_wf next) (consts_of c);
  co_pool : List.length (consts_of c) <= 256 }.

Definition desc_ok (p : context) (d : upvalue_desc) : Prop :=
  match d with ParentLocal s _ => s < slots_of p | Outer i _ => i < ups_of p end.
Fixpoint linked (st : list context) : Prop :=
  match st with
  | [] => True
  | c :: r => match r with
              | [] => cx_upvalues c = []
              | p :: _ => Forall (desc_ok p) (cx_upvalues c)
              end /\ linked r
  end.

Record good (L : list (list instr)) (s : cstate) : Prop := {
  g_ctx : Forall2 (ctx_ok (cs_next_id s)) L (cs_stack s);
  g_linked : linked (cs_stack s) }.

Record ctx_le (l : list instr) (c : context) (l' : list instr) (c' : context) : Prop := {
  le_code : later l l';
  le_slots : slots_of c <= slots_of c';
  le_ups : prefix (cx_upvalues c) (cx_upvalues c');
  le_consts : prefix (consts_of c) (consts_of c') }.
Record outer_le (c c' : context) : Prop := {
  ole_asm : cx_asm c' = cx_asm c;
  ole_slots : slots_of c' = slots_of c;
  ole_ups : prefix (cx_upvalues c) (cx_upvalues c') }.

Definition evo (L : list (list instr)) (s : cstate) (L' : list (list instr)) (s' : cstate) : Prop :=
  cs_next_id s <= cs_next_id s' /\
  match L, cs_stack s, L', cs_stack s' with
  | l :: lr, c :: cr, l' :: lr', c' :: cr' => ctx_le l c l' c' /\ lr' = lr /\ Forall2 outer_le cr cr'
  | [], [], [], [] => True
  | _, _, _, _ => False
  end.

Lemma ctx_le_refl l c : ctx_le l c l c.
Proof. split; auto using later_refl, prefix_refl. Qed.
Lemma ctx_le_trans l1 c1 l2 c2 l3 c3 : ctx_le l1 c1 l2 c2 -> ctx_le l2 c2 l3 c3 -> ctx_le l1 c1 l3 c3.
Proof.
  intros [A1 A2 A3 A4] [B1 B2 B3 B4]. split; eauto using later_trans, prefix_trans. lia.
Qed.
Lemma outer_le_refl c : outer_le c c.
Proof. split; auto using prefix_refl. Qed.
Lemma outer_le_trans a b c : outer_le a b -> outer_le b c -> outer_le a c.
Proof. intros [A1 A2 A3] [B1 B2 B3]. split; try congruence. eauto using prefix_trans. Qed.
Lemma outers_refl l : Forall2 outer_le l l.
Proof. induction l; constructor; auto using outer_le_refl. Qed.
Lemma outers_trans a b c : Forall2 outer_le a b -> Forall2 outer_le b c -> Forall2 outer_le a c.
Proof.
  intros H. revert c. induction H as [|x y a b H _ IH]; intros c K; inversion K; subst; constructor;
    eauto using outer_le_trans.
Qed.
Lemma outer_ctx_le l c c' : outer_le c c' -> ctx_le l c l c'.
Proof.
  intros [A B C]. split; auto using later_refl; [lia|]. unfold consts_of. rewrite A. apply prefix_refl.
Qed.

Lemma evo_refl L s : good L s -> evo L s L s.
Proof.
  intros [G _]. split; [lia|]. inversion G; subst; auto. auto using ctx_le_refl, outers_refl.
Qed.
Lemma evo_trans L1 s1 L2 s2 L3 s3 : evo L1 s1 L2 s2 -> evo L2 s2 L3 s3 -> evo L1 s1 L3 s3.
Proof.
  intros [A1 A2] [B1 B2]. split; [lia|].
  destruct L1, (cs_stack s1), L2, (cs_stack s2), L3, (cs_stack s3); try tauto.
  destruct A2 as (? & -> & ?), B2 as (? & -> & ?). eauto using ctx_le_trans, outers_trans.
Qed.

(** * Triples *)
Definition assertion := list (list instr) -> cstate -> Prop.
Definition stable (P : assertion) : Prop :=
  forall L s L' s', evo L s L' s' -> P L s -> P L' s'.
Definition triple {A} (P : assertion) (m : M A) (Q : A -> assertion) : Prop :=
  forall L s a s', good L s -> P L s -> m s = Ok (a, s') ->
  exists L', good L' s' /\ evo L s L' s' /\ Q a L' s'.
Definition any : assertion := fun _ _ => True.

Lemma bind_ok {A B} (m : M A) (f : A -> M B) s b s' :
  bind m f s = Ok (b, s') -> exists a s1, m s = Ok (a, s1) /\ f a s1 = Ok (b, s').
Proof. unfold bind. destruct (m s) as [[a s1]|e| |]; try discriminate. eauto. Qed.

Lemma stable_any : stable any.
Proof. now intros L s L' s'. Qed.
Lemma stable_and P Q : stable P -> stable Q -> stable (fun L s => P L s /\ Q L s).
Proof. unfold stable. intros HP HQ L s L' s' E [H1 H2]. eauto. Qed.
Lemma stable_pure (p : Prop) : stable (fun _ _ => p).
Proof. unfold stable. auto. Qed.

Lemma t_bind {A B} P (m : M A) Q (f : A -> M B) R :
  stable P -> triple P m Q -> (forall a, triple (fun L s => P L s /\ Q a L s) (f a) R) ->
  triple P (bind m f) R.
Proof.
  intros SP Hm Hf L s b s' G HP H. apply bind_ok in H as (a & s1 & H1 & H2).
  destruct (Hm _ _ _ _ G HP H1) as (L1 & G1 & E1 & Q1).
  destruct (Hf a _ _ _ _ G1 (conj (SP _ _ _ _ E1 HP) Q1) H2) as (L2 & G2 & E2 & Q2).
  exists L2. eauto using evo_trans.
Qed.
Lemma t_conseq {A} (P P' : assertion) (m : M A) (Q Q' : A -> assertion) :
  (forall L s, P' L s -> P L s) -> (forall a L s, Q a L s -> Q' a L s) -> triple P m Q -> triple P' m Q'.
Proof.
  intros HP HQ H L s a s' G H1 H2. destruct (H _ _ _ _ G (HP _ _ H1) H2) as (L' & ? & ? & ?). eauto.
Qed.
Lemma t_pre {A} (P P' : assertion) (m : M A) Q :
  triple P m Q -> (forall L s, P' L s -> P L s) -> triple P' m Q.
Proof. intros H HP. eapply t_conseq; eauto. Qed.
Lemma t_post_any {A} P (m : M A) Q : triple P m Q -> triple P m (fun _ => any).
Proof. intros H. eapply t_conseq; [| |exact H]; unfold any; auto. Qed.
Lemma t_ret {A} (a : A) (P : assertion) (Q : A -> assertion) : (forall L s, P L s -> Q a L s) -> triple P (ret a) Q.
Proof. intros HQ L s b s' G HP H. injection H as <- <-. exists L. auto using evo_refl. Qed.
Lemma t_fail {A} e P (Q : A -> assertion) : triple P (fail e) Q.
Proof. intros L s b s' G HP H. discriminate H. Qed.
Lemma t_panic {A} P (Q : A -> assertion) : triple P panic Q.
Proof. intros L s b s' G HP H. discriminate H. Qed.
Lemma t_each {A} (f : A -> M unit) l P :
  stable P -> (forall x, In x l -> triple P (f x) (fun _ => any)) -> triple P (each f l) (fun _ => any).
Proof.
  intros SP. induction l as [|x l IH]; intros H; cbn [each].
  - apply t_ret. now intros.
  - eapply t_bind; [exact SP|apply H; now left|]. intros ?.
    eapply t_pre; [apply IH; intros; apply H; now right|]. now intros L s [? _].
Qed.
Lemma t_times n m P : stable P -> triple P m (fun _ => any) -> triple P (times n m) (fun _ => any).
Proof.
  intros SP H. induction n as [|n IH]; cbn [times].
  - apply t_ret. now intros.
  - eapply t_bind; [exact SP|exact H|]. intros ?. eapply t_pre; [exact IH|]. now intros L s [? _].
Qed.
