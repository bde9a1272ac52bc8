(** The parser answers only trees of the shapes of ShapeSpec.v. *)
From Coq Require Import Lia.
From Verif.Model Require Import Parser.
From Verif.Spec Require Import ShapeSpec.
#[local] Open Scope parser_scope.

Definition yields {A} (Q : A -> Prop) (m : P A) : Prop := forall ts a ts', m ts = Ok (a, ts') -> Q a.
Definition any {A} (a : A) : Prop := True.
Lemma y_any {A} (m : P A) : yields any m. Proof. intros ts a ts' _. exact I. Qed.
Lemma y_ret {A} (Q : A -> Prop) a : Q a -> yields Q (pret a).
Proof. intros H ts b ts' [= <- _]. exact H. Qed.
Lemma y_err {A} (Q : A -> Prop) e : yields Q (perr e). Proof. discriminate. Qed.
Lemma y_panic {A} (Q : A -> Prop) : yields Q ppanic. Proof. discriminate. Qed.
Lemma y_none {A} (Q : A -> Prop) : yields Q (fun _ => NoFuel). Proof. discriminate. Qed.
Lemma y_bind {A B} (R : A -> Prop) (Q : B -> Prop) (m : P A) (k : A -> P B) : yields R m -> (forall a, R a -> yields Q (k a)) -> yields Q (pbind m k).
Proof.
  intros M K ts b ts'. unfold pbind. destruct (m ts) as [[a r]|e| |] eqn:E; try discriminate. cbn [obind fst snd]. apply K. eapply M; exact E.
Qed.
Lemma y_skip {A B} (Q : B -> Prop) (m : P A) (k : A -> P B) : (forall a, yields Q (k a)) -> yields Q (pbind m k).
Proof. intros K. eapply y_bind; [apply y_any|]. auto. Qed.
Lemma y_len {A} (Q : A -> Prop) (f : nat -> P A) : (forall n, yields Q (f n)) -> yields Q (fun ts => f (S (List.length ts)) ts).
Proof. intros H ts. apply H. Qed.
Lemma y_weak {A} (Q R : A -> Prop) m : yields Q m -> (forall a, Q a -> R a) -> yields R m.
Proof. intros H I ts a ts' E. apply I. eapply H; exact E. Qed.
Lemma y_items {A} (Q : A -> Prop) c (it : P A) : yields Q it -> forall f, yields (fun l => forall x, In x l -> Q x) (items_until c it f).
Proof.
  intros H. induction f as [|f IH]; [apply y_none|]. cbn [items_until]. apply y_skip. intro k. destruct (kind_eqb k c); [apply y_ret; contradiction|].
  eapply y_bind; [exact H|]. intros x X. apply y_skip. intros k'. apply y_skip. intros _. eapply y_bind; [exact IH|]. intros r R.
  apply y_ret. intros y [<-|I]; auto.
Qed.
Lemma y_comma {A} (Q : A -> Prop) c (it : P A) : yields Q it -> yields (fun l => forall x, In x l -> Q x) (comma_list c it).
Proof.
  intros H. apply (y_len _ (fun n => l <- items_until c it n ;; consume c ;;; pret l)). intro n.
  eapply y_bind; [apply y_items, H|]. intros l L. apply y_skip. intros _. apply y_ret, L.
Qed.
Lemma y_check args : yields (fun _ => List.length args <= 255) (check_args args).
Proof. unfold check_args. destruct (Nat.ltb_spec 255 (List.length args)); [apply y_err|]. apply y_ret. lia. Qed.

Lemma digits_range t : forall acc z, (0 <= acc < 2 ^ 63)%Z -> parse_digits acc t = Ok z -> (0 <= z < 2 ^ 63)%Z.
Proof.
  induction t as [|c t IH]; intros acc z A; cbn [parse_digits]; [intros [= <-]; exact A|].
  destruct (is_digit c) eqn:D; [|discriminate]. destruct (i64_max <? acc * 10)%Z; [discriminate|].
  destruct (i64_max <? acc * 10 + digit c)%Z eqn:M; [discriminate|]. apply IH. apply Z.ltb_ge in M. unfold i64_max in M.
  assert (0 <= digit c)%Z. { unfold digit. unfold is_digit, Lexer.between in D. apply andb_true_iff in D as [D _]. apply N.leb_le in D. lia. }
  lia.
Qed.

Section Shape.
Variables (prec : precedence -> P expr) (seq : P expr).
Definition sh := shaped false.
Definition st := shaped true.
Definition block (e : expr) : Prop := is_block e /\ shaped false e.
Hypothesis Hp : forall p, yields sh (prec p).
Hypothesis Hs : yields block seq.

Lemma y_block : yields block (block_expression seq).
Proof. unfold block_expression. apply y_skip. intros _. eapply y_bind; [exact Hs|]. intros e E. apply y_skip. intros _. apply y_ret, E. Qed.
Lemma y_assignment e c : sh e -> is_target e -> yields sh (parse_assignment prec e c).
Proof.
  intros S T. unfold parse_assignment, expression. apply y_skip. intro k. destruct (assignop_of k); [|apply y_ret, S]. destruct c; [|apply y_ret, S].
  apply y_skip. intros _. eapply y_bind; [apply Hp|]. intros r R. apply y_ret. constructor; assumption.
Qed.
Lemma up e : sh e -> st e.
Proof. unfold sh, st. intros H. inversion H; subst; econstructor; eassumption. Qed.
Lemma y_up m : yields sh m -> yields st m.
Proof. intros H. eapply y_weak; [exact H|]. apply up. Qed.
Ltac go := repeat first
  [ eapply y_bind; [solve [apply Hp | apply y_block]|]; let e := fresh "e" in let E := fresh "E" in intros e E
  | apply y_skip; let a := fresh "a" in intro a ].
Ltac fin := apply y_ret; repeat match goal with H : block _ |- _ => destruct H end; constructor; try assumption.
Lemma y_if_chain f : yields (fun e => sh e /\ is_else e) (if_chain prec seq f).
Proof.
  induction f as [|f IH]; [apply y_none|]. cbn [if_chain]. unfold expression. apply y_skip. intros _.
  eapply y_bind; [apply Hp|]. intros c C. eapply y_bind; [apply y_block|]. intros p [P1 P2]. apply y_skip. intros b.
  assert (N : yields (fun e => sh e /\ is_else e) (pret (EIf c p None))).
  { apply y_ret. split; [|exact I]. constructor; try assumption. discriminate. }
  destruct b; [|exact N]. apply y_skip. intros _. apply y_skip. intro k.
  destruct k; try exact N.
  - eapply y_bind; [apply y_block|]. intros s [S1 S2]. apply y_ret. split; [|exact I]. constructor; try assumption. intros e [= <-]. split; [|assumption].
    destruct s; try contradiction; exact I.
  - eapply y_bind; [exact IH|]. intros s [S1 S2]. apply y_ret. split; [|exact I]. constructor; try assumption. intros e [= <-]. auto.
Qed.
Lemma y_if : yields sh (if_expression prec seq).
Proof. unfold if_expression. eapply y_weak; [apply (y_len _ (if_chain prec seq)), y_if_chain|]. intros a [H _]. exact H. Qed.
Lemma y_fn : yields (fun e => st e /\ is_member e) (fn_decl seq).
Proof.
  unfold fn_decl. apply y_skip. intros _. apply y_skip. intro name. apply y_skip. intro args. eapply y_bind; [apply y_check|]. intros u L.
  apply y_skip. intro r. eapply y_bind; [apply y_block|]. intros b [B1 B2]. apply y_ret. split; [constructor; assumption|exact I].
Qed.
Lemma y_op : yields (fun e => st e /\ is_member e) (op_decl seq).
Proof.
  unfold op_decl. apply y_skip. intros _. apply y_skip. intro t. destruct (overop_of (tk_kind t)); [|apply y_err].
  apply y_skip. intro args. apply y_skip. intro r. eapply y_bind; [apply y_block|]. intros b [B1 B2]. apply y_ret. split; [constructor; assumption|exact I].
Qed.
Lemma y_class_items f : yields (fun l => forall e, In e l -> is_member e /\ st e) (class_items seq f).
Proof.
  induction f as [|f IH]; [apply y_none|]. cbn [class_items]. apply y_skip. intro k.
  destruct k; try apply y_err; try (apply y_ret; contradiction);
    (eapply y_bind; [first [apply y_fn | apply y_op]|]; intros x [X1 X2]; eapply y_bind; [exact IH|]; intros r R; apply y_ret; intros e [<-|I]; auto).
Qed.
Lemma y_class : yields st (class_decl prec seq).
Proof.
  unfold class_decl, expression. apply y_skip. intros _. apply y_skip. intro name. apply y_skip. intro b.
  eapply (y_bind (fun base => forall e, base = Some e -> sh e)).
  - destruct b; [|apply y_ret; discriminate]. apply y_skip. intros _. eapply y_bind; [apply Hp|]. intros e E. apply y_ret. intros x [= <-]. exact E.
  - intros base B. apply y_skip. intros _. eapply y_bind; [apply (y_len _ (class_items seq)), y_class_items|]. intros items I. apply y_skip. intros _. apply y_ret.
    constructor; assumption.
Qed.
Lemma y_var : yields (fun e => st e /\ is_exportable e) (var_decl prec).
Proof.
  unfold var_decl, expression. apply y_skip. intros _. apply y_skip. intro m. apply y_skip. intros _. apply y_skip. intro t. apply y_skip. intro k.
  apply y_skip. intros _. eapply y_bind; [apply Hp|]. intros e E. apply y_ret. split; [constructor; exact E|exact I].
Qed.
Lemma y_fn_export : yields (fun e => st e /\ is_exportable e) (fn_decl seq).
Proof.
  unfold fn_decl. apply y_skip. intros _. apply y_skip. intro name. apply y_skip. intro args. eapply y_bind; [apply y_check|]. intros u L.
  apply y_skip. intro r. eapply y_bind; [apply y_block|]. intros b [B1 B2]. apply y_ret. split; [constructor; assumption|exact I].
Qed.
Lemma y_class_export : yields (fun e => st e /\ is_exportable e) (class_decl prec seq).
Proof.
  intros ts a ts' E. split; [eapply y_class; exact E|]. revert ts a ts' E. fold (yields is_exportable (class_decl prec seq)).
  unfold class_decl. do 5 (apply y_skip; intro). apply y_skip. intro items. apply y_skip. intros _. apply y_ret. exact I.
Qed.
Lemma y_export : yields st (export_decl prec seq).
Proof.
  unfold export_decl. apply y_skip. intros _. apply y_skip. intro t. eapply (y_bind (fun e => st e /\ is_exportable e)).
  - destruct (tk_kind t); try apply y_err.
    all: first [apply y_var | apply y_fn_export | apply y_class_export | apply y_ret; split; [constructor|exact I]].
  - intros e [E1 E2]. apply y_ret. constructor; assumption.
Qed.
Lemma y_flow : yields st (control_flow prec).
Proof.
  unfold control_flow, expression. apply y_skip. intro t. destruct (tk_kind t); try apply y_err; try (apply y_ret; constructor).
  apply y_skip. intros b. destruct b; [apply y_ret; constructor; discriminate|]. eapply y_bind; [apply Hp|]. intros e E. apply y_ret. constructor. intros x [= <-]. exact E.
Qed.
Lemma y_import : yields st import_decl.
Proof.
  unfold import_decl. apply y_skip. intros _. apply y_skip. intros b. apply y_skip. intros m. apply y_skip. intro o. apply y_skip. intro items.
  assert (K : m <> None \/ items <> [] -> yields st (consume TFrom ;;; s <- consume_string ;; path <- process_string s ;; pret (EImportDecl m items path))).
  { intros H. apply y_skip. intros _. apply y_skip. intro s. apply y_skip. intro path. apply y_ret. constructor. exact H. }
  destruct m; [apply K; left; discriminate|]. destruct items; [apply y_err|]. apply K. right. discriminate.
Qed.
Lemma y_binary e : sh e -> yields sh (binary_operator prec e).
Proof.
  intros E. unfold binary_operator. apply y_skip. intro t. destruct (binop_of (tk_kind t)); [|apply y_panic]. apply y_skip. intros _. apply y_skip. intro r.
  destruct (r_infix r) as [[i q]|]; [|apply y_panic]. eapply y_bind; [apply Hp|]. intros x X. apply y_ret. constructor; assumption.
Qed.
Lemma y_grouping : yields sh (grouping prec).
Proof.
  unfold grouping, expression. apply y_skip. intros _. apply y_skip. intro b. destruct b; [apply y_skip; intros _; apply y_ret; constructor|].
  eapply y_bind; [apply Hp|]. intros e E. apply y_skip. intros _. apply y_ret. exact E.
Qed.
Lemma y_call e : sh e -> yields sh (fn_call prec e).
Proof.
  intros E. unfold fn_call, expression. apply y_skip. intro b. destruct b.
  - apply y_skip. intro t. apply y_skip. intro s. apply y_ret. constructor; [exact E|]. intros x [<-|[]]. constructor.
  - apply y_skip. intros _. eapply y_bind; [apply y_comma, Hp|]. intros l L. apply y_ret. constructor; assumption.
Qed.
Lemma y_super : yields sh (super_access prec).
Proof.
  assert (M : yields sh super_method_access).
  { unfold super_method_access. apply y_skip. intro b. apply y_skip. intro c. apply y_skip. intros _. apply y_skip. intro f. apply y_ret. constructor. }
  unfold super_access. apply y_skip. intros _. apply y_skip. intro k. destruct k; try apply y_err; try exact M.
  unfold super_call, expression. apply y_skip. intros _. eapply y_bind; [apply y_comma, Hp|]. intros l L. apply y_ret. constructor. exact L.
Qed.
Lemma y_infix i e c : sh e -> yields sh (run_infix prec seq i e c).
Proof.
  intros E. destruct i; cbn [run_infix].
  - unfold index_access, expression. apply y_skip. intros _. eapply y_bind; [apply Hp|]. intros x X. apply y_skip. intros _.
    apply y_assignment; [constructor; assumption|exact I].
  - unfold field_access. apply y_skip. intros _. apply y_skip. intro f. apply y_assignment; [constructor; assumption|exact I].
  - apply y_call, E.
  - apply y_binary, E.
  - unfold error_coalesce. apply y_skip. intros _. apply y_skip. intro x. eapply y_bind; [apply y_block|]. intros b [B1 B2]. cbv zeta. apply y_ret.
    apply sh_coalesce; assumption.
  - unfold is_operator. apply y_skip. intro t. apply y_ret. constructor. exact E.
Qed.
Lemma y_postfix p e : sh e -> yields sh (run_postfix p e).
Proof. intros E. destruct p; cbn [run_postfix]; unfold null_propagate, error_propagate; apply y_skip; intros _; apply y_ret; constructor; exact E. Qed.
Lemma y_literal : yields sh literal.
Proof.
  unfold literal. apply y_skip. intro t. destruct (tk_kind t); try apply y_err; try (apply y_ret; constructor).
  - eapply (y_bind (fun z => 0 <= z < 2 ^ 63)%Z); [|intros z Z; apply y_ret; constructor; exact Z].
    intros ts z ts'. unfold parse_i64. destruct (tk_slice t) as [|ch r]; [discriminate|].
    destruct (parse_digits 0 (ch :: r)) eqn:D; try discriminate. cbn [omap]. intros [= <- _]. eapply digits_range; [|exact D]. lia.
  - apply y_skip. intro s. apply y_ret. constructor.
Qed.
Lemma y_prefix p c : yields sh (run_prefix prec seq p c).
Proof.
  destruct p; cbn [run_prefix].
  - apply y_literal.
  - unfold variable. apply y_skip. intro t. destruct (tk_kind t); try apply y_err. apply y_assignment; [constructor|exact I].
  - apply y_if.
  - unfold object, property, expression. apply y_skip. intros _. apply y_skip. intros _. eapply y_bind.
    + apply (y_comma (fun p => sh (snd p))). apply y_skip. intro t. apply y_skip. intros _. eapply y_bind; [apply Hp|]. intros e E. apply y_ret. exact E.
    + intros l L. apply y_ret. constructor. exact L.
  - unfold list_literal, expression. apply y_skip. intros _. eapply y_bind; [apply y_comma, Hp|]. intros l L. apply y_ret. constructor. exact L.
  - apply y_super.
  - apply y_grouping.
  - eapply y_weak; [apply y_block|]. intros a [_ H]. exact H.
  - unfold anonymous_fn, expression. apply y_skip. intro args. eapply y_bind; [apply y_check|]. intros u L. eapply y_bind; [apply Hp|]. intros e E. apply y_ret. constructor; assumption.
  - unfold prefix_operator. apply y_skip. intro t. eapply y_bind; [apply Hp|]. intros e E. destruct (tk_kind t); try apply y_panic; apply y_ret; constructor; exact E.
Qed.
Lemma y_operators p f : forall e, sh e -> yields sh (operators_loop prec seq p e f).
Proof.
  induction f as [|f IH]; intros e E; [apply y_none|]. cbn [operators_loop]. apply y_skip. intro t. apply y_skip. intro r. cbv zeta.
  destruct (r_postfix r) as [[po q]|].
  - destruct (prec_gt p q); [apply y_ret, E|]. eapply y_bind; [apply y_postfix, E|]. exact IH.
  - destruct (r_infix r) as [[i q]|]; [|apply y_ret, E]. destruct (prec_gt p q); [apply y_ret, E|]. eapply y_bind; [apply y_infix, E|]. exact IH.
Qed.
Lemma y_precedence p : yields sh (parse_precedence_body prec seq p).
Proof.
  unfold parse_precedence_body. apply y_skip. intro t. apply y_skip. intro r. eapply y_bind.
  - destruct (r_prefix r) as [[pf q]|]; [apply y_prefix|apply y_err].
  - intros e E. apply (y_len _ (operators_loop prec seq p e)). intro n. apply y_operators, E.
Qed.
Lemma y_statement k : yields st (statement prec seq k).
Proof.
  destruct k; cbn [statement]; try (apply y_up, Hp); try apply y_flow; try apply y_class; try apply y_export; try apply y_import.
  all: try (eapply y_weak; [first [apply y_fn | apply y_op | apply y_var]|]; intros a [H _]; exact H).
  all: unfold while_statement, loop_statement, for_statement, expression; go; repeat match goal with H : block _ |- _ => destruct H end;
    apply y_ret; constructor; assumption.
Qed.
Lemma y_statements f : yields (fun r => (forall e, In e (fst r) -> st e) /\ (forall e, snd r = Some e -> st e)) (statements prec seq f).
Proof.
  induction f as [|f IH]; [apply y_none|]. cbn [statements]. apply y_skip. intro k. destruct (ends_block k); [apply y_ret; split; [contradiction|discriminate]|].
  eapply y_bind; [apply y_statement|]. intros e E. apply y_skip. intro k'. destruct (ends_block k').
  - apply y_ret. split; [contradiction|]. intros x [= <-]. exact E.
  - eapply y_bind; [exact IH|]. intros r [R1 R2]. apply y_ret. split; [|exact R2]. intros x [<-|J]; auto.
Qed.
Lemma y_sequence : yields block (expression_sequence_body prec seq).
Proof.
  unfold expression_sequence_body. eapply y_bind; [apply (y_len _ (statements prec seq)), y_statements|]. intros r [R1 R2]. apply y_ret. split; [exact I|].
  constructor; assumption.
Qed.
End Shape.

Lemma parser_shape d : (forall p, yields sh (p_prec (parser d) p)) /\ yields block (p_seq (parser d)).
Proof.
  induction d as [|d [IH1 IH2]]; [split; [intro p|]; apply y_none|]. cbn [parser p_prec p_seq] in *. split.
  - intro p. apply y_precedence; assumption.
  - apply y_sequence; assumption.
Qed.
Lemma parse_shape t e : parse t = Ok e -> is_block e /\ shaped false e.
Proof.
  unfold parse, parse_tokens. destruct (p_seq _ _) as [[x r]| | |] eqn:E; try discriminate. intros [= <-].
  exact (proj2 (parser_shape _) _ _ _ E).
Qed.

#[local] Open Scope string_scope.
Lemma fn_params x args r b : shaped true (EFnDecl x args r b) -> List.length args <= 255.
Proof. intros H. inversion H. assumption. Qed.
Lemma shape_samples :
  omap (fun _ => tt) (parse (chars "export class A : B { fn new(self) { super() } op +(self, x) { 1 } } while a { let {x} = b break } r or e { e }")) = Ok tt /\
  ~ shaped true (EClassDecl "A" [ELitNull] None) /\ ~ shaped false EBreak /\ ~ shaped true (EReturn (Some EBreak)) /\
  ~ shaped true (EImportDecl None [] "m") /\ ~ shaped true (EAssignment AAssign ELitNull ELitNull) /\ ~ shaped true (ELitInt (2 ^ 63)) /\
  ~ shaped true (EFnDecl "f" (repeat (FnArg "a" None) 256) None (EBlock [] None)) /\ ~ shaped true (EExportDecl (EImportDecl None ["a"] "m")).
Proof.
  split; [vm_compute; reflexivity|].
  split; [intros H; inversion H; subst; match goal with K : forall e, In e _ -> _ |- _ => destruct (K ELitNull (or_introl eq_refl)) as [[] _] end|].
  split; [intros H; inversion H|].
  split; [intros H; inversion H; subst; match goal with K : forall e, _ = Some e -> _ |- _ => specialize (K _ eq_refl); inversion K end|].
  split; [intros H; inversion H; subst; match goal with K : _ \/ _ |- _ => destruct K as [K|K]; apply K; reflexivity end|].
  split; [intros H; inversion H; subst; contradiction|].
  split; [intros H; inversion H; subst; lia|].
  split; [|intros H; inversion H; subst; contradiction].
  intros H. apply fn_params in H. rewrite repeat_length in H. lia.
Qed.
