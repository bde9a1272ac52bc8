(** More fuel never changes an answer of the parser. *)
From Coq Require Import Lia.
From Verif.Model Require Import Parser.
From Verif.Proofs Require Import ParserP.
#[local] Open Scope parser_scope.

Definition le_p {A} (m m' : P A) : Prop := forall ts, m ts = NoFuel \/ m' ts = m ts.
Lemma le_refl {A} (m : P A) : le_p m m.
Proof. intro ts. right. reflexivity. Qed.
Lemma le_none {A} (m : P A) : le_p (fun _ => NoFuel) m.
Proof. intro ts. left. reflexivity. Qed.
Lemma le_bind {A B} (m m' : P A) (k k' : A -> P B) : le_p m m' -> (forall a, le_p (k a) (k' a)) -> le_p (pbind m k) (pbind m' k').
Proof.
  intros H K ts. unfold pbind. destruct (H ts) as [E|E].
  - left. rewrite E. reflexivity.
  - rewrite E. destruct (m ts) as [[a r]|e| |]; cbn [obind fst snd]; try (right; reflexivity). apply K.
Qed.
Lemma le_len {A} (f f' : nat -> P A) : (forall n, le_p (f n) (f' n)) -> le_p (fun ts => f (S (List.length ts)) ts) (fun ts => f' (S (List.length ts)) ts).
Proof. intros H ts. apply H. Qed.
Lemma le_items {A} c (it it' : P A) : le_p it it' -> forall f, le_p (items_until c it f) (items_until c it' f).
Proof.
  intros H. induction f as [|f IH]; [apply le_none|]. cbn [items_until]. apply le_bind; [apply le_refl|]. intro k. destruct (kind_eqb k c); [apply le_refl|].
  apply le_bind; [exact H|]. intro x. apply le_bind; [apply le_refl|]. intro k'. apply le_bind; [apply le_refl|]. intros _.
  apply le_bind; [exact IH|]. intro r. apply le_refl.
Qed.
Lemma le_comma {A} c (it it' : P A) : le_p it it' -> le_p (comma_list c it) (comma_list c it').
Proof. intros H ts. unfold comma_list. revert ts. intro ts. apply le_bind; [apply le_items, H|]. intro; apply le_refl. Qed.

Section Le.
Variables (prec prec' : precedence -> P expr) (seq seq' : P expr).
Hypothesis Hp : forall p, le_p (prec p) (prec' p).
Hypothesis Hs : le_p seq seq'.

Ltac st :=
  first [ apply le_refl | apply Hp | exact Hs | apply le_comma
        | apply le_bind; [|let a := fresh "a" in intro a] ].
Ltac go := repeat st.
Lemma le_block : le_p (block_expression seq) (block_expression seq').
Proof. unfold block_expression. go. Qed.
Lemma le_assignment e c : le_p (parse_assignment prec e c) (parse_assignment prec' e c).
Proof. unfold parse_assignment, expression. apply le_bind; [apply le_refl|]. intro k. destruct (assignop_of k); [|apply le_refl]. destruct c; go. Qed.
Ltac go2 := repeat (first [apply le_block | apply le_assignment | st]).
Lemma le_if_chain f : le_p (if_chain prec seq f) (if_chain prec' seq' f).
Proof.
  induction f as [|f IH]; [apply le_none|]. cbn [if_chain]. unfold expression. do 4 (apply le_bind; [first [apply le_refl|apply Hp|apply le_block]|intro]).
  destruct a2; [|apply le_refl]. apply le_bind; [apply le_refl|]. intros _. apply le_bind; [apply le_refl|]. intro k.
  destruct k; try apply le_refl; (apply le_bind; [first [exact IH|apply le_block]|intro; apply le_refl]).
Qed.
Lemma le_if : le_p (if_expression prec seq) (if_expression prec' seq').
Proof. unfold if_expression. apply (le_len (if_chain prec seq) (if_chain prec' seq')). apply le_if_chain. Qed.
Lemma le_fn : le_p (fn_decl seq) (fn_decl seq').
Proof. unfold fn_decl. go2. Qed.
Lemma le_op : le_p (op_decl seq) (op_decl seq').
Proof. unfold op_decl. do 2 (apply le_bind; [apply le_refl|intro]). destruct (overop_of (tk_kind a0)); [go2|apply le_refl]. Qed.
Lemma le_class_items f : le_p (class_items seq f) (class_items seq' f).
Proof.
  induction f as [|f IH]; [apply le_none|]. cbn [class_items]. apply le_bind; [apply le_refl|]. intro k.
  destruct k; try apply le_refl; (apply le_bind; [first [apply le_fn|apply le_op]|intro]); (apply le_bind; [exact IH|intro; apply le_refl]).
Qed.
Lemma le_class : le_p (class_decl prec seq) (class_decl prec' seq').
Proof.
  unfold class_decl, expression. do 3 (apply le_bind; [apply le_refl|intro]). apply le_bind; [destruct a1; go2|intro].
  apply le_bind; [apply le_refl|intro]. apply le_bind; [apply (le_len (class_items seq) (class_items seq')), le_class_items|intro]. apply le_refl.
Qed.
Lemma le_var : le_p (var_decl prec) (var_decl prec').
Proof. unfold var_decl, expression. go2. Qed.
Lemma le_export : le_p (export_decl prec seq) (export_decl prec' seq').
Proof.
  unfold export_decl. do 2 (apply le_bind; [apply le_refl|intro]). apply le_bind; [|intro; apply le_refl].
  destruct (tk_kind a0); first [apply le_refl|apply le_fn|apply le_var|apply le_class].
Qed.
Lemma le_flow : le_p (control_flow prec) (control_flow prec').
Proof.
  unfold control_flow, expression. apply le_bind; [apply le_refl|intro]. destruct (tk_kind a); try apply le_refl.
  apply le_bind; [apply le_refl|intro]. destruct a0; go2.
Qed.
Lemma le_binary e : le_p (binary_operator prec e) (binary_operator prec' e).
Proof.
  unfold binary_operator. apply le_bind; [apply le_refl|intro]. destruct (binop_of (tk_kind a)); [|apply le_refl].
  do 2 (apply le_bind; [apply le_refl|intro]). destruct (r_infix a1) as [[i q]|]; [go2|apply le_refl].
Qed.
Lemma le_grouping : le_p (grouping prec) (grouping prec').
Proof. unfold grouping, expression. do 2 (apply le_bind; [apply le_refl|intro]). destruct a0; go2. Qed.
Lemma le_call e : le_p (fn_call prec e) (fn_call prec' e).
Proof. unfold fn_call, expression. apply le_bind; [apply le_refl|intro]. destruct a; go2. Qed.
Lemma le_super : le_p (super_access prec) (super_access prec').
Proof. unfold super_access. do 2 (apply le_bind; [apply le_refl|intro]). destruct a0; try apply le_refl. unfold super_call, expression. go2. Qed.
Lemma le_infix i e c : le_p (run_infix prec seq i e c) (run_infix prec' seq' i e c).
Proof.
  destruct i; cbn [run_infix].
  - unfold index_access, expression. go2.
  - unfold field_access. go2.
  - apply le_call.
  - apply le_binary.
  - unfold error_coalesce. go2.
  - apply le_refl.
Qed.
Lemma le_prefix p c : le_p (run_prefix prec seq p c) (run_prefix prec' seq' p c).
Proof.
  destruct p; cbn [run_prefix].
  - apply le_refl.
  - unfold variable. apply le_bind; [apply le_refl|intro]. destruct (tk_kind a); first [apply le_refl|apply le_assignment].
  - apply le_if.
  - unfold object, property, expression. go2.
  - unfold list_literal, expression. go2.
  - apply le_super.
  - apply le_grouping.
  - apply le_block.
  - unfold anonymous_fn, expression. go2.
  - unfold prefix_operator. go2.
Qed.
Lemma le_operators p f : forall e, le_p (operators_loop prec seq p e f) (operators_loop prec' seq' p e f).
Proof.
  induction f as [|f IH]; intro e; [apply le_none|]. cbn [operators_loop]. do 2 (apply le_bind; [apply le_refl|intro]). cbv zeta.
  destruct (r_postfix a0) as [[po q]|].
  - destruct (prec_gt p q); [apply le_refl|]. apply le_bind; [apply le_refl|intro; apply IH].
  - destruct (r_infix a0) as [[i q]|]; [|apply le_refl]. destruct (prec_gt p q); [apply le_refl|]. apply le_bind; [apply le_infix|intro; apply IH].
Qed.
Lemma le_precedence p : le_p (parse_precedence_body prec seq p) (parse_precedence_body prec' seq' p).
Proof.
  unfold parse_precedence_body. do 2 (apply le_bind; [apply le_refl|intro]). apply le_bind; [destruct (r_prefix a0) as [[pf q]|]; [apply le_prefix|apply le_refl]|intro].
  apply (le_len (operators_loop prec seq p a1) (operators_loop prec' seq' p a1)). intro n. apply le_operators.
Qed.
Lemma le_statement k : le_p (statement prec seq k) (statement prec' seq' k).
Proof.
  destruct k; cbn [statement]; try apply Hp; try apply le_refl; try apply le_flow; try apply le_var; try apply le_fn; try apply le_op; try apply le_class; try apply le_export.
  - unfold while_statement, expression. go2.
  - unfold loop_statement. go2.
  - unfold for_statement, expression. go2.
Qed.
Lemma le_statements f : le_p (statements prec seq f) (statements prec' seq' f).
Proof.
  induction f as [|f IH]; [apply le_none|]. cbn [statements]. apply le_bind; [apply le_refl|intro k]. destruct (ends_block k); [apply le_refl|].
  apply le_bind; [apply le_statement|intro e]. apply le_bind; [apply le_refl|intro k']. destruct (ends_block k'); [apply le_refl|].
  apply le_bind; [exact IH|intro; apply le_refl].
Qed.
Lemma le_sequence : le_p (expression_sequence_body prec seq) (expression_sequence_body prec' seq').
Proof.
  unfold expression_sequence_body. apply le_bind; [|intro; apply le_refl]. apply (le_len (statements prec seq) (statements prec' seq')). apply le_statements.
Qed.
End Le.

Lemma parser_step d : (forall p, le_p (p_prec (parser d) p) (p_prec (parser (S d)) p)) /\ le_p (p_seq (parser d)) (p_seq (parser (S d))).
Proof.
  induction d as [|d [IH1 IH2]]; [split; [intro p|]; apply le_none|]. cbn [parser p_prec p_seq] in *. split.
  - intro p. apply le_precedence; assumption.
  - apply le_sequence; assumption.
Qed.
Lemma parser_more d d' : d <= d' -> (forall p, le_p (p_prec (parser d) p) (p_prec (parser d') p)) /\ le_p (p_seq (parser d)) (p_seq (parser d')).
Proof.
  induction 1 as [|d' H [IH1 IH2]]; [split; [intro p|]; apply le_refl|]. destruct (parser_step d') as [S1 S2]. split.
  - intros p ts. destruct (IH1 p ts) as [E|E]; [left; exact E|]. destruct (S1 p ts) as [E'|E']; [left; congruence|right; congruence].
  - intros ts. destruct (IH2 ts) as [E|E]; [left; exact E|]. destruct (S2 ts) as [E'|E']; [left; congruence|right; congruence].
Qed.
Lemma enough_fuel d ts : 2 + 2 * List.length ts <= d -> p_seq (parser d) ts = parse_tokens ts.
Proof.
  intro H. destruct (proj2 (parser_more _ _ H) ts) as [E|E]; [|exact E].
  generalize (parse_tokens_fine ts). unfold parse_tokens. rewrite E. intros [].
Qed.
(** Any answer found with some fuel is the answer. *)
Lemma any_answer d ts r : p_seq (parser d) ts = r -> r <> NoFuel -> parse_tokens ts = r.
Proof.
  intros E N. rewrite <- (enough_fuel (Nat.max d (2 + 2 * List.length ts)) ts) by lia.
  destruct (proj2 (parser_more d (Nat.max d (2 + 2 * List.length ts)) ltac:(lia)) ts) as [E'|E']; congruence.
Qed.
