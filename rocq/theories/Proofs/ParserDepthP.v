(** A successful parse consumes as many opening as closing braces, and stops at the end of the input or
    at a closing brace. *)
From Coq Require Import Lia ZArith.
From Verif.Model Require Import Parser.
From Verif.Spec Require Import ParseSpec.
From Verif.Proofs Require Import ParserP.
#[local] Open Scope parser_scope.
#[local] Open Scope Z_scope.

Definition kept {A} (ts : list token) (n : Z) (o : outcome (A * list token)) : Prop :=
  match o with Ok (_, ts') => depth ts = depth ts' + n | _ => True end.
Definition keep {A} (n : Z) (m : P A) : Prop := forall ts, kept ts n (m ts).
(** The same, when the next token is [t]. *)
Definition keepat {A} (t : token) (n : Z) (m : P A) : Prop := forall ts, sees t ts -> kept ts n (m ts).
Lemma keep_at {A} t n (m : P A) : keep n m -> keepat t n m.
Proof. intros H ts _. apply H. Qed.
Lemma kept_bind {A B} ts a b (m : P A) (k : A -> P B) : kept ts a (m ts) -> (forall x, keep b (k x)) -> kept ts (a + b) (pbind m k ts).
Proof.
  intros H K. unfold pbind. destruct (m ts) as [[x r]|e| |]; cbn [obind fst snd kept] in *; auto.
  specialize (K x r). destruct (k x r) as [[y r']|e| |]; cbn [kept] in *; auto. lia.
Qed.
Lemma keep_bind {A B} a b n (m : P A) (k : A -> P B) : keep a m -> (forall x, keep b (k x)) -> n = a + b -> keep n (pbind m k).
Proof. intros H K -> ts. apply kept_bind; auto. Qed.
Lemma keepat_bind {A B} t a b n (m : P A) (k : A -> P B) : keepat t a m -> (forall x, keep b (k x)) -> n = a + b -> keepat t n (pbind m k).
Proof. intros H K -> ts S. apply kept_bind; auto. Qed.
Lemma keep_ret {A} (a : A) n : n = 0 -> keep n (pret a).
Proof. intros -> ts. cbn. lia. Qed.
Lemma keep_err {A} e n : keep (A := A) n (perr e).
Proof. intro ts. exact I. Qed.
Lemma keep_panic {A} n : keep (A := A) n ppanic.
Proof. intro ts. exact I. Qed.
Lemma sees_depth t ts : sees t ts -> depth ts = curl (tk_kind t) + depth (tl ts).
Proof. intros [[-> ->]|(r & -> & _)]; reflexivity. Qed.
Lemma peek_cases ts : (exists t, sees t ts /\ peek ts = Ok (t, ts) /\ next ts = Ok (t, tl ts)) \/ (exists e, peek ts = Err e /\ next ts = Err e).
Proof.
  unfold peek, next, item. destruct ts as [|t r].
  - left. exists end_of_input. split; [left; split; reflexivity|split; reflexivity].
  - destruct (tk_error t) as [e|] eqn:E; [right; exists e; split; reflexivity|]. left. exists t. split; [right; exists r; split; [reflexivity|exact E]|split; reflexivity].
Qed.
Lemma sees_same t t' ts : sees t ts -> sees t' ts -> t = t'.
Proof. intros [[-> ->]|(x & -> & _)] [[H ->]|(y & H & _)]; congruence. Qed.
Lemma keep_next {B} n (k : token -> P B) : (forall t, keep (n - curl (tk_kind t)) (k t)) -> keep n (pbind next k).
Proof.
  intros H ts. unfold pbind. destruct (peek_cases ts) as [(t & S & _ & E)|(e & _ & E)]; rewrite E; [|exact I]. cbn [obind fst snd].
  specialize (H t (tl ts)). unfold kept in *. destruct (k t (tl ts)) as [[x r]|e| |]; auto. rewrite (sees_depth t ts S). lia.
Qed.
Lemma keepat_next {B} t n (k : token -> P B) : keep (n - curl (tk_kind t)) (k t) -> keepat t n (pbind next k).
Proof.
  intros H ts S0. unfold pbind. destruct (peek_cases ts) as [(t' & S & _ & E)|(e & _ & E)]; rewrite E; [|exact I]. cbn [obind fst snd].
  rewrite <- (sees_same _ _ _ S0 S). specialize (H (tl ts)). unfold kept in *. destruct (k t (tl ts)) as [[x r]|e| |]; auto. rewrite (sees_depth t ts S0). lia.
Qed.
Lemma keep_peek {B} n (k : token -> P B) : (forall t, keepat t n (k t)) -> keep n (pbind peek k).
Proof.
  intros H ts. unfold pbind. destruct (peek_cases ts) as [(t & S & E & _)|(e & E & _)]; rewrite E; [|exact I]. apply (H t ts S).
Qed.
Lemma keepat_peek {B} t n (k : token -> P B) : keepat t n (k t) -> keepat t n (pbind peek k).
Proof.
  intros H ts S0. unfold pbind. destruct (peek_cases ts) as [(t' & S & E & _)|(e & E & _)]; rewrite E; [|exact I]. cbn [obind fst snd].
  rewrite <- (sees_same _ _ _ S0 S). apply H, S0.
Qed.
Lemma bind_assoc {A B C} (m : P A) (f : A -> P B) (g : B -> P C) ts : pbind (pbind m f) g ts = pbind m (fun a => pbind (f a) g) ts.
Proof. unfold pbind. destruct (m ts) as [[a r]|e| |]; reflexivity. Qed.
Lemma keep_ext {A} n (m m' : P A) : (forall ts, m ts = m' ts) -> keep n m' -> keep n m.
Proof. intros E H ts. rewrite E. apply H. Qed.
Lemma keepat_ext {A} t n (m m' : P A) : (forall ts, m ts = m' ts) -> keepat t n m' -> keepat t n m.
Proof. intros E H ts S. rewrite E. apply H, S. Qed.
Lemma keep_kind {B} n (k : token_kind -> P B) : (forall t, keepat t n (k (tk_kind t))) -> keep n (pbind peek_kind k).
Proof. intro H. eapply keep_ext; [intro ts; apply bind_assoc|]. apply keep_peek. intro t. exact (H t). Qed.
Lemma keepat_kind {B} t n (k : token_kind -> P B) : keepat t n (k (tk_kind t)) -> keepat t n (pbind peek_kind k).
Proof. intro H. eapply keepat_ext; [intro ts; apply bind_assoc|]. apply keepat_peek. exact H. Qed.
Lemma keep_is {B} n q (k : bool -> P B) : (forall t, keepat t n (k (kind_eqb (tk_kind t) q))) -> keep n (pbind (is_kind q) k).
Proof. intro H. eapply keep_ext; [intro ts; apply bind_assoc|]. apply keep_kind. intro t. exact (H t). Qed.
Lemma keepat_is {B} t n q (k : bool -> P B) : keepat t n (k (kind_eqb (tk_kind t) q)) -> keepat t n (pbind (is_kind q) k).
Proof. intro H. eapply keepat_ext; [intro ts; apply bind_assoc|]. apply keepat_kind. exact H. Qed.
Lemma keep_one_of ks n : (forall k, In k ks -> curl k = n) -> keep n (consume_one_of ks).
Proof.
  intro H. unfold consume_one_of. apply keep_next. intro t. destruct (existsb (kind_eqb (tk_kind t)) ks) eqn:E; [|apply keep_err].
  apply existsb_exists in E as (k & Hk & E). apply kind_eqb_eq in E. apply keep_ret. rewrite E, (H k Hk). lia.
Qed.
Lemma keep_consume k : keep (curl k) (consume k).
Proof. apply keep_one_of. intros k' [<-|[]]. reflexivity. Qed.
Lemma keep_ident : keep 0 consume_ident.
Proof. eapply keep_bind; [apply keep_consume|intro; apply keep_ret; reflexivity|reflexivity]. Qed.
Lemma keep_string : keep 0 consume_string.
Proof. eapply keep_bind; [apply keep_consume|intro; apply keep_ret; reflexivity|reflexivity]. Qed.
Lemma keep_process s : keep 0 (process_string s).
Proof. unfold process_string. cbv zeta. destruct (String.length s <? 2)%nat; [apply keep_panic|apply keep_ret; reflexivity]. Qed.
Lemma keep_then {B} k n (f : token -> P B) : (forall t, keep (n - curl k) (f t)) -> keep n (pbind (consume k) f).
Proof. intro H. eapply keep_bind; [apply keep_consume|exact H|lia]. Qed.
Lemma keep_then0 {A B} n (m : P A) (f : A -> P B) : keep 0 m -> (forall x, keep n (f x)) -> keep n (pbind m f).
Proof. intros H K. eapply keep_bind; [exact H|exact K|lia]. Qed.
Lemma keepat_then0 {A B} t n (m : P A) (f : A -> P B) : keepat t 0 m -> (forall x, keep n (f x)) -> keepat t n (pbind m f).
Proof. intros H K. eapply keepat_bind; [exact H|exact K|lia]. Qed.
(** "take the next token if it is of this kind", for kinds that are not braces. *)
Lemma keepat_opt t (q : token_kind) : curl q = 0 -> keepat t 0 (if kind_eqb (tk_kind t) q then next ;;; pret tt else pret tt).
Proof.
  intro Hq. destruct (kind_eqb (tk_kind t) q) eqn:E; [|apply keep_at, keep_ret; reflexivity].
  apply kind_eqb_eq in E. apply keepat_next. rewrite E, Hq. apply keep_ret. reflexivity.
Qed.
Lemma keep_items {A} c (it : P A) : keep 0 it -> curl c = 0 \/ curl c = -1 -> forall f, keep 0 (items_until c it f).
Proof.
  intros H Hc. induction f as [|f IH]; [intro ts; exact I|]. cbn [items_until]. apply keep_kind. intro t. apply keep_at.
  destruct (kind_eqb (tk_kind t) c); [apply keep_ret; reflexivity|]. apply keep_then0; [exact H|]. intro x. apply keep_kind. intro t'.
  apply keepat_then0; [|intros _; apply keep_then0; [exact IH|intro; apply keep_ret; reflexivity]].
  destruct (kind_eqb (tk_kind t') TComma) eqn:E.
  - apply kind_eqb_eq in E. apply keepat_next. rewrite E. apply keep_ret. reflexivity.
  - destruct (kind_eqb (tk_kind t') c); apply keep_at; [apply keep_ret; reflexivity|apply keep_err].
Qed.
Lemma keep_comma {A} c (it : P A) : keep 0 it -> curl c = 0 \/ curl c = -1 -> keep (curl c) (comma_list c it).
Proof.
  intros H Hc ts. unfold comma_list. replace (curl c) with (0 + curl c) by lia. apply kept_bind; [apply (keep_items c it H Hc)|].
  intro l. apply keep_then. intro. apply keep_ret. lia.
Qed.
Lemma keep_annotation k : curl k = 0 -> keep 0 (parse_type_annotation k).
Proof.
  intro Hk. unfold parse_type_annotation. apply keep_then. intros _. rewrite Hk. apply keep_then0; [apply keep_ident|]. intro x.
  apply keep_is. intro t. apply keepat_then0; [apply keepat_opt; reflexivity|]. intros _. apply keep_ret. reflexivity.
Qed.
Lemma keep_return : keep 0 parse_return.
Proof.
  unfold parse_return. apply keep_is. intro t. apply keep_at. destruct (kind_eqb (tk_kind t) TArrow); [|apply keep_ret; reflexivity].
  apply keep_then0; [apply keep_annotation; reflexivity|intro; apply keep_ret; reflexivity].
Qed.
Lemma keep_arg : keep 0 parse_arg.
Proof.
  unfold parse_arg. apply keep_then0; [apply keep_ident|]. intro x. apply keep_is. intro t. apply keep_at. apply keep_then0; [|intro; apply keep_ret; reflexivity].
  destruct (kind_eqb (tk_kind t) TColon); [|apply keep_ret; reflexivity].
  apply keep_then0; [apply keep_annotation; reflexivity|intro; apply keep_ret; reflexivity].
Qed.
Lemma keep_args o c : curl o = 0 -> curl c = 0 -> keep 0 (parse_args o c).
Proof. intros Ho Hc. unfold parse_args. apply keep_then. intros _. rewrite Ho. change (0 - 0) with 0. rewrite <- Hc at 1. apply keep_comma; [apply keep_arg|left; exact Hc]. Qed.
Lemma keep_fields : keep 0 (parse_fields TLeftCurly TRightCurly).
Proof. unfold parse_fields. apply keep_then. intros _. apply (keep_comma TRightCurly); [apply keep_ident|right; reflexivity]. Qed.
Lemma keep_check l : keep 0 (check_args l).
Proof. unfold check_args. destruct (255 <? List.length l)%nat; [apply keep_err|apply keep_ret; reflexivity]. Qed.

Section Keep.
Variable prec : precedence -> P expr.
Variable seq : P expr.
Hypothesis Hp : forall p, keep 0 (prec p).
Hypothesis Hq : keep 0 seq.

Ltac ret := apply keep_ret; reflexivity.
Lemma k_block : keep 0 (block_expression seq).
Proof. unfold block_expression. apply keep_then. intros _. eapply keep_bind; [exact Hq| |reflexivity]. intro e. apply keep_then. intros _. ret. Qed.
Ltac st := first
  [ ret | apply keep_err | apply keep_panic | apply Hp | apply k_block | apply keep_ident | apply keep_string | apply keep_process | apply keep_check | apply keep_return
  | apply keep_args; reflexivity | apply keep_fields | apply keep_annotation; reflexivity
  | apply keep_then; intro; change (0 - curl _) with 0; cbn [curl]
  | apply keep_then0; [|intro] ].
Ltac go := repeat st.
Lemma k_assignment e c : keep 0 (parse_assignment prec e c).
Proof.
  unfold parse_assignment, expression. apply keep_kind. intro t. destruct (assignop_of (tk_kind t)) as [o|] eqn:E; [|apply keep_at; ret].
  destruct c; [|apply keep_at; ret]. apply keepat_next. assert (Z0 : curl (tk_kind t) = 0) by (destruct (tk_kind t); try reflexivity; discriminate E).
  rewrite Z0. go.
Qed.
Lemma k_if_chain f : keep 0 (if_chain prec seq f).
Proof.
  induction f as [|f IH]; [intro ts; exact I|]. cbn [if_chain]. unfold expression. apply keep_then; intros _. apply keep_then0; [apply Hp|intro c].
  apply keep_then0; [apply k_block|intro b]. apply keep_is. intro t. destruct (kind_eqb (tk_kind t) TElse) eqn:E; [|apply keep_at; ret].
  apply kind_eqb_eq in E. apply keepat_next. rewrite E. apply keep_kind. intro t'. apply keep_at. destruct (tk_kind t'); try ret; go. apply IH.
Qed.
Lemma k_if : keep 0 (if_expression prec seq).
Proof. intro ts. apply k_if_chain. Qed.
Lemma k_fn : keep 0 (fn_decl seq).
Proof. unfold fn_decl. go. Qed.
Lemma k_op : keep 0 (op_decl seq).
Proof.
  unfold op_decl. apply keep_then; intros _. apply keep_next. intro t. destruct (overop_of (tk_kind t)) eqn:E; [|apply keep_err].
  assert (Z0 : curl (tk_kind t) = 0) by (destruct (tk_kind t); try reflexivity; discriminate E). rewrite Z0. change (0 - curl TOperator - 0) with 0. go.
Qed.
Lemma k_class_items f : keep 0 (class_items seq f).
Proof.
  induction f as [|f IH]; [intro ts; exact I|]. cbn [class_items]. apply keep_kind. intro t. apply keep_at.
  destruct (tk_kind t); try ret; try apply keep_err; (apply keep_then0; [first [apply k_fn|apply k_op]|intro; apply keep_then0; [exact IH|intro; ret]]).
Qed.
Lemma k_class : keep 0 (class_decl prec seq).
Proof.
  unfold class_decl, expression. apply keep_then; intros _. apply keep_then0; [apply keep_ident|intro x]. apply keep_is. intro t.
  apply keepat_then0.
  - destruct (kind_eqb (tk_kind t) TColon) eqn:E; [|apply keep_at; ret]. apply kind_eqb_eq in E. apply keepat_next. rewrite E. go.
  - intro b. apply keep_then; intros _. apply (keep_bind 0 (-1)); [intro ts; apply k_class_items| |reflexivity]. intro l. apply keep_then; intros _. ret.
Qed.
Lemma k_var : keep 0 (var_decl prec).
Proof.
  unfold var_decl, expression. apply keep_then; intros _. apply keep_is. intro t. apply keepat_then0; [apply keepat_opt; reflexivity|]. intros _.
  apply keep_peek. intro t'. apply keepat_then0; [|intro; go].
  destruct (tk_kind t') eqn:E; try (apply keep_at; apply keep_err).
  - apply keep_at. go.
  - apply keepat_next. rewrite E. ret.
Qed.
Lemma k_export : keep 0 (export_decl prec seq).
Proof.
  unfold export_decl. apply keep_then; intros _. apply keep_peek. intro t. apply keep_at. apply keep_then0; [|intro; ret].
  destruct (tk_kind t); first [apply keep_err|apply k_fn|apply k_var|apply k_class|ret].
Qed.
Lemma k_flow : keep 0 (control_flow prec).
Proof.
  unfold control_flow, expression. apply keep_next. intro t. destruct (tk_kind t) eqn:E; try apply keep_err; change (0 - curl _) with 0; try ret.
  apply keep_is. intro t'. apply keep_at. destruct (kind_eqb (tk_kind t') TRightCurly); go.
Qed.
Lemma k_import : keep 0 import_decl.
Proof.
  unfold import_decl. apply keep_then; intros _. apply keep_is. intro t. apply keepat_then0.
  - destruct (kind_eqb (tk_kind t) TStar) eqn:E; [|apply keep_at; ret]. apply kind_eqb_eq in E. apply keepat_next. rewrite E.
    apply keep_then; intros _. apply keep_then0; [apply keep_ident|intro x]. apply keep_is. intro t'. apply keepat_then0; [apply keepat_opt; reflexivity|]. intros _. ret.
  - intro m. apply keep_is. intro t'. apply keep_at. apply keep_then0.
    + destruct (kind_eqb (tk_kind t') TLeftCurly); go.
    + intro l. assert (R : keep 0 (consume TFrom ;;; s <- consume_string ;; path <- process_string s ;; pret (EImportDecl m l path))) by go.
      destruct m, l; try exact R; apply keep_err.
Qed.
Lemma k_binary e : keep 0 (binary_operator prec e).
Proof.
  unfold binary_operator. apply keep_next. intro t. destruct (binop_of (tk_kind t)) as [o|] eqn:E; [|apply keep_panic].
  assert (Z0 : curl (tk_kind t) = 0) by (destruct (tk_kind t); try reflexivity; discriminate E). rewrite Z0. change (0 - 0) with 0.
  apply keep_then0; [destruct (kind_eqb (tk_kind t) TPipe); go|intros _]. apply keep_then0; [unfold for_token; destruct (rule_for (tk_kind t)); go|].
  intro r. destruct (r_infix r) as [[i q]|]; go.
Qed.
Lemma k_call e : keep 0 (fn_call prec e).
Proof.
  unfold fn_call, expression. apply keep_is. intro t. destruct (kind_eqb (tk_kind t) TBackslashArg) eqn:E.
  - apply kind_eqb_eq in E. apply keepat_next. rewrite E. go.
  - apply keep_at. apply keep_then; intros _. apply keep_then0; [apply (keep_comma TRightParen); [apply Hp|left; reflexivity]|intro; ret].
Qed.
Lemma k_super : keep 0 (super_access prec).
Proof.
  unfold super_access. apply keep_then; intros _. apply keep_kind. intro t. apply keep_at.
  assert (R : keep 0 super_method_access).
  { unfold super_method_access. apply keep_is. intro t'. apply keepat_then0.
    - destruct (kind_eqb (tk_kind t') TLeftSquare) eqn:E; [|apply keep_at; ret]. apply kind_eqb_eq in E. apply keepat_next. rewrite E. go.
    - intro c. go. }
  destruct (tk_kind t); first [exact R|apply keep_err|idtac]. unfold super_call, expression. apply keep_then; intros _.
  apply keep_then0; [apply (keep_comma TRightParen); [apply Hp|left; reflexivity]|intro; ret].
Qed.
Lemma k_infix i e c : keep 0 (run_infix prec seq i e c).
Proof.
  destruct i; cbn [run_infix].
  - unfold index_access, expression. apply keep_then; intros _. apply keep_then0; [apply Hp|intro]. apply keep_then; intros _. apply k_assignment.
  - unfold field_access. apply keep_then; intros _. apply keep_then0; [apply keep_ident|intro]. apply k_assignment.
  - apply k_call.
  - apply k_binary.
  - unfold error_coalesce. go.
  - unfold is_operator. go.
Qed.
Lemma k_prefix p c : keep 0 (run_prefix prec seq p c).
Proof.
  destruct p; cbn [run_prefix].
  - unfold literal. apply keep_next. intro t. destruct (tk_kind t); try apply keep_err; change (0 - curl _) with 0; try ret; [|go].
    apply keep_then0; [intro ts; destruct (parse_i64 (tk_slice t)); cbn; try exact I; lia|intro; ret].
  - unfold variable. apply keep_next. intro t. destruct (tk_kind t); try apply keep_err. apply k_assignment.
  - apply k_if.
  - unfold object, property, expression. apply keep_then; intros _. apply keep_then; intros _. apply (keep_bind (-1) 0); [|intro; ret|reflexivity].
    apply (keep_comma TRightCurly); [|right; reflexivity]. apply (keep_bind 0 0); [apply keep_one_of; cbn [In]; intros k Hk; repeat destruct Hk as [<-|Hk]; reflexivity || destruct Hk| |reflexivity]. intro t. go.
  - unfold list_literal, expression. apply keep_then; intros _. apply keep_then0; [apply (keep_comma TRightSquare); [apply Hp|left; reflexivity]|intro; ret].
  - apply k_super.
  - unfold grouping, expression. apply keep_then; intros _. apply keep_is. intro t. destruct (kind_eqb (tk_kind t) TRightParen) eqn:E; [|apply keep_at; go].
    apply kind_eqb_eq in E. apply keepat_next. rewrite E. ret.
  - apply k_block.
  - unfold anonymous_fn, expression. go.
  - unfold prefix_operator. apply keep_next. intro t. destruct (tk_kind t) eqn:E;
      try (apply (keep_bind 0 (0 - curl (tk_kind t))); [apply Hp|intro; rewrite E; apply keep_panic|rewrite E; reflexivity]); change (0 - curl _) with 0; go;
      try (eapply keep_bind; [apply Hp|intro; apply keep_panic|]; cbn [curl]; rewrite Z.add_0_l; reflexivity).
Qed.
Lemma k_operators p f : forall e, keep 0 (operators_loop prec seq p e f).
Proof.
  induction f as [|f IH]; intro e; [intro ts; exact I|]. cbn [operators_loop]. apply keep_peek. intro t. apply keep_at. apply keep_then0; [unfold for_token; destruct (rule_for (tk_kind t)); go|].
  intro r. cbv zeta. destruct (r_postfix r) as [[po q]|].
  - destruct (prec_gt p q); [ret|]. apply keep_then0; [destruct po; cbn [run_postfix]; unfold null_propagate, error_propagate; go|intro; apply IH].
  - destruct (r_infix r) as [[i q]|]; [|ret]. destruct (prec_gt p q); [ret|]. apply keep_then0; [apply k_infix|intro; apply IH].
Qed.
Lemma k_precedence p : keep 0 (parse_precedence_body prec seq p).
Proof.
  unfold parse_precedence_body. apply keep_peek. intro t. apply keep_at. apply keep_then0; [unfold for_token; destruct (rule_for (tk_kind t)); go|intro r].
  apply keep_then0; [destruct (r_prefix r) as [[pf q]|]; [apply k_prefix|apply keep_err]|intro e]. intro ts. apply k_operators.
Qed.
Lemma k_statement k : keep 0 (statement prec seq k).
Proof.
  destruct k; cbn [statement]; try apply Hp; try apply k_flow; try apply k_var; try apply k_fn; try apply k_op; try apply k_class; try apply k_import; try apply k_export.
  - unfold while_statement, expression. go.
  - unfold loop_statement. go.
  - unfold for_statement, expression. go.
Qed.
Lemma k_statements f : keep 0 (statements prec seq f).
Proof.
  induction f as [|f IH]; [intro ts; exact I|]. cbn [statements]. apply keep_kind. intro t. apply keep_at. destruct (ends_block (tk_kind t)); [ret|].
  apply keep_then0; [apply k_statement|intro e]. apply keep_kind. intro t'. apply keep_at. destruct (ends_block (tk_kind t')); [ret|].
  apply keep_then0; [exact IH|intro; ret].
Qed.
Lemma k_sequence : keep 0 (expression_sequence_body prec seq).
Proof. unfold expression_sequence_body. apply keep_then0; [intro ts; apply k_statements|intro; ret]. Qed.
End Keep.
Lemma parser_keep d : (forall p, keep 0 (p_prec (parser d) p)) /\ keep 0 (p_seq (parser d)).
Proof.
  induction d as [|d [IH1 IH2]]; [split; [intro p|]; intro ts; exact I|]. cbn [parser p_prec p_seq]. split.
  - intro p. apply k_precedence; assumption.
  - apply k_sequence; assumption.
Qed.

(** Where a sequence stops. *)
Definition stopped (ts : list token) : Prop := ts = [] \/ exists t r, ts = t :: r /\ ends_block (tk_kind t) = true.
Lemma statements_stop prec seq f : forall ts r ts', statements prec seq f ts = Ok (r, ts') -> stopped ts'.
Proof.
  assert (HS : forall t ts, sees t ts -> ends_block (tk_kind t) = true -> stopped ts).
  { intros t ts [[-> _]|(r & -> & _)] H; [left; reflexivity|right; exists t, r; split; [reflexivity|exact H]]. }
  induction f as [|f IH]; intros ts r ts' E; [discriminate E|]. cbn [statements] in E. unfold pbind in E at 1.
  unfold peek_kind, pbind in E. destruct (peek_cases ts) as [(t & S & Ep & _)|(e & Ep & _)]; rewrite Ep in E; cbn [obind fst snd pret] in E; [|discriminate E].
  destruct (ends_block (tk_kind t)) eqn:Eb.
  { injection E as <- <-. exact (HS t ts S Eb). }
  destruct (statement prec seq (tk_kind t) ts) as [[x ts1]|e| |]; cbn [obind fst snd] in E; try discriminate E.
  destruct (peek_cases ts1) as [(t1 & S1 & Ep1 & _)|(e & Ep1 & _)]; rewrite Ep1 in E; cbn [obind fst snd pret] in E; [|discriminate E].
  destruct (ends_block (tk_kind t1)) eqn:Eb1.
  { injection E as <- <-. exact (HS t1 ts1 S1 Eb1). }
  destruct (statements prec seq f ts1) as [[y ts2]|e| |] eqn:E2; cbn [obind fst snd pret] in E; try discriminate E.
  injection E as <- <-. exact (IH _ _ _ E2).
Qed.
Lemma parse_tokens_stop ts e rest : parse_tokens ts = Ok (e, rest) -> stopped rest.
Proof.
  unfold parse_tokens. cbn [Nat.add parser p_seq]. unfold expression_sequence_body, pbind at 1. intro E.
  destruct (statements _ _ _ ts) as [[r ts1]|x| |] eqn:E1; cbn [obind fst snd pret] in E; try discriminate E. injection E as <- <-.
  exact (statements_stop _ _ _ _ _ _ E1).
Qed.
Lemma depth_app a b : depth (a ++ b) = depth a + depth b.
Proof. induction a as [|t a IH]; cbn [app depth]; lia. Qed.
Lemma parse_tokens_prefix ts e rest : parse_tokens ts = Ok (e, rest) -> exists used, ts = used ++ rest /\ depth used = 0.
Proof.
  intro E. generalize (parse_tokens_fine ts). rewrite E. intros [(used & ->) _]. exists used. split; [reflexivity|].
  generalize (proj2 (parser_keep (2 + 2 * List.length (used ++ rest))) (used ++ rest)). unfold parse_tokens in E. rewrite E. cbn [kept].
  rewrite depth_app. lia.
Qed.
(** When every closing brace closes an opening one, nothing is left. *)
Lemma parse_tokens_all ts e rest : (forall t, In t ts -> tk_kind t <> TEndOfInput) -> braces_match ts -> parse_tokens ts = Ok (e, rest) -> rest = [].
Proof.
  intros N B E. destruct (parse_tokens_prefix _ _ _ E) as (used & -> & D). destruct (parse_tokens_stop _ _ _ E) as [->|(t & r & -> & Hb)]; [reflexivity|].
  exfalso. assert (K : tk_kind t = TRightCurly).
  { specialize (N t ltac:(apply in_or_app; right; left; reflexivity)). destruct (tk_kind t); try discriminate Hb; congruence. }
  specialize (B (used ++ [t]) r ltac:(rewrite <- app_assoc; reflexivity)). rewrite depth_app, D in B. cbn [depth] in B. rewrite K in B. cbn in B. lia.
Qed.
