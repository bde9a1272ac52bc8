(** The parser never runs out of fuel, reads its input from left to right, and panics only on a token
    without a rule. *)
From Coq Require Import Lia.
From Verif.Model Require Import Parser.
#[local] Open Scope parser_scope.

Definition suffix (a b : list token) : Prop := exists used, b = used ++ a.
Lemma suffix_refl a : suffix a a.
Proof. exists []. reflexivity. Qed.
Lemma suffix_trans a b c : suffix a b -> suffix b c -> suffix a c.
Proof. intros (u & ->) (v & ->). exists (v ++ u). rewrite app_assoc. reflexivity. Qed.
Lemma suffix_cons t a : suffix a (t :: a).
Proof. exists [t]. reflexivity. Qed.
Lemma suffix_len a b : suffix a b -> List.length a <= List.length b.
Proof. intros (u & ->). rewrite app_length. lia. Qed.
Lemma suffix_in a b t : suffix a b -> In t a -> In t b.
Proof. intros (u & ->) H. apply in_or_app. right. exact H. Qed.

(** A token that makes the parser panic: no rule for its kind, or a string literal without quotes. *)
Definition bad_token (t : token) : Prop :=
  tk_error t = None /\
  (rule_for (tk_kind t) = None \/
   ((tk_kind t = TString \/ tk_kind t = TBackslashArg) /\ String.length (utf8 (tk_slice t)) < 2)).
Definition trouble (ts : list token) : Prop := exists t, In t ts /\ bad_token t.
Lemma trouble_suffix a b : suffix a b -> trouble a -> trouble b.
Proof. intros S (t & H & B). exists t. split; [exact (suffix_in _ _ _ S H)|exact B]. Qed.

Definition fine {A} (ts0 : list token) (strict : bool) (o : outcome (A * list token)) : Prop :=
  match o with
  | Ok (_, ts') => suffix ts' ts0 /\ (strict = true -> List.length ts' < List.length ts0)
  | Err _ => True
  | Panic => trouble ts0
  | NoFuel => False
  end.
Lemma fine_bind {A B} ts0 ts b s (m : P A) (k : A -> P B) :
  suffix ts ts0 -> fine ts s (m ts) ->
  (forall a ts', suffix ts' ts0 -> List.length ts' <= List.length ts -> (s = true -> List.length ts' < List.length ts) -> fine ts0 b (k a ts')) ->
  fine ts0 b (pbind m k ts).
Proof.
  intros S Hm Hk. unfold pbind. destruct (m ts) as [[a ts']|e| |]; cbn [obind fst snd fine] in *; auto.
  - destruct Hm as [S' L]. apply Hk; auto.
    + exact (suffix_trans _ _ _ S' S).
    + exact (suffix_len _ _ S').
  - exact (trouble_suffix _ _ S Hm).
Qed.
Lemma fine_ret {A} ts0 ts b (a : A) : suffix ts ts0 -> (b = true -> List.length ts < List.length ts0) -> fine ts0 b (pret a ts).
Proof. intros S L. split; assumption. Qed.
Lemma fine_err {A} ts0 ts b e : fine (A := A) ts0 b (perr e ts).
Proof. exact I. Qed.
Lemma fine_weak {A} ts (o : outcome (A * list token)) s : fine ts s o -> fine ts false o.
Proof. destruct o as [[a ts']|e| |]; cbn; tauto || (intros [S _]; split; [exact S|discriminate]). Qed.
Lemma fine_up {A} ts0 ts s b (o : outcome (A * list token)) : suffix ts ts0 -> fine ts s o ->
  (b = true -> s = true \/ List.length ts < List.length ts0) -> fine ts0 b o.
Proof.
  intros S H L. destruct o as [[a ts']|e| |]; cbn in *; auto.
  - destruct H as [S' L']. split; [exact (suffix_trans _ _ _ S' S)|]. intro Hb. apply suffix_len in S. apply suffix_len in S'.
    destruct (L Hb) as [Hs|Hl]; [specialize (L' Hs)|]; lia.
  - exact (trouble_suffix _ _ S H).
Qed.

(** What [peek] and [next] see. *)
Definition sees (t : token) (ts : list token) : Prop :=
  (ts = [] /\ t = end_of_input) \/ (exists r, ts = t :: r /\ tk_error t = None).
Lemma fine_peek {B} ts0 ts b (k : token -> P B) :
  suffix ts ts0 -> (forall t, sees t ts -> fine ts0 b (k t ts)) -> fine ts0 b (pbind peek k ts).
Proof.
  intros S H. unfold pbind, peek, item. destruct ts as [|t r].
  - cbn. apply H. left. split; reflexivity.
  - destruct (tk_error t) eqn:E; cbn; [exact I|]. apply H. right. exists r. split; [reflexivity|exact E].
Qed.
Lemma fine_next {B} ts0 ts b (k : token -> P B) :
  suffix ts ts0 -> (forall t, sees t ts -> suffix (tl ts) ts0 -> fine ts0 b (k t (tl ts))) -> fine ts0 b (pbind next k ts).
Proof.
  intros S H. unfold pbind, next, item. destruct ts as [|t r].
  - cbn. apply (H end_of_input); [left; split; reflexivity|exact S].
  - destruct (tk_error t) eqn:E; cbn; [exact I|]. apply (H t); [right; exists r; split; [reflexivity|exact E]|].
    cbn [tl]. exact (suffix_trans _ _ _ (suffix_cons t r) S).
Qed.
Lemma fine_kind {B} ts0 ts b (k : token_kind -> P B) :
  suffix ts ts0 -> (forall t, sees t ts -> fine ts0 b (k (tk_kind t) ts)) -> fine ts0 b (pbind peek_kind k ts).
Proof.
  intros S H. unfold peek_kind. change (fine ts0 b (pbind peek (fun t => k (tk_kind t)) ts)) || idtac.
  assert (E : pbind (t <- peek ;; pret (tk_kind t)) k ts = pbind peek (fun t => k (tk_kind t)) ts).
  { unfold pbind. destruct (peek ts) as [[t r]|e| |]; reflexivity. }
  rewrite E. apply fine_peek; assumption.
Qed.
Lemma kind_eqb_eq a b : kind_eqb a b = true <-> a = b.
Proof. unfold kind_eqb. destruct (_ : {a = b} + {a <> b}); split; congruence. Qed.
Lemma fine_is {B} ts0 ts b q (k : bool -> P B) :
  suffix ts ts0 -> (forall t, sees t ts -> fine ts0 b (k (kind_eqb (tk_kind t) q) ts)) -> fine ts0 b (pbind (is_kind q) k ts).
Proof.
  intros S H. unfold is_kind.
  assert (E : pbind (k' <- peek_kind ;; pret (kind_eqb k' q)) k ts = pbind peek_kind (fun k' => k (kind_eqb k' q)) ts).
  { unfold pbind. destruct (peek_kind ts) as [[t r]|e| |]; reflexivity. }
  rewrite E. apply fine_kind; assumption.
Qed.
Lemma sees_len t ts : sees t ts -> tk_kind t <> TEndOfInput -> List.length (tl ts) < List.length ts.
Proof. intros [[-> ->]|(r & -> & _)] H; [destruct H; reflexivity|cbn; lia]. Qed.
Lemma sees_tl t ts : sees t ts -> List.length (tl ts) <= List.length ts.
Proof. intros _. destruct ts; cbn; lia. Qed.
Lemma sees_in t ts : sees t ts -> tk_kind t <> TEndOfInput -> In t ts /\ tk_error t = None.
Proof. intros [[-> ->]|(r & -> & E)] H; [destruct H; reflexivity|]. split; [left; reflexivity|exact E]. Qed.

Lemma fine_one_of ks ts : ~ In TEndOfInput ks -> fine ts true (consume_one_of ks ts).
Proof.
  intro H. unfold consume_one_of. apply fine_next; [apply suffix_refl|]. intros t Hs S.
  destruct (existsb (kind_eqb (tk_kind t)) ks) eqn:E; [|exact I].
  apply existsb_exists in E as (k & Hk & E). apply kind_eqb_eq in E. subst k.
  apply fine_ret; [exact S|]. intros _. apply (sees_len t ts Hs). intro E. rewrite E in Hk. contradiction.
Qed.
Lemma fine_consume k ts : k <> TEndOfInput -> fine ts true (consume k ts).
Proof. intro H. apply fine_one_of. intros [E|[]]. congruence. Qed.
Lemma fine_ident ts : fine ts true (consume_ident ts).
Proof.
  unfold consume_ident. eapply fine_bind; [apply suffix_refl|apply fine_consume; discriminate|].
  intros t ts' S _ L. apply fine_ret; auto.
Qed.
Lemma fine_then {B} ts0 ts b k (f : token -> P B) : k <> TEndOfInput -> suffix ts ts0 ->
  (forall t ts', suffix ts' ts0 -> List.length ts' < List.length ts -> fine ts0 b (f t ts')) -> fine ts0 b (pbind (consume k) f ts).
Proof. intros N S H. eapply fine_bind; [exact S|apply fine_consume, N|]. intros a ts' S' _ L. apply H; auto. Qed.
Lemma fine_ident_then {B} ts0 ts b (f : string -> P B) : suffix ts ts0 ->
  (forall x ts', suffix ts' ts0 -> List.length ts' < List.length ts -> fine ts0 b (f x ts')) -> fine ts0 b (pbind consume_ident f ts).
Proof. intros S H. eapply fine_bind; [exact S|apply fine_ident|]. intros a ts' S' _ L. apply H; auto. Qed.
(** A string literal taken from the input and stripped of its quotes. *)
Lemma fine_process {B} ts0 ts b t (f : string -> P B) : suffix ts ts0 -> In t ts0 -> tk_error t = None ->
  tk_kind t = TString \/ tk_kind t = TBackslashArg ->
  (forall x, fine ts0 b (f x ts)) -> fine ts0 b (pbind (process_string (utf8 (tk_slice t))) f ts).
Proof.
  intros S Hin He Hk H. unfold process_string, pbind. destruct (Nat.ltb_spec (String.length (utf8 (tk_slice t))) 2) as [L|L].
  - exists t. split; [exact Hin|]. split; [exact He|]. right. split; assumption.
  - cbn. apply H.
Qed.
Lemma fine_string_path {B} ts0 ts b (f : string -> P B) : suffix ts ts0 ->
  (forall x ts', suffix ts' ts0 -> List.length ts' < List.length ts -> fine ts0 b (f x ts')) ->
  fine ts0 b ((s <- consume_string ;; path <- process_string s ;; f path) ts).
Proof.
  intros S H.
  assert (E : (s <- consume_string ;; path <- process_string s ;; f path) ts =
              (t <- next ;; if kind_eqb (tk_kind t) TString then (path <- process_string (utf8 (tk_slice t)) ;; f path) else perr UNEXPECTED_TOKEN) ts).
  { unfold consume_string, consume, consume_one_of, pbind. destruct (next ts) as [[t r]|e| |]; cbn [obind fst snd]; try reflexivity.
    cbn [existsb]. rewrite Bool.orb_false_r. destruct (kind_eqb (tk_kind t) TString); reflexivity. }
  rewrite E. apply fine_next; [exact S|]. intros t Hs S'.
  destruct (kind_eqb (tk_kind t) TString) eqn:Ek; [|exact I]. apply kind_eqb_eq in Ek.
  assert (N : tk_kind t <> TEndOfInput) by (rewrite Ek; discriminate).
  destruct (sees_in t ts Hs N) as [Hin He].
  apply fine_process; [exact S'|exact (suffix_in _ _ _ S Hin)|exact He|left; exact Ek|].
  intro x. apply H; [exact S'|]. exact (sees_len t ts Hs N).
Qed.

(** Comma separated lists. *)
Lemma fine_items {A} close (it : P A) N : close <> TEndOfInput ->
  (forall ts, List.length ts <= N -> fine ts true (it ts)) ->
  forall f ts, List.length ts <= N -> List.length ts < f -> fine ts false (items_until close it f ts).
Proof.
  intros HC Hit. induction f as [|f IH]; intros ts LN Lf; [lia|]. cbn [items_until].
  apply fine_kind; [apply suffix_refl|]. intros t Hs. destruct (kind_eqb (tk_kind t) close).
  { apply fine_ret; [apply suffix_refl|discriminate]. }
  eapply fine_bind; [apply suffix_refl|apply Hit, LN|]. intros x ts1 S1 L1 L1'. specialize (L1' eq_refl).
  apply fine_kind; [exact S1|]. intros t1 Hs1.
  eapply (fine_bind ts ts1 false false).
  - exact S1.
  - destruct (kind_eqb (tk_kind t1) TComma).
    + apply fine_next; [apply suffix_refl|]. intros t2 Hs2 S2. apply fine_ret; [exact S2|discriminate].
    + destruct (kind_eqb (tk_kind t1) close); [|exact I]. apply fine_ret; [apply suffix_refl|discriminate].
  - intros _ ts2 S2 L2 _. eapply fine_bind; [exact S2|apply IH; lia|]. intros r ts3 S3 L3 _. apply fine_ret; [exact S3|discriminate].
Qed.
Lemma fine_comma {A} close (it : P A) N : close <> TEndOfInput ->
  (forall ts, List.length ts <= N -> fine ts true (it ts)) ->
  forall ts, List.length ts <= N -> fine ts true (comma_list close it ts).
Proof.
  intros HC Hit ts LN. unfold comma_list. eapply fine_bind; [apply suffix_refl|apply (fine_items close it N HC Hit); lia|].
  intros l ts1 S1 L1 _. apply fine_then; [exact HC|exact S1|]. intros t ts2 S2 L2. apply fine_ret; [exact S2|]. intros _. lia.
Qed.
Lemma fine_annotation k ts : k <> TEndOfInput -> fine ts true (parse_type_annotation k ts).
Proof.
  intro N. unfold parse_type_annotation. apply fine_then; [exact N|apply suffix_refl|]. intros t1 ts1 S1 L1.
  apply fine_ident_then; [exact S1|]. intros x ts2 S2 L2. apply fine_is; [exact S2|]. intros t2 Hs2.
  eapply (fine_bind ts ts2 true false); [exact S2| |].
  - destruct (kind_eqb (tk_kind t2) TQuestionMark).
    + apply fine_next; [apply suffix_refl|]. intros t3 Hs3 S3. apply fine_ret; [exact S3|discriminate].
    + apply fine_ret; [apply suffix_refl|discriminate].
  - intros _ ts3 S3 L3 _. apply fine_ret; [exact S3|]. lia.
Qed.
Lemma fine_return ts : fine ts false (parse_return ts).
Proof.
  unfold parse_return. apply fine_is; [apply suffix_refl|]. intros t Hs. destruct (kind_eqb (tk_kind t) TArrow).
  - eapply fine_bind; [apply suffix_refl|apply fine_annotation; discriminate|]. intros a ts1 S1 L1 _. apply fine_ret; [exact S1|discriminate].
  - apply fine_ret; [apply suffix_refl|discriminate].
Qed.
Lemma fine_arg ts : fine ts true (parse_arg ts).
Proof.
  unfold parse_arg. apply fine_ident_then; [apply suffix_refl|]. intros x ts1 S1 L1. apply fine_is; [exact S1|]. intros t Hs.
  eapply (fine_bind ts ts1 true false); [exact S1| |].
  - destruct (kind_eqb (tk_kind t) TColon).
    + eapply fine_bind; [apply suffix_refl|apply fine_annotation; discriminate|]. intros a ts2 S2 L2 _. apply fine_ret; [exact S2|discriminate].
    + apply fine_ret; [apply suffix_refl|discriminate].
  - intros a ts2 S2 L2 _. apply fine_ret; [exact S2|]. lia.
Qed.
Lemma fine_args o c ts : o <> TEndOfInput -> c <> TEndOfInput -> fine ts true (parse_args o c ts).
Proof.
  intros No Nc. unfold parse_args. apply fine_then; [exact No|apply suffix_refl|]. intros t ts1 S1 L1.
  eapply fine_up; [exact S1|apply (fine_comma c parse_arg (List.length ts1) Nc); [intros; apply fine_arg|lia]|tauto].
Qed.
Lemma fine_fields o c ts : o <> TEndOfInput -> c <> TEndOfInput -> fine ts true (parse_fields o c ts).
Proof.
  intros No Nc. unfold parse_fields. apply fine_then; [exact No|apply suffix_refl|]. intros t ts1 S1 L1.
  eapply fine_up; [exact S1|apply (fine_comma c consume_ident (List.length ts1) Nc); [intros; apply fine_ident|lia]|tauto].
Qed.
Lemma fine_check l ts : fine ts false (check_args l ts).
Proof. unfold check_args. destruct (255 <? List.length l); [exact I|]. apply fine_ret; [apply suffix_refl|discriminate]. Qed.

Section Fine.
Variable prec : precedence -> P expr.
Variable seq : P expr.
Variable d : nat.
Hypothesis Hprec : forall p ts, 2 * List.length ts + 1 <= d -> fine ts true (prec p ts).
Hypothesis Hseq : forall ts, 2 * List.length ts + 2 <= d -> fine ts false (seq ts).

Ltac bnd S := eapply fine_bind; [exact S| |].
Lemma f_expr ts0 ts b {B} (k : expr -> P B) p : suffix ts ts0 -> 2 * List.length ts + 1 <= d ->
  (forall e ts', suffix ts' ts0 -> List.length ts' < List.length ts -> fine ts0 b (k e ts')) -> fine ts0 b (pbind (prec p) k ts).
Proof. intros S L H. bnd S; [apply Hprec; exact L|]. intros e ts' S' _ L'. apply H; auto. Qed.
Lemma f_block ts : 2 * List.length ts <= d -> fine ts true (block_expression seq ts).
Proof.
  intro L. unfold block_expression. apply fine_then; [discriminate|apply suffix_refl|]. intros t ts1 S1 L1.
  bnd S1; [apply Hseq; lia|]. intros e ts2 S2 L2 _. apply fine_then; [discriminate|exact S2|]. intros t3 ts3 S3 L3.
  apply fine_ret; [exact S3|lia].
Qed.
Lemma f_block_then ts0 ts b {B} (k : expr -> P B) : suffix ts ts0 -> 2 * List.length ts <= d ->
  (forall e ts', suffix ts' ts0 -> List.length ts' < List.length ts -> fine ts0 b (k e ts')) -> fine ts0 b (pbind (block_expression seq) k ts).
Proof. intros S L H. bnd S; [apply f_block; exact L|]. intros e ts' S' _ L'. apply H; auto. Qed.
Lemma f_assignment lhs c ts : 2 * List.length ts <= d -> fine ts false (parse_assignment prec lhs c ts).
Proof.
  intro L. unfold parse_assignment. apply fine_kind; [apply suffix_refl|]. intros t Hs.
  destruct (assignop_of (tk_kind t)) as [op|] eqn:E; [|apply fine_ret; [apply suffix_refl|discriminate]].
  destruct c; [|apply fine_ret; [apply suffix_refl|discriminate]].
  apply fine_next; [apply suffix_refl|]. intros t' Hs' S'.
  assert (List.length (tl ts) < List.length ts) by (apply (sees_len t ts Hs); intro E'; rewrite E' in E; discriminate E).
  apply f_expr; [exact S'|lia|]. intros e ts2 S2 L2. apply fine_ret; [exact S2|discriminate].
Qed.
Lemma f_if_chain f : forall ts, 2 * List.length ts <= d -> List.length ts < f -> fine ts true (if_chain prec seq f ts).
Proof.
  induction f as [|f IH]; intros ts L Lf; [lia|]. cbn [if_chain].
  apply fine_then; [discriminate|apply suffix_refl|]. intros t1 ts1 S1 L1.
  apply f_expr; [exact S1|lia|]. intros c ts2 S2 L2. apply f_block_then; [exact S2|lia|]. intros p ts3 S3 L3.
  apply fine_is; [exact S3|]. intros t4 Hs4. destruct (kind_eqb (tk_kind t4) TElse); [|apply fine_ret; [exact S3|lia]].
  apply fine_next; [exact S3|]. intros t5 Hs5 S5. pose proof (sees_tl _ _ Hs5) as L5.
  apply fine_kind; [exact S5|]. intros t6 Hs6.
  assert (R : fine ts true (pret (EIf c p None) (tl ts3))) by (apply fine_ret; [exact S5|lia]).
  destruct (tk_kind t6); try exact R.
  - apply f_block_then; [exact S5|lia|]. intros s ts7 S7 L7. apply fine_ret; [exact S7|lia].
  - bnd S5; [apply IH; lia|]. intros s ts7 S7 L7 _. apply fine_ret; [exact S7|lia].
Qed.
Lemma f_if ts : 2 * List.length ts <= d -> fine ts true (if_expression prec seq ts).
Proof. intro L. apply f_if_chain; [exact L|lia]. Qed.
Lemma f_loop ts : 2 * List.length ts <= d -> fine ts true (loop_statement seq ts).
Proof.
  intro L. unfold loop_statement. apply fine_then; [discriminate|apply suffix_refl|]. intros t1 ts1 S1 L1.
  apply f_block_then; [exact S1|lia|]. intros e ts2 S2 L2. apply fine_ret; [exact S2|lia].
Qed.
Lemma f_while ts : 2 * List.length ts <= d -> fine ts true (while_statement prec seq ts).
Proof.
  intro L. unfold while_statement. apply fine_then; [discriminate|apply suffix_refl|]. intros t1 ts1 S1 L1.
  apply f_expr; [exact S1|lia|]. intros c ts2 S2 L2. apply f_block_then; [exact S2|lia|]. intros e ts3 S3 L3. apply fine_ret; [exact S3|lia].
Qed.
Lemma f_for ts : 2 * List.length ts <= d -> fine ts true (for_statement prec seq ts).
Proof.
  intro L. unfold for_statement. apply fine_then; [discriminate|apply suffix_refl|]. intros t1 ts1 S1 L1.
  apply fine_ident_then; [exact S1|]. intros x ts2 S2 L2. apply fine_then; [discriminate|exact S2|]. intros t3 ts3 S3 L3.
  apply f_expr; [exact S3|lia|]. intros c ts4 S4 L4. apply f_block_then; [exact S4|lia|]. intros e ts5 S5 L5. apply fine_ret; [exact S5|lia].
Qed.
Lemma f_flow t ts : sees t ts -> tk_kind t = TReturn \/ tk_kind t = TBreak \/ tk_kind t = TContinue ->
  2 * List.length ts <= d -> fine ts true (control_flow prec ts).
Proof.
  intros Hs Hk L. unfold control_flow. apply fine_next; [apply suffix_refl|]. intros t1 Hs1 S1.
  assert (L1 : List.length (tl ts) < List.length ts) by (apply (sees_len t ts Hs); intro E; rewrite E in Hk; intuition discriminate).
  destruct (tk_kind t1); try exact I; try (apply fine_ret; [exact S1|lia]).
  apply fine_is; [exact S1|]. intros t2 Hs2. destruct (kind_eqb (tk_kind t2) TRightCurly); [apply fine_ret; [exact S1|lia]|].
  apply f_expr; [exact S1|lia|]. intros e ts2 S2 L2. apply fine_ret; [exact S2|lia].
Qed.
Lemma f_variable c ts : 2 * List.length ts <= d -> fine ts true (variable prec c ts).
Proof.
  intro L. unfold variable. apply fine_next; [apply suffix_refl|]. intros t1 Hs1 S1.
  destruct (tk_kind t1) eqn:E; try exact I.
  assert (L1 : List.length (tl ts) < List.length ts) by (apply (sees_len t1 ts Hs1); rewrite E; discriminate).
  eapply fine_up; [exact S1|apply f_assignment; lia|]. right. exact L1.
Qed.
Lemma f_skip_comma ts (q : token_kind) : fine ts false ((b <- is_kind q ;; (if b then next ;;; pret tt else pret tt)) ts).
Proof.
  apply fine_is; [apply suffix_refl|]. intros t Hs. destruct (kind_eqb (tk_kind t) q).
  - apply fine_next; [apply suffix_refl|]. intros t3 Hs3 S3. apply fine_ret; [exact S3|discriminate].
  - apply fine_ret; [apply suffix_refl|discriminate].
Qed.
Lemma f_opt_next ts0 ts s (b : bool) {B} (k : unit -> P B) : suffix ts ts0 ->
  (forall ts', suffix ts' ts0 -> List.length ts' <= List.length ts -> fine ts0 s (k tt ts')) ->
  fine ts0 s (pbind (if b then next ;;; pret tt else pret tt) k ts).
Proof.
  intros S H. eapply (fine_bind ts0 ts s false); [exact S| |].
  - destruct b.
    + apply fine_next; [apply suffix_refl|]. intros t3 Hs3 S3. apply fine_ret; [exact S3|discriminate].
    + apply fine_ret; [apply suffix_refl|discriminate].
  - intros [] ts' S' L' _. apply H; assumption.
Qed.
Lemma f_import ts : fine ts true (import_decl ts).
Proof.
  unfold import_decl. apply fine_then; [discriminate|apply suffix_refl|]. intros t1 ts1 S1 L1.
  apply fine_is; [exact S1|]. intros t2 Hs2.
  eapply (fine_bind ts ts1 true false); [exact S1| |].
  { destruct (kind_eqb (tk_kind t2) TStar); [|apply fine_ret; [apply suffix_refl|discriminate]].
    apply fine_next; [apply suffix_refl|]. intros t3 Hs3 S3. apply fine_then; [discriminate|exact S3|]. intros t4 ts4 S4 L4.
    apply fine_ident_then; [exact S4|]. intros x ts5 S5 L5. apply fine_is; [exact S5|]. intros t6 Hs6.
    apply f_opt_next; [exact S5|]. intros ts7 S7 L7. apply fine_ret; [exact S7|discriminate]. }
  intros m ts2 S2 L2 _. apply fine_is; [exact S2|]. intros t3 Hs3.
  eapply (fine_bind ts ts2 true false); [exact S2| |].
  { destruct (kind_eqb (tk_kind t3) TLeftCurly); [eapply fine_weak, fine_fields; discriminate|apply fine_ret; [apply suffix_refl|discriminate]]. }
  intros l ts3 S3 L3 _.
  assert (R : fine ts true ((consume TFrom ;;; s <- consume_string ;; path <- process_string s ;; pret (EImportDecl m l path)) ts3)).
  { apply fine_then; [discriminate|exact S3|]. intros t4 ts4 S4 L4. apply fine_string_path; [exact S4|]. intros x ts5 S5 L5. apply fine_ret; [exact S5|lia]. }
  destruct m, l; try exact R; exact I.
Qed.
Lemma f_var ts : 2 * List.length ts <= d -> fine ts true (var_decl prec ts).
Proof.
  intro L. unfold var_decl. apply fine_then; [discriminate|apply suffix_refl|]. intros t1 ts1 S1 L1.
  apply fine_is; [exact S1|]. intros t2 Hs2. apply f_opt_next; [exact S1|]. intros ts2 S2 L2.
  apply fine_peek; [exact S2|]. intros t3 Hs3.
  eapply (fine_bind ts ts2 true false); [exact S2| |].
  { destruct (tk_kind t3); try exact I.
    - eapply fine_bind; [apply suffix_refl|apply fine_fields; discriminate|]. intros l ts4 S4 L4 _. apply fine_ret; [exact S4|discriminate].
    - apply fine_next; [apply suffix_refl|]. intros t4 Hs4 S4. apply fine_ret; [exact S4|discriminate]. }
  intros kd ts3 S3 L3 _. apply fine_then; [discriminate|exact S3|]. intros t4 ts4 S4 L4. apply f_expr; [exact S4|lia|].
  intros e ts5 S5 L5. apply fine_ret; [exact S5|lia].
Qed.
Lemma f_anonymous ts : 2 * List.length ts <= d -> fine ts true (anonymous_fn prec ts).
Proof.
  intro L. unfold anonymous_fn. eapply fine_bind; [apply suffix_refl|apply fine_args; discriminate|]. intros l ts1 S1 _ L1. specialize (L1 eq_refl).
  bnd S1; [apply fine_check|]. intros _ ts2 S2 L2 _. apply f_expr; [exact S2|lia|]. intros e ts3 S3 L3. apply fine_ret; [exact S3|lia].
Qed.
Lemma f_fn ts : 2 * List.length ts <= d -> fine ts true (fn_decl seq ts).
Proof.
  intro L. unfold fn_decl. apply fine_then; [discriminate|apply suffix_refl|]. intros t1 ts1 S1 L1.
  apply fine_ident_then; [exact S1|]. intros x ts2 S2 L2. bnd S2; [apply fine_args; discriminate|]. intros l ts3 S3 L3 _.
  bnd S3; [apply fine_check|]. intros _ ts4 S4 L4 _. bnd S4; [apply fine_return|]. intros r ts5 S5 L5 _.
  apply f_block_then; [exact S5|lia|]. intros e ts6 S6 L6. apply fine_ret; [exact S6|lia].
Qed.
Lemma f_op ts : 2 * List.length ts <= d -> fine ts true (op_decl seq ts).
Proof.
  intro L. unfold op_decl. apply fine_then; [discriminate|apply suffix_refl|]. intros t1 ts1 S1 L1.
  apply fine_next; [exact S1|]. intros t2 Hs2 S2. pose proof (sees_tl _ _ Hs2) as L2. destruct (overop_of (tk_kind t2)) as [o|]; [|exact I].
  bnd S2; [apply fine_args; discriminate|]. intros l ts3 S3 L3 _. bnd S3; [apply fine_return|]. intros r ts5 S5 L5 _.
  apply f_block_then; [exact S5|lia|]. intros e ts6 S6 L6. apply fine_ret; [exact S6|lia].
Qed.
Lemma f_class_items f : forall ts, 2 * List.length ts <= d -> List.length ts < f -> fine ts false (class_items seq f ts).
Proof.
  induction f as [|f IH]; intros ts L Lf; [lia|]. cbn [class_items]. apply fine_kind; [apply suffix_refl|]. intros t Hs.
  destruct (tk_kind t); try exact I.
  - apply fine_ret; [apply suffix_refl|discriminate].
  - eapply fine_bind; [apply suffix_refl|apply f_fn, L|]. intros x ts1 S1 _ L1. specialize (L1 eq_refl).
    bnd S1; [apply IH; lia|]. intros r ts2 S2 L2 _. apply fine_ret; [exact S2|discriminate].
  - eapply fine_bind; [apply suffix_refl|apply f_op, L|]. intros x ts1 S1 _ L1. specialize (L1 eq_refl).
    bnd S1; [apply IH; lia|]. intros r ts2 S2 L2 _. apply fine_ret; [exact S2|discriminate].
Qed.
Lemma f_class ts : 2 * List.length ts <= d -> fine ts true (class_decl prec seq ts).
Proof.
  intro L. unfold class_decl. apply fine_then; [discriminate|apply suffix_refl|]. intros t1 ts1 S1 L1.
  apply fine_ident_then; [exact S1|]. intros x ts2 S2 L2. apply fine_is; [exact S2|]. intros t3 Hs3.
  eapply (fine_bind ts ts2 true false); [exact S2| |].
  { destruct (kind_eqb (tk_kind t3) TColon); [|apply fine_ret; [apply suffix_refl|discriminate]].
    apply fine_next; [apply suffix_refl|]. intros t4 Hs4 S4. pose proof (sees_tl _ _ Hs4) as L4. apply f_expr; [exact S4|lia|]. intros e ts5 S5 L5. apply fine_ret; [exact S5|discriminate]. }
  intros b ts3 S3 L3 _. apply fine_then; [discriminate|exact S3|]. intros t4 ts4 S4 L4.
  bnd S4; [apply f_class_items; lia|]. intros l ts5 S5 L5 _. apply fine_then; [discriminate|exact S5|]. intros t6 ts6 S6 L6. apply fine_ret; [exact S6|lia].
Qed.
Lemma f_export ts : 2 * List.length ts <= d -> fine ts true (export_decl prec seq ts).
Proof.
  intro L. unfold export_decl. apply fine_then; [discriminate|apply suffix_refl|]. intros t1 ts1 S1 L1.
  apply fine_peek; [exact S1|]. intros t2 Hs2. eapply (fine_bind ts ts1 true false); [exact S1| |].
  { destruct (tk_kind t2); try exact I.
    - eapply fine_weak, f_fn. lia.
    - eapply fine_weak, f_var. lia.
    - eapply fine_weak, f_class. lia.
    - apply fine_ret; [apply suffix_refl|discriminate]. }
  intros e ts2 S2 L2 _. apply fine_ret; [exact S2|lia].
Qed.
Lemma f_binary t lhs ts q : sees t ts -> 2 * List.length ts <= d ->
  (exists r, rule_for (tk_kind t) = Some r /\ r_infix r = Some (FBinary, q)) -> fine ts true (binary_operator prec lhs ts).
Proof.
  intros Hs L (r & Hr & Hi). unfold binary_operator. apply fine_next; [apply suffix_refl|]. intros t1 Hs1 S1.
  assert (E : t1 = t) by (destruct Hs as [[-> ->]|(x & -> & _)]; destruct Hs1 as [[H ->]|(y & H & _)]; congruence). subst t1.
  assert (N : tk_kind t <> TEndOfInput) by (intro E; rewrite E in Hr; injection Hr as <-; discriminate Hi).
  pose proof (sees_len t ts Hs N) as L1.
  assert (Hb : exists o, binop_of (tk_kind t) = Some o).
  { destruct (tk_kind t); try discriminate Hr; injection Hr as <-; try discriminate Hi; eexists; reflexivity. }
  destruct Hb as (o & ->).
  eapply (fine_bind ts (tl ts) true false); [exact S1| |].
  { destruct (kind_eqb (tk_kind t) TPipe); [|apply fine_ret; [apply suffix_refl|discriminate]].
    apply fine_then; [discriminate|apply suffix_refl|]. intros t3 ts3 S3 L3. apply fine_ret; [exact S3|discriminate]. }
  intros _ ts2 S2 L2 _. unfold for_token. rewrite Hr. change (fine ts true ((match r_infix r with None => ppanic | Some (_, p) => rhs <- prec (increment p) ;; pret (EBinary o lhs rhs) end) ts2)).
  rewrite Hi. apply f_expr; [exact S2|lia|]. intros e ts3 S3 L3. apply fine_ret; [exact S3|lia].
Qed.
Lemma f_prefix t ts : sees t ts -> 2 * List.length ts <= d -> tk_kind t = TMinus \/ tk_kind t = TNot -> fine ts true (prefix_operator prec ts).
Proof.
  intros Hs L Hk. unfold prefix_operator. apply fine_next; [apply suffix_refl|]. intros t1 Hs1 S1.
  assert (E : t1 = t) by (destruct Hs as [[-> ->]|(x & -> & _)]; destruct Hs1 as [[H ->]|(y & H & _)]; congruence). subst t1.
  assert (L1 : List.length (tl ts) < List.length ts) by (apply (sees_len t ts Hs); intro E; rewrite E in Hk; intuition discriminate).
  apply f_expr; [exact S1|lia|]. intros e ts2 S2 L2. destruct Hk as [-> | ->]; (apply fine_ret; [exact S2|lia]).
Qed.
Lemma f_postfix p e ts : fine ts true (run_postfix p e ts).
Proof.
  destruct p; cbn [run_postfix]; unfold null_propagate, error_propagate; (apply fine_then; [discriminate|apply suffix_refl|]; intros t ts1 S1 L1; apply fine_ret; [exact S1|lia]).
Qed.
Lemma f_coalesce e ts : 2 * List.length ts <= d -> fine ts true (error_coalesce seq e ts).
Proof.
  intro L. unfold error_coalesce. apply fine_then; [discriminate|apply suffix_refl|]. intros t1 ts1 S1 L1.
  apply fine_ident_then; [exact S1|]. intros x ts2 S2 L2. apply f_block_then; [exact S2|lia|]. intros b ts3 S3 L3. apply fine_ret; [exact S3|lia].
Qed.
Lemma f_index e c ts : 2 * List.length ts <= d -> fine ts true (index_access prec e c ts).
Proof.
  intro L. unfold index_access. apply fine_then; [discriminate|apply suffix_refl|]. intros t1 ts1 S1 L1.
  apply f_expr; [exact S1|lia|]. intros i ts2 S2 L2. apply fine_then; [discriminate|exact S2|]. intros t3 ts3 S3 L3.
  eapply fine_up; [exact S3|apply f_assignment; lia|]. right. lia.
Qed.
Lemma f_field e c ts : 2 * List.length ts <= d -> fine ts true (field_access prec e c ts).
Proof.
  intro L. unfold field_access. apply fine_then; [discriminate|apply suffix_refl|]. intros t1 ts1 S1 L1.
  apply fine_ident_then; [exact S1|]. intros x ts2 S2 L2.
  eapply fine_up; [exact S2|apply f_assignment; lia|]. right. lia.
Qed.
Lemma f_grouping ts : 2 * List.length ts <= d -> fine ts true (grouping prec ts).
Proof.
  intro L. unfold grouping. apply fine_then; [discriminate|apply suffix_refl|]. intros t1 ts1 S1 L1.
  apply fine_is; [exact S1|]. intros t2 Hs2. destruct (kind_eqb (tk_kind t2) TRightParen).
  - apply fine_next; [exact S1|]. intros t3 Hs3 S3. pose proof (sees_tl _ _ Hs3) as L3. apply fine_ret; [exact S3|lia].
  - apply f_expr; [exact S1|lia|]. intros e ts2 S2 L2. apply fine_then; [discriminate|exact S2|]. intros t3 ts3 S3 L3. apply fine_ret; [exact S3|lia].
Qed.
Lemma f_items {A} close (it : P A) : close <> TEndOfInput -> (forall ts, 2 * List.length ts + 1 <= d -> fine ts true (it ts)) ->
  forall ts, 2 * List.length ts + 1 <= d -> fine ts true (comma_list close it ts).
Proof. intros N H ts L. apply (fine_comma close it (List.length ts) N); [|lia]. intros ts' L'. apply H. lia. Qed.
Lemma f_call e ts : 2 * List.length ts <= d -> fine ts true (fn_call prec e ts).
Proof.
  intro L. unfold fn_call. apply fine_is; [apply suffix_refl|]. intros t Hs. destruct (kind_eqb (tk_kind t) TBackslashArg) eqn:E.
  - apply kind_eqb_eq in E. apply fine_next; [apply suffix_refl|]. intros t1 Hs1 S1.
    assert (Et : t1 = t) by (destruct Hs as [[-> ->]|(x & -> & _)]; destruct Hs1 as [[H ->]|(y & H & _)]; congruence). subst t1.
    assert (N : tk_kind t <> TEndOfInput) by (rewrite E; discriminate). destruct (sees_in t ts Hs N) as [Hin He].
    apply fine_process; [exact S1|exact Hin|exact He|right; exact E|]. intro x. apply fine_ret; [exact S1|]. intros _. exact (sees_len t ts Hs N).
  - apply fine_then; [discriminate|apply suffix_refl|]. intros t1 ts1 S1 L1.
    bnd S1; [apply f_items; [discriminate|intros; apply Hprec; assumption|lia]|]. intros l ts2 S2 L2 _. apply fine_ret; [exact S2|lia].
Qed.
Lemma f_super ts : 2 * List.length ts <= d -> fine ts true (super_access prec ts).
Proof.
  intro L. unfold super_access. apply fine_then; [discriminate|apply suffix_refl|]. intros t1 ts1 S1 L1.
  assert (R : fine ts true (super_method_access ts1)).
  { unfold super_method_access. apply fine_is; [exact S1|]. intros t2 Hs2. eapply (fine_bind ts ts1 true false); [exact S1| |].
    - destruct (kind_eqb (tk_kind t2) TLeftSquare); [|apply fine_ret; [apply suffix_refl|discriminate]].
      apply fine_next; [apply suffix_refl|]. intros t3 Hs3 S3. apply fine_ident_then; [exact S3|]. intros x ts4 S4 L4. apply fine_then; [discriminate|exact S4|]. intros t5 ts5 S5 L5. apply fine_ret; [exact S5|discriminate].
    - intros c ts3 S3 L3 _. apply fine_then; [discriminate|exact S3|]. intros t4 ts4 S4 L4. apply fine_ident_then; [exact S4|]. intros x ts5 S5 L5. apply fine_ret; [exact S5|lia]. }
  apply fine_kind; [exact S1|]. intros t2 Hs2. destruct (tk_kind t2); try exact R; try exact I.
  unfold super_call. apply fine_then; [discriminate|exact S1|]. intros t3 ts3 S3 L3.
  bnd S3; [apply f_items; [discriminate|intros; apply Hprec; assumption|lia]|]. intros l ts4 S4 L4 _. apply fine_ret; [exact S4|lia].
Qed.
Lemma f_property ts : 2 * List.length ts + 1 <= d -> fine ts true (property prec ts).
Proof.
  intro L. unfold property. eapply fine_bind; [apply suffix_refl|apply fine_one_of; cbn [In]; intuition discriminate|]. intros t ts1 S1 _ L1. specialize (L1 eq_refl).
  apply fine_then; [discriminate|exact S1|]. intros t2 ts2 S2 L2. apply f_expr; [exact S2|lia|]. intros e ts3 S3 L3. apply fine_ret; [exact S3|lia].
Qed.
Lemma f_object ts : 2 * List.length ts <= d -> fine ts true (object prec ts).
Proof.
  intro L. unfold object. apply fine_then; [discriminate|apply suffix_refl|]. intros t1 ts1 S1 L1. apply fine_then; [discriminate|exact S1|]. intros t2 ts2 S2 L2.
  bnd S2; [apply f_items; [discriminate|apply f_property|lia]|]. intros l ts3 S3 L3 _. apply fine_ret; [exact S3|lia].
Qed.
Lemma f_list ts : 2 * List.length ts <= d -> fine ts true (list_literal prec ts).
Proof.
  intro L. unfold list_literal. apply fine_then; [discriminate|apply suffix_refl|]. intros t1 ts1 S1 L1.
  bnd S1; [apply f_items; [discriminate|intros; apply Hprec; assumption|lia]|]. intros l ts3 S3 L3 _. apply fine_ret; [exact S3|lia].
Qed.
Lemma parse_digits_total t : forall acc, match parse_digits acc t with Ok _ | Err _ => True | _ => False end.
Proof.
  induction t as [|c t IH]; intro acc; cbn [parse_digits]; [exact I|]. destruct (is_digit c); [|exact I]. cbv zeta.
  destruct (i64_max <? acc * 10)%Z; [exact I|]. destruct (i64_max <? acc * 10 + digit c)%Z; [exact I|]. apply IH.
Qed.
Lemma f_literal ts : fine ts true (literal ts).
Proof.
  unfold literal. apply fine_next; [apply suffix_refl|]. intros t Hs S1.
  assert (L : tk_kind t <> TEndOfInput -> List.length (tl ts) < List.length ts) by exact (sees_len t ts Hs).
  destruct (tk_kind t) eqn:E; try exact I; (assert (L' := L ltac:(discriminate)); try (apply fine_ret; [exact S1|intros _; exact L'])).
  - unfold pbind. unfold parse_i64. destruct (tk_slice t) as [|c r]; [exact I|]. generalize (parse_digits_total (c :: r) 0).
    destruct (parse_digits 0 (c :: r)) as [z|e| |]; cbn; intro H; try exact I; try destruct H. split; [exact S1|intros _; exact L'].
  - destruct (sees_in t ts Hs) as [Hin He]; [rewrite E; discriminate|]. apply fine_process; [exact S1|exact Hin|exact He|left; exact E|].
    intro x. apply fine_ret; [exact S1|intros _; exact L'].
Qed.
Lemma f_infix i t lhs c ts q : sees t ts -> 2 * List.length ts <= d ->
  (exists r, rule_for (tk_kind t) = Some r /\ r_infix r = Some (i, q)) -> fine ts true (run_infix prec seq i lhs c ts).
Proof.
  intros Hs L Hr. destruct i; cbn [run_infix].
  - apply f_index, L.
  - apply f_field, L.
  - apply f_call, L.
  - exact (f_binary t lhs ts q Hs L Hr).
  - apply f_coalesce, L.
  - unfold is_operator. eapply fine_bind; [apply suffix_refl|apply fine_annotation; discriminate|]. intros a ts1 S1 _ L1. apply fine_ret; auto.
Qed.
Lemma f_run_prefix p t c ts q : sees t ts -> 2 * List.length ts <= d ->
  (exists r, rule_for (tk_kind t) = Some r /\ r_prefix r = Some (p, q)) -> fine ts true (run_prefix prec seq p c ts).
Proof.
  intros Hs L (r & Hr & Hp). destruct p; cbn [run_prefix].
  - apply f_literal.
  - apply f_variable, L.
  - apply f_if, L.
  - apply f_object, L.
  - apply f_list, L.
  - apply f_super, L.
  - apply f_grouping, L.
  - apply f_block, L.
  - apply f_anonymous, L.
  - apply (f_prefix t ts Hs L). destruct (tk_kind t); try discriminate Hr; injection Hr as <-; try discriminate Hp; auto.
Qed.
Lemma fine_rule {B} ts0 ts b t (k : rule -> P B) : suffix ts ts0 -> sees t ts ->
  (forall r, rule_for (tk_kind t) = Some r -> fine ts0 b (k r ts)) -> fine ts0 b (pbind (for_token t) k ts).
Proof.
  intros S Hs H. unfold for_token, pbind. destruct (rule_for (tk_kind t)) as [r|] eqn:E; cbn; [apply H; reflexivity|].
  destruct (sees_in t ts Hs) as [Hin He]; [intro E'; rewrite E' in E; discriminate E|].
  exists t. split; [exact (suffix_in _ _ _ S Hin)|]. split; [exact He|left; exact E].
Qed.
Lemma f_operators p f : forall node ts, 2 * List.length ts <= d -> List.length ts < f -> fine ts false (operators_loop prec seq p node f ts).
Proof.
  induction f as [|f IH]; intros node ts L Lf; [lia|]. cbn [operators_loop]. apply fine_peek; [apply suffix_refl|]. intros t Hs.
  apply fine_rule; [apply suffix_refl|exact Hs|]. intros r Hr. cbv zeta.
  destruct (r_postfix r) as [[po q]|] eqn:Ep.
  - destruct (prec_gt p q); [apply fine_ret; [apply suffix_refl|discriminate]|].
    eapply fine_bind; [apply suffix_refl|apply f_postfix|]. intros n ts1 S1 _ L1. specialize (L1 eq_refl).
    eapply fine_up; [exact S1|apply IH; lia|discriminate].
  - destruct (r_infix r) as [[i q]|] eqn:Ei; [|apply fine_ret; [apply suffix_refl|discriminate]].
    destruct (prec_gt p q); [apply fine_ret; [apply suffix_refl|discriminate]|].
    eapply fine_bind; [apply suffix_refl|apply (f_infix i t node _ ts q Hs L); exists r; split; assumption|]. intros n ts1 S1 _ L1. specialize (L1 eq_refl).
    eapply fine_up; [exact S1|apply IH; lia|discriminate].
Qed.
Lemma f_precedence p ts : 2 * List.length ts <= d -> fine ts true (parse_precedence_body prec seq p ts).
Proof.
  intro L. unfold parse_precedence_body. apply fine_peek; [apply suffix_refl|]. intros t Hs.
  apply fine_rule; [apply suffix_refl|exact Hs|]. intros r Hr.
  eapply (fine_bind ts ts true true); [apply suffix_refl| |].
  - destruct (r_prefix r) as [[pf q]|] eqn:Ep; [|exact I]. apply (f_run_prefix pf t _ ts q Hs L). exists r. split; assumption.
  - intros node ts1 S1 _ L1. specialize (L1 eq_refl). eapply fine_up; [exact S1|apply f_operators; lia|]. right. exact L1.
Qed.
Lemma f_statement t ts : sees t ts -> 2 * List.length ts + 1 <= d -> fine ts true (statement prec seq (tk_kind t) ts).
Proof.
  intros Hs L.
  assert (HE : fine ts true (expression prec ts)) by (apply Hprec; lia).
  assert (HF : tk_kind t = TReturn \/ tk_kind t = TBreak \/ tk_kind t = TContinue -> fine ts true (control_flow prec ts)) by (intro; apply (f_flow t); auto; lia).
  destruct (tk_kind t); cbn [statement]; try exact HE; try (apply HF; auto).
  - apply f_while; lia.
  - apply f_loop; lia.
  - apply f_for; lia.
  - apply f_fn; lia.
  - apply f_var; lia.
  - apply f_op; lia.
  - apply f_class; lia.
  - apply f_import.
  - apply f_export; lia.
Qed.
Lemma f_statements f : forall ts, 2 * List.length ts + 1 <= d -> List.length ts < f -> fine ts false (statements prec seq f ts).
Proof.
  induction f as [|f IH]; intros ts L Lf; [lia|]. cbn [statements]. apply fine_kind; [apply suffix_refl|]. intros t Hs.
  destruct (ends_block (tk_kind t)); [apply fine_ret; [apply suffix_refl|discriminate]|].
  eapply fine_bind; [apply suffix_refl|exact (f_statement t ts Hs L)|]. intros e ts1 S1 _ L1. specialize (L1 eq_refl).
  apply fine_kind; [exact S1|]. intros t2 Hs2. destruct (ends_block (tk_kind t2)); [apply fine_ret; [exact S1|discriminate]|].
  bnd S1; [apply IH; lia|]. intros r ts2 S2 L2 _. apply fine_ret; [exact S2|discriminate].
Qed.
Lemma f_sequence ts : 2 * List.length ts + 1 <= d -> fine ts false (expression_sequence_body prec seq ts).
Proof.
  intro L. unfold expression_sequence_body. eapply fine_bind; [apply suffix_refl|apply f_statements; lia|]. intros r ts1 S1 L1 _. apply fine_ret; [exact S1|discriminate].
Qed.
End Fine.

Lemma parser_fine d :
  (forall p ts, 2 * List.length ts + 1 <= d -> fine ts true (p_prec (parser d) p ts)) /\
  (forall ts, 2 * List.length ts + 2 <= d -> fine ts false (p_seq (parser d) ts)).
Proof.
  induction d as [|d [IH1 IH2]]; [split; intros; lia|]. cbn [parser p_prec p_seq]. split; intros.
  - apply (f_precedence _ _ d IH1 IH2). lia.
  - apply (f_sequence _ _ d IH1 IH2). lia.
Qed.
Lemma parse_tokens_fine ts : fine ts false (parse_tokens ts).
Proof. unfold parse_tokens. apply parser_fine. lia. Qed.
