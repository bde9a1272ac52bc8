(** The parser inverts the grammar of Spec/GrammarSpec.v. *)
From Coq Require Import Lia ZArith.
From Verif.Model Require Import Parser.
From Verif.Spec Require Import LexSpec ParseSpec GrammarSpec.
From Verif.Proofs Require Import LexerP ParserP ParserFuelP SourceTextP.
#[local] Open Scope parser_scope.

(** * Evaluation of parser steps *)
Lemma bind_ok {A B} (m : P A) (k : A -> P B) ts a ts' : m ts = Ok (a, ts') -> pbind m k ts = k a ts'.
Proof. intro E. unfold pbind. rewrite E. reflexivity. Qed.
Lemma next_ok t r : tk_error t = None -> next (t :: r) = Ok (t, r).
Proof. intro E. unfold next, item. rewrite E. reflexivity. Qed.
Lemma peek_ok t r : tk_error t = None -> peek (t :: r) = Ok (t, t :: r).
Proof. intro E. unfold peek, item. rewrite E. reflexivity. Qed.
Lemma kind_ok t r : tk_error t = None -> peek_kind (t :: r) = Ok (tk_kind t, t :: r).
Proof. intro E. unfold peek_kind. rewrite (bind_ok _ _ _ _ _ (peek_ok t r E)). reflexivity. Qed.
Lemma is_ok q t r : tk_error t = None -> is_kind q (t :: r) = Ok (kind_eqb (tk_kind t) q, t :: r).
Proof. intro E. unfold is_kind. rewrite (bind_ok _ _ _ _ _ (kind_ok t r E)). reflexivity. Qed.
Lemma kind_refl k : kind_eqb k k = true.
Proof. apply kind_eqb_eq. reflexivity. Qed.
Lemma consume_ok k t r : is_symbol k t -> consume k (t :: r) = Ok (t, r).
Proof.
  intros [K E]. unfold consume, consume_one_of. rewrite (bind_ok _ _ _ _ _ (next_ok t r E)). cbn [existsb]. rewrite K, kind_refl. reflexivity.
Qed.
Lemma ident_ok x t r : is_name x t -> consume_ident (t :: r) = Ok (x, r).
Proof. intros (K & U & E). unfold consume_ident. rewrite (bind_ok _ _ _ _ _ (consume_ok TIdentifier t r (conj K E))). cbn. rewrite U. reflexivity. Qed.
Lemma for_token_ok t r ts : rule_for (tk_kind t) = Some r -> for_token t ts = Ok (r, ts).
Proof. intro E. unfold for_token. rewrite E. reflexivity. Qed.

(** What may follow an expression of level [l]: the end, or a token that is no assignment operator and
    continues no expression tighter than [l]. *)
Definition head_rank (r : rule) : option nat :=
  match r_postfix r, r_infix r with
  | Some (_, q), _ => Some (rank q)
  | None, Some (_, q) => Some (rank q)
  | None, None => None
  end.
Definition follow (l : nat) (rest : list token) : Prop :=
  match rest with
  | [] => True
  | t :: _ => tk_error t = None /\ assignop_of (tk_kind t) = None /\
      exists r, rule_for (tk_kind t) = Some r /\ match head_rank r with Some q => q <= l | None => True end
  end.
Definition stops (p : precedence) (rest : list token) : Prop :=
  match rest with
  | [] => True
  | t :: _ => tk_error t = None /\ exists r, rule_for (tk_kind t) = Some r /\ match head_rank r with Some q => q < rank p | None => True end
  end.
Lemma follow_weak l l' rest : l <= l' -> follow l rest -> follow l' rest.
Proof.
  intros L. destruct rest as [|t r]; [tauto|]. intros (E & A & r' & R & H). split; [exact E|]. split; [exact A|]. exists r'. split; [exact R|].
  destruct (head_rank r'); [lia|exact I].
Qed.
Lemma follow_stops l p rest : l < rank p -> follow l rest -> stops p rest.
Proof.
  intros L. destruct rest as [|t r]; [tauto|]. intros (E & A & r' & R & H). split; [exact E|]. exists r'. split; [exact R|]. destruct (head_rank r'); [lia|exact I].
Qed.
Lemma rank_gap k r : rule_for k = Some r -> forall q, head_rank r = Some q -> q <> 0 /\ q <> 1 /\ q <> 10.
Proof. intros R q H. destruct k; try discriminate R; injection R as <-; try discriminate H; injection H as <-; repeat split; discriminate. Qed.
(** Nothing has the level of an assignment or of a prefix operator. *)
Lemma follow_1 p rest : follow 1 rest -> 1 <= rank p -> stops p rest.
Proof.
  intros F L. destruct rest as [|t r]; [exact I|]. destruct F as (E & A & r' & R & H). split; [exact E|]. exists r'. split; [exact R|].
  destruct (head_rank r') as [q|] eqn:Eq; [|exact I]. destruct (rank_gap _ _ R q Eq) as (A1 & A2 & A3). lia.
Qed.
Lemma follow_10 rest : follow 10 rest -> stops PUnary rest.
Proof.
  intros F. destruct rest as [|t r]; [exact I|]. destruct F as (E & A & r' & R & H). split; [exact E|]. exists r'. split; [exact R|].
  destruct (head_rank r') as [q|] eqn:Eq; [|exact I]. destruct (rank_gap _ _ R q Eq) as (A1 & A2 & A3). cbn [rank]. lia.
Qed.
Lemma prec_gt_spec a b : prec_gt a b = (rank b <? rank a).
Proof. reflexivity. Qed.

Section Loop.
Variable prec : precedence -> P expr.
Variable seq : P expr.
Lemma loop_stops p e F rest : stops p rest -> List.length rest < F -> operators_loop prec seq p e F rest = Ok (e, rest).
Proof.
  intros S L. destruct F as [|F]; [lia|]. cbn [operators_loop]. destruct rest as [|t r].
  - reflexivity.
  - destruct S as (E & r' & R & H). rewrite (bind_ok _ _ _ _ _ (peek_ok t r E)), (bind_ok _ _ _ _ _ (for_token_ok t r' _ R)). cbv zeta.
    unfold head_rank in H. destruct (r_postfix r') as [[po q]|].
    + rewrite prec_gt_spec. destruct (Nat.ltb_spec (rank q) (rank p)); [reflexivity|lia].
    + destruct (r_infix r') as [[i q]|]; [|reflexivity]. rewrite prec_gt_spec. destruct (Nat.ltb_spec (rank q) (rank p)); [reflexivity|lia].
Qed.
Lemma loop_infix p e F t ts i q e' rest : tk_error t = None ->
  (exists r, rule_for (tk_kind t) = Some r /\ r_postfix r = None /\ r_infix r = Some (i, q)) -> rank p <= rank q ->
  run_infix prec seq i e (negb (prec_gt p PAssignment)) (t :: ts) = Ok (e', rest) ->
  operators_loop prec seq p e (S F) (t :: ts) = operators_loop prec seq p e' F rest.
Proof.
  intros E (r & R & Hp & Hi) L Hr. cbn [operators_loop]. rewrite (bind_ok _ _ _ _ _ (peek_ok t ts E)), (bind_ok _ _ _ _ _ (for_token_ok t r _ R)). cbv zeta.
  rewrite Hp, Hi. rewrite prec_gt_spec. destruct (Nat.ltb_spec (rank q) (rank p)); [lia|]. rewrite (bind_ok _ _ _ _ _ Hr). reflexivity.
Qed.
Lemma loop_postfix p e F t ts i q e' rest : tk_error t = None ->
  (exists r, rule_for (tk_kind t) = Some r /\ r_postfix r = Some (i, q)) -> rank p <= rank q ->
  run_postfix i e (t :: ts) = Ok (e', rest) ->
  operators_loop prec seq p e (S F) (t :: ts) = operators_loop prec seq p e' F rest.
Proof.
  intros E (r & R & Hp) L Hr. cbn [operators_loop]. rewrite (bind_ok _ _ _ _ _ (peek_ok t ts E)), (bind_ok _ _ _ _ _ (for_token_ok t r _ R)). cbv zeta.
  rewrite Hp. rewrite prec_gt_spec. destruct (Nat.ltb_spec (rank q) (rank p)); [lia|]. rewrite (bind_ok _ _ _ _ _ Hr). reflexivity.
Qed.
Lemma no_assignment e c rest : (match rest with [] => True | t :: _ => tk_error t = None /\ assignop_of (tk_kind t) = None end) ->
  parse_assignment prec e c rest = Ok (e, rest).
Proof.
  unfold parse_assignment. destruct rest as [|t r].
  - reflexivity.
  - intros [E A]. rewrite (bind_ok _ _ _ _ _ (kind_ok t r E)), A. reflexivity.
Qed.
Lemma assignop_symbol op : assignop_of (assign_symbol op) = Some op.
Proof. destruct op; reflexivity. Qed.
Lemma do_assignment e op o tr rhs rest : is_symbol (assign_symbol op) o -> prec PAssignment (tr ++ rest) = Ok (rhs, rest) ->
  parse_assignment prec e true (o :: tr ++ rest) = Ok (EAssignment op e rhs, rest).
Proof.
  intros [K E] H. unfold parse_assignment. rewrite (bind_ok _ _ _ _ _ (kind_ok o _ E)), K, assignop_symbol.
  rewrite (bind_ok _ _ _ _ _ (next_ok o _ E)). unfold expression. rewrite (bind_ok _ _ _ _ _ H). reflexivity.
Qed.
End Loop.
Lemma follow_assign l rest : follow l rest -> match rest with [] => True | t :: _ => tk_error t = None /\ assignop_of (tk_kind t) = None end.
Proof. destruct rest as [|t r]; [tauto|]. intros (E & A & _). split; assumption. Qed.

(** * The statement proved by induction on the grammar *)
(** With enough fuel the parser has read [e] and stands before [rest], ready for the next operator. *)
Definition reads (p : precedence) (ts : list token) (e : expr) (rest : list token) : Prop :=
  exists d0, forall d, d0 <= d -> exists F, List.length rest < F /\
    p_prec (parser (S d)) p ts = operators_loop (p_prec (parser d)) (p_seq (parser d)) p e F rest.
Definition done (p : precedence) (ts : list token) (e : expr) (rest : list token) : Prop :=
  exists d0, forall d, d0 <= d -> p_prec (parser d) p ts = Ok (e, rest).
Lemma reads_done p ts e rest : reads p ts e rest -> stops p rest -> done p ts e rest.
Proof.
  intros (d0 & H) S. exists (1 + d0). intros [|d] L; [lia|]. destruct (H d ltac:(lia)) as (F & LF & E). rewrite E. apply loop_stops; assumption.
Qed.
(** One operator more. *)
Lemma reads_infix p ts e t ts' i q e' rest :
  reads p ts e (t :: ts') -> tk_error t = None ->
  (exists r, rule_for (tk_kind t) = Some r /\ r_postfix r = None /\ r_infix r = Some (i, q)) -> rank p <= rank q ->
  List.length rest < List.length (t :: ts') ->
  (exists d0, forall d, d0 <= d -> run_infix (p_prec (parser d)) (p_seq (parser d)) i e (negb (prec_gt p PAssignment)) (t :: ts') = Ok (e', rest)) ->
  reads p ts e' rest.
Proof.
  intros (d0 & H) E R L Len (d1 & H1). exists (d0 + d1). intros d Ld. destruct (H d ltac:(lia)) as (F & LF & EF). rewrite EF.
  destruct F as [|F]; [lia|]. rewrite (loop_infix _ _ p e F t ts' i q e' rest E R L (H1 d ltac:(lia))). exists F. split; [lia|reflexivity].
Qed.
Lemma reads_postfix p ts e t ts' i q e' rest :
  reads p ts e (t :: ts') -> tk_error t = None ->
  (exists r, rule_for (tk_kind t) = Some r /\ r_postfix r = Some (i, q)) -> rank p <= rank q ->
  List.length rest < List.length (t :: ts') ->
  run_postfix i e (t :: ts') = Ok (e', rest) ->
  reads p ts e' rest.
Proof.
  intros (d0 & H) E R L Len H1. exists d0. intros d Ld. destruct (H d ltac:(lia)) as (F & LF & EF). rewrite EF.
  destruct F as [|F]; [lia|]. rewrite (loop_postfix _ _ p e F t ts' i q e' rest E R L H1). exists F. split; [lia|reflexivity].
Qed.
(** The first operand. *)
Lemma reads_prefix p t ts f q e rest : tk_error t = None ->
  (exists r, rule_for (tk_kind t) = Some r /\ r_prefix r = Some (f, q)) ->
  (exists d0, forall d, d0 <= d -> run_prefix (p_prec (parser d)) (p_seq (parser d)) f (negb (prec_gt p PAssignment)) (t :: ts) = Ok (e, rest)) ->
  reads p (t :: ts) e rest.
Proof.
  intros E (r & R & Hf) (d0 & H). exists d0. intros d Ld. exists (S (List.length rest)). split; [lia|]. cbn [parser p_prec]. unfold parse_precedence_body.
  rewrite (bind_ok _ _ _ _ _ (peek_ok t ts E)), (bind_ok _ _ _ _ _ (for_token_ok t r _ R)), Hf.
  rewrite (bind_ok _ _ _ _ _ (H d Ld)). reflexivity.
Qed.

Definition rank_of (n : nat) : option precedence :=
  match n with 1 => Some PAssignment | 2 => Some PPipeline | 3 => Some PCoalesce | 4 => Some PRange | 5 => Some POr | 6 => Some PAnd
  | 7 => Some PComparison | 8 => Some PTerm | 9 => Some PFactor | 10 => Some PUnary | _ => None end.

(** The tokens of a comma separated list and its closing token. *)
Definition reads_items {A} (close : token_kind) (it : parsers -> P A) (ts : list token) (l : list A) : Prop :=
  forall c rest, is_symbol close c ->
    exists d0, forall d, d0 <= d -> forall F, List.length (ts ++ c :: rest) < F -> items_until close (it (parser d)) F (ts ++ c :: rest) = Ok (l, c :: rest).

Definition starts_ok (ts : list token) : Prop :=
  exists t r rl f, ts = t :: r /\ tk_error t = None /\ rule_for (tk_kind t) = Some rl /\ r_prefix rl = Some f.
Lemma starts_app a b : starts_ok a -> starts_ok (a ++ b).
Proof. intros (t & r & rl & f & -> & H). exists t, (r ++ b), rl, f. split; [reflexivity|exact H]. Qed.
Lemma starts_sym k t r rl f : is_symbol k t -> rule_for k = Some rl -> r_prefix rl = Some f -> starts_ok (t :: r).
Proof. intros [K E] R H. exists t, r, rl, f. rewrite K. auto. Qed.
Lemma follow_sym l k t r rl : is_symbol k t -> assignop_of k = None -> rule_for k = Some rl -> match head_rank rl with Some q => q <= l | None => True end ->
  follow l (t :: r).
Proof. intros [K E] A R H. split; [exact E|]. rewrite K. split; [exact A|]. exists rl. split; assumption. Qed.

(** Strings without their quotes. *)
Lemma string_app_length a b : String.length (a ++ b)%string = String.length a + String.length b.
Proof. induction a as [|c a IH]; cbn; [reflexivity|]. rewrite IH. reflexivity. Qed.
Lemma substring_prefix s r : String.substring 0 (String.length s) (s ++ r)%string = s.
Proof. induction s as [|c s IH]; cbn; [destruct r; reflexivity|]. rewrite IH. reflexivity. Qed.
Lemma process_ok c s ts : process_string (String c "" ++ s ++ String c "")%string ts = Ok (s, ts).
Proof.
  unfold process_string. cbv zeta.
  assert (L : String.length (String c "" ++ s ++ String c "")%string = S (S (String.length s))).
  { cbn [String.append String.length]. rewrite string_app_length. cbn. lia. }
  rewrite L. cbn [Nat.ltb Nat.leb Nat.sub]. rewrite Nat.sub_0_r.
  change (String.substring 1 (String.length s) (String c "" ++ s ++ String c "")) with (String.substring 0 (String.length s) (s ++ String c "")).
  rewrite substring_prefix. reflexivity.
Qed.

(** Types, parameters. *)
Lemma type_ok k i ty tt rest l : is_symbol k i -> writes_type ty tt -> l < 11 -> follow l rest ->
  parse_type_annotation k (i :: tt ++ rest) = Ok (ty, rest).
Proof.
  intros Hi Ht L F. unfold parse_type_annotation. rewrite (bind_ok _ _ _ _ _ (consume_ok k i _ Hi)).
  destruct Ht as [x t Hx|x t q Hx [Kq Eq]]; cbn [app]; rewrite (bind_ok _ _ _ _ _ (ident_ok x t _ Hx)).
  - destruct rest as [|t' r].
    + reflexivity.
    + destruct F as (E & A & rl & R & H). rewrite (bind_ok _ _ _ _ _ (is_ok TQuestionMark t' r E)).
      destruct (kind_eqb (tk_kind t') TQuestionMark) eqn:Ek; [|reflexivity].
      exfalso. apply kind_eqb_eq in Ek. rewrite Ek in R. injection R as <-. cbn in H. lia.
  - rewrite (bind_ok _ _ _ _ _ (is_ok TQuestionMark q rest Eq)), Kq, kind_refl.
    assert (EN : (next ;;; pret Datatypes.tt) (q :: rest) = Ok (Datatypes.tt, rest)) by (rewrite (bind_ok _ _ _ _ _ (next_ok q rest Eq)); reflexivity).
    rewrite (bind_ok _ _ _ _ _ EN). reflexivity.
Qed.
Lemma param_ok a ts n r : writes_param a ts -> tk_error n = None -> tk_kind n = TComma \/ tk_kind n = TPipe \/ tk_kind n = TRightParen ->
  parse_arg (ts ++ n :: r) = Ok (a, n :: r).
Proof.
  intros Ha E K. unfold parse_arg. destruct Ha as [x t Hx|x t c ty tt Hx Hc Ht]; cbn [app]; rewrite (bind_ok _ _ _ _ _ (ident_ok x t _ Hx)).
  - rewrite (bind_ok _ _ _ _ _ (is_ok TColon n r E)). destruct K as [->|[->| ->]]; reflexivity.
  - rewrite (bind_ok _ _ _ _ _ (is_ok TColon c _ (proj2 Hc))), (proj1 Hc), kind_refl.
    assert (F : follow 10 (n :: r)).
    { split; [exact E|]. destruct K as [->|[->| ->]]; (split; [reflexivity|]; eexists; split; [reflexivity|]); cbn; [exact I|lia|exact I]. }
    assert (EN : (t <- parse_type_annotation TColon ;; pret (Some t)) (c :: tt ++ n :: r) = Ok (Some ty, n :: r)).
    { rewrite (bind_ok _ _ _ _ _ (type_ok TColon c ty tt (n :: r) 10 Hc Ht ltac:(lia) F)). reflexivity. }
    rewrite (bind_ok _ _ _ _ _ EN). reflexivity.
Qed.
Lemma param_starts a ts : writes_param a ts -> exists t r, ts = t :: r /\ tk_error t = None /\ tk_kind t = TIdentifier.
Proof. destruct 1 as [x t (K & _ & E)|x t c ty tt (K & _ & E) Hc Ht]; eexists; eexists; (split; [reflexivity|]; split; [exact E|exact K]). Qed.
Lemma items_none {A} close (it : P A) F c rest : is_symbol close c -> 0 < F -> items_until close it F (c :: rest) = Ok ([], c :: rest).
Proof.
  intros [K E] L. destruct F as [|F]; [lia|]. cbn [items_until]. rewrite (bind_ok _ _ _ _ _ (kind_ok c rest E)), K, kind_refl. reflexivity.
Qed.
Lemma items_last {A} close (it : P A) F t ts x c rest : tk_error t = None -> tk_kind t <> close -> close <> TComma -> is_symbol close c -> 1 < F ->
  it (t :: ts) = Ok (x, c :: rest) -> items_until close it F (t :: ts) = Ok ([x], c :: rest).
Proof.
  intros Et N NC [K E] L Hit. destruct F as [|F]; [lia|]. cbn [items_until]. rewrite (bind_ok _ _ _ _ _ (kind_ok t ts Et)).
  destruct (kind_eqb (tk_kind t) close) eqn:Ek; [apply kind_eqb_eq in Ek; congruence|].
  rewrite (bind_ok _ _ _ _ _ Hit), (bind_ok _ _ _ _ _ (kind_ok c rest E)), K.
  destruct (kind_eqb close TComma) eqn:Ec; [apply kind_eqb_eq in Ec; congruence|]. rewrite kind_refl.
  rewrite (bind_ok (pret tt) _ _ _ _ eq_refl). rewrite (bind_ok _ _ _ _ _ (items_none close it F c rest (conj K E) ltac:(lia))). reflexivity.
Qed.
Lemma items_more {A} close (it : P A) F t ts x cm r l ts' : tk_error t = None -> tk_kind t <> close -> is_symbol TComma cm ->
  it (t :: ts) = Ok (x, cm :: r) -> items_until close it F r = Ok (l, ts') -> items_until close it (S F) (t :: ts) = Ok (x :: l, ts').
Proof.
  intros Et N [K E] Hit Hr. cbn [items_until]. rewrite (bind_ok _ _ _ _ _ (kind_ok t ts Et)).
  destruct (kind_eqb (tk_kind t) close) eqn:Ek; [apply kind_eqb_eq in Ek; congruence|].
  rewrite (bind_ok _ _ _ _ _ Hit), (bind_ok _ _ _ _ _ (kind_ok cm r E)), K, kind_refl.
  assert (EN : (next ;;; pret tt) (cm :: r) = Ok (tt, r)) by (rewrite (bind_ok _ _ _ _ _ (next_ok cm r E)); reflexivity).
  rewrite (bind_ok _ _ _ _ _ EN), (bind_ok _ _ _ _ _ Hr). reflexivity.
Qed.
Lemma params_ok l ts : writes_params l ts -> forall close c rest F, close = TPipe \/ close = TRightParen -> is_symbol close c -> List.length (ts ++ c :: rest) < F ->
  items_until close parse_arg F (ts ++ c :: rest) = Ok (l, c :: rest).
Proof.
  induction 1 as [|a ts Ha|a ts cm l tl Ha Hc H IH]; intros close c rest F Hclose Hcl L.
  - apply items_none; [exact Hcl|lia].
  - pose proof (param_ok a ts c rest Ha (proj2 Hcl)) as EA. destruct (param_starts a ts Ha) as (t & r & -> & E & K). cbn [app] in *.
    apply items_last; [exact E|rewrite K; destruct Hclose as [-> | ->]; discriminate|destruct Hclose as [-> | ->]; discriminate|exact Hcl|cbn in L; lia|].
    apply EA. rewrite (proj1 Hcl). destruct Hclose as [-> | ->]; auto.
  - destruct F as [|F]; [lia|]. rewrite <- app_assoc in *. cbn [app] in *. pose proof (param_ok a ts cm (tl ++ c :: rest) Ha (proj2 Hc) (or_introl (proj1 Hc))) as EA.
    rewrite app_length in L. cbn [List.length] in L.
    destruct (param_starts a ts Ha) as (t & r & -> & E & K). cbn [app] in *. eapply items_more; [exact E|rewrite K; destruct Hclose as [-> | ->]; discriminate|exact Hc|exact EA|].
    apply IH; [exact Hclose|exact Hcl|lia].
Qed.
Lemma names_ok l ts : writes_names l ts -> forall c rest F, is_symbol TRightCurly c -> List.length (ts ++ c :: rest) < F ->
  items_until TRightCurly consume_ident F (ts ++ c :: rest) = Ok (l, c :: rest).
Proof.
  induction 1 as [|x t Hx|x t cm l ts Hx Hc H IH]; intros c rest F Hcl L; cbn [app] in *.
  - apply items_none; [exact Hcl|lia].
  - apply items_last; [apply Hx|rewrite (proj1 Hx); discriminate|discriminate|exact Hcl|cbn in L; lia|]. apply ident_ok, Hx.
  - destruct F as [|F]; [lia|]. eapply items_more; [apply Hx|rewrite (proj1 Hx); discriminate|exact Hc|apply ident_ok, Hx|].
    apply IH; [exact Hcl|cbn in L; lia].
Qed.
Lemma comma_ok {A} close (it : P A) ts l c rest : is_symbol close c ->
  items_until close it (S (List.length (ts ++ c :: rest))) (ts ++ c :: rest) = Ok (l, c :: rest) ->
  comma_list close it (ts ++ c :: rest) = Ok (l, rest).
Proof.
  intros Hc H. unfold comma_list. rewrite (bind_ok _ _ _ _ _ H), (bind_ok _ _ _ _ _ (consume_ok close c rest Hc)). reflexivity.
Qed.

Lemma fields_ok o xs tx c rest : is_symbol TLeftCurly o -> writes_names xs tx -> is_symbol TRightCurly c ->
  parse_fields TLeftCurly TRightCurly (o :: tx ++ c :: rest) = Ok (xs, rest).
Proof.
  intros Ho Hx Hc. unfold parse_fields. rewrite (bind_ok _ _ _ _ _ (consume_ok _ _ _ Ho)). apply comma_ok; [exact Hc|]. apply (names_ok xs tx Hx); [exact Hc|lia].
Qed.
Lemma args_ok op cl o args ta c rest : cl = TPipe \/ cl = TRightParen -> is_symbol op o -> writes_params args ta -> is_symbol cl c ->
  parse_args op cl (o :: ta ++ c :: rest) = Ok (args, rest).
Proof.
  intros Hcl Ho Ha Hc. unfold parse_args. rewrite (bind_ok _ _ _ _ _ (consume_ok _ _ _ Ho)). apply comma_ok; [exact Hc|]. apply (params_ok args ta Ha); [exact Hcl|exact Hc|lia].
Qed.
Lemma count_ok args ts : List.length args <= 255 -> check_args args ts = Ok (tt, ts).
Proof. intro L. unfold check_args. destruct (Nat.ltb_spec 255 (List.length args)); [lia|reflexivity]. Qed.
Lemma return_ok r tr o rest : writes_return r tr -> is_symbol TLeftCurly o -> parse_return (tr ++ o :: rest) = Ok (r, o :: rest).
Proof.
  intros Hr Ho. unfold parse_return. destruct Hr as [|a ty tt Ha Ht]; cbn [app].
  - rewrite (bind_ok _ _ _ _ _ (is_ok TArrow o _ (proj2 Ho))), (proj1 Ho). reflexivity.
  - rewrite (bind_ok _ _ _ _ _ (is_ok TArrow a _ (proj2 Ha))), (proj1 Ha), kind_refl.
    rewrite (bind_ok _ _ _ _ _ (type_ok TArrow a ty tt (o :: rest) 1 Ha Ht ltac:(lia) (follow_sym 1 TLeftCurly o rest _ Ho eq_refl eq_refl Logic.I))). reflexivity.
Qed.
Lemma import_ok e ts rest : writes_import e ts -> import_decl (ts ++ rest) = Ok (e, rest).
Proof.
  intro H. unfold import_decl.
  assert (T : forall f q p (m : option string) xs, is_symbol TFrom f -> is_quoted TString """" p q ->
    (consume TFrom ;;; s <- consume_string ;; path <- process_string s ;; pret (EImportDecl m xs path)) (f :: q :: rest) = Ok (EImportDecl m xs p, rest)).
  { intros f q p m xs Hf (K & U & E). rewrite (bind_ok _ _ _ _ _ (consume_ok _ _ _ Hf)). unfold consume_string.
    assert (ES : (t <- consume TString ;; pret (utf8 (tk_slice t))) (q :: rest) = Ok (("""" ++ p ++ """")%string, rest)).
    { rewrite (bind_ok _ _ _ _ _ (consume_ok TString q rest (conj K E))). cbn. rewrite U. reflexivity. }
    rewrite (bind_ok _ _ _ _ _ ES), (bind_ok _ _ _ _ _ (process_ok """" p rest)). reflexivity. }
  destruct H as [i s a x t f q p Hi Hs Ha Hx Hf Hq|i o xs tx c f q p Hi Ho Hn Hxs Hc Hf Hq|i s a x t m o xs tx c f q p Hi Hs Ha Hx Hm Ho Hxs Hc Hf Hq];
    cbn [app]; rewrite (bind_ok _ _ _ _ _ (consume_ok _ _ _ Hi)).
  - rewrite (bind_ok _ _ _ _ _ (is_ok TStar s _ (proj2 Hs))), (proj1 Hs), kind_refl.
    match goal with |- pbind ?m _ _ = _ => assert (EM : m (s :: a :: t :: f :: q :: rest) = Ok (Some x, f :: q :: rest)) end.
    { rewrite (bind_ok _ _ _ _ _ (next_ok s _ (proj2 Hs))), (bind_ok _ _ _ _ _ (consume_ok _ _ _ Ha)), (bind_ok _ _ _ _ _ (ident_ok x t _ Hx)).
      rewrite (bind_ok _ _ _ _ _ (is_ok TComma f _ (proj2 Hf))), (proj1 Hf). reflexivity. }
    rewrite (bind_ok _ _ _ _ _ EM), (bind_ok _ _ _ _ _ (is_ok TLeftCurly f _ (proj2 Hf))), (proj1 Hf). exact (T f q p (Some x) [] Hf Hq).
  - rewrite (bind_ok _ _ _ _ _ (is_ok TStar o _ (proj2 Ho))), (proj1 Ho). change (kind_eqb TLeftCurly TStar) with false. cbv iota.
    rewrite (bind_ok (pret None) _ _ _ _ eq_refl), (bind_ok _ _ _ _ _ (is_ok TLeftCurly o _ (proj2 Ho))), (proj1 Ho), kind_refl.
    rewrite <- app_assoc. cbn [app]. rewrite (bind_ok _ _ _ _ _ (fields_ok o xs tx c (f :: q :: rest) Ho Hxs Hc)).
    destruct xs as [|x xs]; [contradiction|]. exact (T f q p None (x :: xs) Hf Hq).
  - rewrite (bind_ok _ _ _ _ _ (is_ok TStar s _ (proj2 Hs))), (proj1 Hs), kind_refl. rewrite <- app_assoc. cbn [app].
    match goal with |- pbind ?n _ _ = _ => assert (EM : n (s :: a :: t :: m :: o :: tx ++ c :: f :: q :: rest) = Ok (Some x, o :: tx ++ c :: f :: q :: rest)) end.
    { rewrite (bind_ok _ _ _ _ _ (next_ok s _ (proj2 Hs))), (bind_ok _ _ _ _ _ (consume_ok _ _ _ Ha)), (bind_ok _ _ _ _ _ (ident_ok x t _ Hx)).
      rewrite (bind_ok _ _ _ _ _ (is_ok TComma m _ (proj2 Hm))), (proj1 Hm), kind_refl.
      assert (EN : (next ;;; pret tt) (m :: o :: tx ++ c :: f :: q :: rest) = Ok (tt, o :: tx ++ c :: f :: q :: rest)) by (rewrite (bind_ok _ _ _ _ _ (next_ok m _ (proj2 Hm))); reflexivity).
      rewrite (bind_ok _ _ _ _ _ EN). reflexivity. }
    rewrite (bind_ok _ _ _ _ _ EM), (bind_ok _ _ _ _ _ (is_ok TLeftCurly o _ (proj2 Ho))), (proj1 Ho), kind_refl.
    rewrite (bind_ok _ _ _ _ _ (fields_ok o xs tx c (f :: q :: rest) Ho Hxs Hc)).
    destruct xs as [|y xs]; exact (T f q p (Some x) _ Hf Hq).
Qed.

(** Atoms. *)
Lemma atom_starts e ts : writes_atom e ts -> starts_ok ts.
Proof.
  destruct 1 as [d t (K & _ & E)|s t (K & _ & E)|t [K E]|t [K E]|t [K E]|o c [K E] _|x t (K & _ & E)];
    (eexists; eexists; eexists; eexists; split; [reflexivity|]; split; [exact E|]; rewrite K; split; reflexivity).
Qed.
Lemma int_ok d t r : token_is TInteger d t -> d <> [] -> all digit_char d ->
  literal (t :: r) = if (numeral_value d <=? i64_max)%Z then Ok (ELitInt (numeral_value d), r) else Err INVALID_INTEGER_VALUE.
Proof.
  intros (K & S & E) N D. unfold literal. rewrite (bind_ok _ _ _ _ _ (next_ok t r E)), K, S. unfold pbind at 1.
  rewrite (parse_i64_value d N) by (apply (all_forallb _ _ _ is_digit_char), D). destruct (numeral_value d <=? i64_max)%Z; reflexivity.
Qed.
Lemma atom_reads e ts p rest : writes_atom e ts -> 1 <= rank p -> (match rest with [] => True | t :: _ => tk_error t = None /\ assignop_of (tk_kind t) = None end) ->
  reads p (ts ++ rest) e rest.
Proof.
  intros H Lp F. destruct H as [d t T N D V|s t (K & U & E)|t [K E]|t [K E]|t [K E]|o c Ho Hc|x t (K & U & E)]; cbn [app].
  - apply (reads_prefix p t rest FLiteral PPrimary); [apply T|eexists; rewrite (proj1 T); split; reflexivity|]. exists 0. intros d' _. cbn [run_prefix].
    rewrite (int_ok d t rest T N D). destruct (Z.leb_spec (numeral_value d) i64_max) as [L|L]; [reflexivity|unfold i64_max in L; lia].
  - apply (reads_prefix p t rest FLiteral PPrimary); [exact E|eexists; rewrite K; split; reflexivity|]. exists 0. intros d' _. cbn [run_prefix].
    unfold literal. rewrite (bind_ok _ _ _ _ _ (next_ok t rest E)), K, U. rewrite (bind_ok _ _ _ _ _ (process_ok """" s rest)). reflexivity.
  - apply (reads_prefix p t rest FLiteral PPrimary); [exact E|eexists; rewrite K; split; reflexivity|]. exists 0. intros d' _. cbn [run_prefix].
    unfold literal. rewrite (bind_ok _ _ _ _ _ (next_ok t rest E)), K. reflexivity.
  - apply (reads_prefix p t rest FLiteral PPrimary); [exact E|eexists; rewrite K; split; reflexivity|]. exists 0. intros d' _. cbn [run_prefix].
    unfold literal. rewrite (bind_ok _ _ _ _ _ (next_ok t rest E)), K. reflexivity.
  - apply (reads_prefix p t rest FLiteral PPrimary); [exact E|eexists; rewrite K; split; reflexivity|]. exists 0. intros d' _. cbn [run_prefix].
    unfold literal. rewrite (bind_ok _ _ _ _ _ (next_ok t rest E)), K. reflexivity.
  - apply (reads_prefix p o (c :: rest) FGrouping PPrimary); [apply Ho|eexists; rewrite (proj1 Ho); split; reflexivity|]. exists 0. intros d' _. cbn [run_prefix].
    unfold grouping. rewrite (bind_ok _ _ _ _ _ (consume_ok _ _ _ Ho)), (bind_ok _ _ _ _ _ (is_ok TRightParen c rest (proj2 Hc))), (proj1 Hc), kind_refl.
    rewrite (bind_ok _ _ _ _ _ (next_ok c rest (proj2 Hc))). reflexivity.
  - apply (reads_prefix p t rest FVariable PPrimary); [exact E|eexists; rewrite K; split; reflexivity|]. exists 0. intros d' _. cbn [run_prefix].
    unfold variable. rewrite (bind_ok _ _ _ _ _ (next_ok t rest E)), K, U. apply no_assignment, F.
Qed.

(** * The induction *)
(** Calls and accesses may follow every expression of level 11. *)
Definition cap (l : nat) : nat := if l <? 11 then l else 14.
Definition Pw (l : nat) (e : expr) (ts : list token) : Prop :=
  starts_ok ts /\ forall p rest, 1 <= rank p -> rank p <= l -> rank p <= 11 -> follow (cap l) rest -> reads p (ts ++ rest) e rest.
Definition Pt (e : expr) (ts : list token) : Prop :=
  starts_ok ts /\
  (forall p rest, 1 <= rank p -> rank p <= 11 -> follow 14 rest -> reads p (ts ++ rest) e rest) /\
  (forall op o tr rhs rest, is_symbol (assign_symbol op) o -> done PAssignment (tr ++ rest) rhs rest ->
     reads PAssignment (ts ++ o :: tr ++ rest) (EAssignment op e rhs) rest).
Definition Pi (l : list expr) (ts : list token) : Prop :=
  forall close, close = TRightParen \/ close = TRightSquare -> reads_items close (fun ps => expression (p_prec ps)) ts l.
Definition Pf (l : list (string * expr)) (ts : list token) : Prop :=
  reads_items TRightCurly (fun ps => property (p_prec ps)) ts l.
Definition Pp (x : string) (e : expr) (ts : list token) : Prop :=
  (exists t r, ts = t :: r /\ tk_error t = None /\ tk_kind t <> TRightCurly) /\
  forall rest, follow 1 rest -> exists d0, forall d, d0 <= d -> property (p_prec (parser d)) (ts ++ rest) = Ok ((x, e), rest).

(** The last token is a closing brace. *)
Definition closes (rest : list token) : Prop := exists c r, rest = c :: r /\ is_symbol TRightCurly c.
Definition starts_stmt (ts : list token) : Prop :=
  exists t r, ts = t :: r /\ tk_error t = None /\ rule_for (tk_kind t) <> None /\ ends_block (tk_kind t) = false.
Definition enough {A} (f : parsers -> P A) (ts : list token) (a : A) (rest : list token) : Prop :=
  exists d0, forall d, d0 <= d -> f (parser d) ts = Ok (a, rest).
Definition Pb (e : expr) (ts : list token) : Prop :=
  (exists o r, ts = o :: r /\ is_symbol TLeftCurly o) /\ forall rest, enough (fun ps => block_expression (p_seq ps)) (ts ++ rest) e rest.
Definition Pif (e : expr) (ts : list token) : Prop :=
  (exists i r, ts = i :: r /\ is_symbol TIf i) /\
  forall rest, match rest with [] => True | t :: _ => tk_error t = None /\ tk_kind t <> TElse end ->
    exists d0, forall d, d0 <= d -> forall F, List.length (ts ++ rest) < F -> if_chain (p_prec (parser d)) (p_seq (parser d)) F (ts ++ rest) = Ok (e, rest).
Definition Pq (b : bool) (es : list expr) (t : option expr) (ts : list token) : Prop :=
  (ts = [] \/ starts_stmt ts) /\
  forall rest, closes rest \/ b = false /\ rest = [] ->
    exists d0, forall d, d0 <= d -> forall F, List.length (ts ++ rest) < F -> statements (p_prec (parser d)) (p_seq (parser d)) F (ts ++ rest) = Ok ((es, t), rest).
Definition Ps (open : bool) (e : expr) (ts : list token) : Prop :=
  starts_stmt ts /\
  forall rest, (open = true -> follow 1 rest) ->
    enough (fun ps => statement (p_prec ps) (p_seq ps) (match ts with t :: _ => tk_kind t | [] => TEndOfInput end)) (ts ++ rest) e rest.
(** A declaration read by [f], beginning with [k]. *)
Definition Pd (k : token_kind) (open : bool) (f : parsers -> P expr) (e : expr) (ts : list token) : Prop :=
  (exists t r, ts = t :: r /\ is_symbol k t) /\ forall rest, (open = true -> follow 1 rest) -> enough f (ts ++ rest) e rest.
Definition Pl := Pd TLet true (fun ps => var_decl (p_prec ps)).
Definition Pfn := Pd TFunction false (fun ps => fn_decl (p_seq ps)).
Definition Pop := Pd TOperator false (fun ps => op_decl (p_seq ps)).
Definition Pc := Pd TClass false (fun ps => class_decl (p_prec ps) (p_seq ps)).
Definition Pm (es : list expr) (ts : list token) : Prop :=
  (ts = [] \/ exists t r, ts = t :: r /\ tk_error t = None /\ (tk_kind t = TFunction \/ tk_kind t = TOperator)) /\
  forall c rest, is_symbol TRightCurly c ->
    exists d0, forall d, d0 <= d -> forall F, List.length (ts ++ c :: rest) < F -> class_items (p_seq (parser d)) F (ts ++ c :: rest) = Ok (es, c :: rest).

Lemma cap_id l : l < 11 -> cap l = l.
Proof. intro L. unfold cap. destruct (Nat.ltb_spec l 11); [reflexivity|lia]. Qed.
Lemma cap_le l m : l <= m -> m < 11 -> cap l <= m.
Proof. intros A B. rewrite cap_id by lia. exact A. Qed.
Lemma cap_14 l : cap l <= 14.
Proof. unfold cap. destruct (Nat.ltb_spec l 11); lia. Qed.
Lemma w_done l e ts (w : writes l e ts) p rest : Pw l e ts -> 1 <= rank p -> rank p <= l -> rank p <= 11 -> follow (cap l) rest -> stops p rest -> done p (ts ++ rest) e rest.
Proof. intros [_ H] A B C F S. apply reads_done; [apply H; assumption|exact S]. Qed.
Lemma w_done1 e ts (w : writes 1 e ts) rest : Pw 1 e ts -> follow 1 rest -> done PAssignment (ts ++ rest) e rest.
Proof. intros H F. apply (w_done 1 e ts w); [exact H|cbn; lia|cbn; lia|cbn; lia|exact F|apply follow_1; [exact F|cbn; lia]]. Qed.
Lemma follow_close k t r l : is_symbol k t -> k = TRightParen \/ k = TRightSquare \/ k = TRightCurly \/ k = TComma -> follow l (t :: r).
Proof. intros S K. destruct K as [->|[->|[->| ->]]]; (eapply follow_sym; [exact S|reflexivity|reflexivity|exact I]). Qed.
Lemma starts_kind ts : starts_ok ts -> exists t r, ts = t :: r /\ tk_error t = None /\ tk_kind t <> TRightParen /\ tk_kind t <> TRightSquare /\ tk_kind t <> TRightCurly.
Proof.
  intros (t & r & rl & f & -> & E & R & H). exists t, r. split; [reflexivity|]. split; [exact E|].
  repeat split; intro K; rewrite K in R; injection R as <-; discriminate H.
Qed.
Lemma binary_rule op : exists k q, hd_error (binary_symbols op) = Some k /\ binop_of k = Some op /\ assignop_of k = None /\ rank q = binary_level op /\ rank (increment q) = S (binary_level op) /\
  exists r, rule_for k = Some r /\ r_postfix r = None /\ r_infix r = Some (FBinary, q).
Proof.
  exists (hd TReserved (binary_symbols op)). exists (match binary_level op with 2 => PPipeline | 3 => PCoalesce | 4 => PRange | 5 => POr | 6 => PAnd | 7 => PComparison | 8 => PTerm | _ => PFactor end).
  destruct op; (split; [reflexivity|]; split; [reflexivity|]; split; [reflexivity|]; split; [reflexivity|]; split; [reflexivity|]; eexists; split; [reflexivity|]; split; reflexivity).
Qed.
Lemma binary_level_range op : 2 <= binary_level op <= 9.
Proof. destruct op; cbn; lia. Qed.
Lemma can_assign_1 p : rank p <= 1 -> negb (prec_gt p PAssignment) = true.
Proof. intro L. rewrite prec_gt_spec. cbn [rank]. destruct (Nat.ltb_spec 1 (rank p)); [lia|reflexivity]. Qed.
Lemma rank_1 p : 1 <= rank p -> rank p <= 1 -> p = PAssignment.
Proof. destruct p; cbn; lia || reflexivity. Qed.

Lemma curly_follow l o r : is_symbol TLeftCurly o -> follow l (o :: r).
Proof. intro Ho. exact (follow_sym l TLeftCurly o r _ Ho eq_refl eq_refl Logic.I). Qed.
Lemma starts_ok_stmt ts : starts_ok ts -> starts_stmt ts.
Proof.
  intros (t & r & rl & f & -> & E & R & H). exists t, r. split; [reflexivity|]. split; [exact E|]. split; [rewrite R; discriminate|].
  destruct (tk_kind t); try reflexivity; injection R as <-; discriminate H.
Qed.
Lemma starts_sym_stmt k t r : is_symbol k t -> rule_for k <> None -> ends_block k = false -> starts_stmt (t :: r).
Proof. intros [K E] R N. exists t, r. rewrite K. auto. Qed.
Lemma starts_stmt_app a b : starts_stmt a -> starts_stmt (a ++ b).
Proof. intros (t & r & -> & H). exists t, (r ++ b). split; [reflexivity|exact H]. Qed.
(** An expression statement is read as an expression. *)
Lemma expression_statement prec seq t rl f : rule_for (tk_kind t) = Some rl -> r_prefix rl = Some f -> statement prec seq (tk_kind t) = expression prec.
Proof. intros R H. destruct (tk_kind t); try reflexivity; injection R as <-; discriminate H. Qed.
Lemma not_continues k rl : rule_for k = Some rl -> ~ continues k -> assignop_of k = None /\ head_rank rl = None.
Proof.
  intros R N. destruct k; try discriminate R; injection R as <-; try (split; reflexivity); exfalso; apply N; unfold continues; cbn; tauto.
Qed.
Lemma afresh_follow ts rest : starts_stmt ts -> begins_afresh ts -> follow 1 (ts ++ rest).
Proof.
  intros (t & r & -> & E & R & _) N. cbn [app follow begins_afresh] in *. split; [exact E|].
  destruct (rule_for (tk_kind t)) as [rl|] eqn:Er; [|contradiction]. destruct (not_continues _ _ Er N) as [A H]. split; [exact A|].
  exists rl. split; [reflexivity|]. rewrite H. exact I.
Qed.
Lemma closes_follow l rest : closes rest -> follow l rest.
Proof. intros (c & r & -> & Hc). apply (follow_close TRightCurly); [exact Hc|tauto]. Qed.
Lemma ends_follow b rest : closes rest \/ b = false /\ rest = [] -> follow 1 rest.
Proof. intros [H|[_ ->]]; [apply closes_follow, H|exact I]. Qed.
Lemma ends_peek b rest : closes rest \/ b = false /\ rest = [] -> exists k, peek_kind rest = Ok (k, rest) /\ ends_block k = true.
Proof.
  intros [(c & r & -> & [K E])|[_ ->]].
  - exists TRightCurly. split; [|reflexivity]. rewrite (kind_ok c r E), K. reflexivity.
  - exists TEndOfInput. split; reflexivity.
Qed.
Lemma follow_no_else l rest : follow l rest -> match rest with [] => True | t :: _ => tk_error t = None /\ tk_kind t <> TElse end.
Proof. destruct rest as [|t r]; [tauto|]. intros (E & _ & rl & R & _). split; [exact E|]. intro K. rewrite K in R. discriminate R. Qed.
Lemma operator_ok o : overop_of (operator_symbol o) = Some o.
Proof. destruct o; reflexivity. Qed.

Lemma writes_reads : (forall l e ts, writes l e ts -> Pw l e ts) /\ (forall l ts, writes_items l ts -> Pi l ts) /\ (forall b es t ts, writes_seq b es t ts -> Pq b es t ts).
Proof.
  assert (K_atom : forall l e ts (H : writes_atom e ts), Pw l e ts).
  { intros l e ts H. split; [exact (atom_starts e ts H)|]. intros p rest A B C F. apply atom_reads; [exact H|exact A|exact (follow_assign _ rest F)]. }
  assert (K_paren : forall l e o ts c (Ho : is_symbol TLeftParen o) (w : writes 1 e ts) (IH : Pw 1 e ts) (Hc : is_symbol TRightParen c), Pw l e (o :: ts ++ [c])).
  { intros l e o ts c Ho w IH Hc. split; [apply (starts_sym TLeftParen o _ _ _ Ho eq_refl eq_refl)|]. intros p rest A B C F. cbn [app]. rewrite <- app_assoc. cbn [app].
    apply (reads_prefix p o _ FGrouping PPrimary); [apply Ho|eexists; rewrite (proj1 Ho); split; reflexivity|].
    destruct (w_done1 e ts w (c :: rest) IH (follow_close _ _ _ _ Hc ltac:(auto))) as (d0 & D). exists d0. intros d Ld. cbn [run_prefix]. unfold grouping.
    rewrite (bind_ok _ _ _ _ _ (consume_ok _ _ _ Ho)). destruct (starts_kind ts (proj1 IH)) as (t & r & Ets & E & N & _). specialize (D d Ld). rewrite Ets in *. cbn [app] in *.
    rewrite (bind_ok _ _ _ _ _ (is_ok TRightParen t _ E)). destruct (kind_eqb (tk_kind t) TRightParen) eqn:Ek; [apply kind_eqb_eq in Ek; contradiction|].
    unfold expression. rewrite (bind_ok _ _ _ _ _ D), (bind_ok _ _ _ _ _ (consume_ok _ _ _ Hc)). reflexivity. }
  assert (K_prefix : forall l op o e ts (Hl : l <= 10) (Ho : is_symbol (prefix_symbol op) o) (w : writes 10 e ts) (IH : Pw 10 e ts), Pw l (EPrefix op e) (o :: ts)).
  { intros l op o e ts Hl Ho w IH. split.
    - destruct op; [apply (starts_sym TMinus o _ _ _ Ho eq_refl eq_refl)|apply (starts_sym TNot o _ _ _ Ho eq_refl eq_refl)].
    - intros p rest A B C F. cbn [app]. apply (reads_prefix p o _ FPrefix PUnary); [apply Ho|rewrite (proj1 Ho); destruct op; eexists; split; reflexivity|].
      assert (F10 : follow 10 rest) by exact (follow_weak (cap l) 10 rest (cap_le l 10 Hl ltac:(lia)) F).
      destruct (w_done 10 e ts w PUnary rest IH ltac:(cbn; lia) ltac:(cbn; lia) ltac:(cbn; lia) F10 (follow_10 rest F10)) as (d0 & D). exists d0. intros d Ld. cbn [run_prefix]. unfold prefix_operator.
      rewrite (bind_ok _ _ _ _ _ (next_ok o _ (proj2 Ho))), (bind_ok _ _ _ _ _ (D d Ld)), (proj1 Ho). destruct op; reflexivity. }
  assert (K_binary : forall l op a os b ta tb (Hl : l <= binary_level op) (wa : writes (binary_level op) a ta) (IHa : Pw (binary_level op) a ta) (Hos : Forall2 is_symbol (binary_symbols op) os) (wb : writes (S (binary_level op)) b tb) (IHb : Pw (S (binary_level op)) b tb),
    Pw l (EBinary op a b) (ta ++ os ++ tb)).
  { intros l op a os b ta tb Hl wa IHa Hos wb IHb. split; [apply starts_app, IHa|]. intros p rest A B C F.
    destruct (binary_rule op) as (k & q & Hk & Hb & Ha & Hq & Hi & Hr). pose proof (binary_level_range op) as HR.
    assert (Hos' : exists o os', os = o :: os' /\ is_symbol k o /\ (kind_eqb k TPipe = true -> exists o2, os' = [o2] /\ is_symbol TPipe o2) /\ (kind_eqb k TPipe = false -> os' = [])).
    { destruct op; cbn [binary_symbols hd_error] in *; injection Hk as <-; inversion Hos as [|k1 o1 ks1 os1 S1 Hos1]; subst; inversion Hos1 as [|k2 o2 ks2 os2 S2 Hos2]; subst;
        try (inversion Hos2; subst); exists o1; eexists; (split; [reflexivity|]; split; [exact S1|]; split; intro X; try discriminate X; try reflexivity; try (exists o2; split; [reflexivity|exact S2])). }
    destruct Hos' as (o & os' & -> & So & Hp1 & Hp2). rewrite <- !app_assoc. cbn [app].
    eapply (reads_infix p _ a o (os' ++ tb ++ rest) FBinary q (EBinary op a b) rest).
    - apply (proj2 IHa); [exact A|lia|exact C|]. destruct Hr as (r & R & Hpo & Hin). rewrite cap_id by lia. apply (follow_sym (binary_level op) k o _ r So Ha R). unfold head_rank. rewrite Hpo, Hin, Hq. lia.
    - apply So.
    - rewrite (proj1 So). exact Hr.
    - rewrite Hq. lia.
    - cbn [List.length]. rewrite !app_length. lia.
    - assert (Ecap : cap l = l) by (apply cap_id; lia). rewrite Ecap in F.
      assert (FS : follow (cap (S (binary_level op))) rest) by (rewrite (cap_id (S (binary_level op))) by lia; apply (follow_weak l); [lia|exact F]).
      assert (SS : stops (increment q) rest) by (apply (follow_stops l); [rewrite Hi; lia|exact F]).
      destruct (w_done (S (binary_level op)) b tb wb (increment q) rest IHb ltac:(lia) ltac:(lia) ltac:(lia) FS SS) as (d0 & D).
      exists d0. intros d Ld. cbn [run_infix]. unfold binary_operator. rewrite (bind_ok _ _ _ _ _ (next_ok o _ (proj2 So))), (proj1 So), Hb.
      assert (EP : (if kind_eqb k TPipe then consume TPipe ;;; pret tt else pret tt) (os' ++ tb ++ rest) = Ok (tt, tb ++ rest)).
      { destruct (kind_eqb k TPipe) eqn:Ek.
        - destruct (Hp1 eq_refl) as (o2 & -> & S2). cbn [app]. rewrite (bind_ok _ _ _ _ _ (consume_ok TPipe o2 _ S2)). reflexivity.
        - rewrite (Hp2 eq_refl). reflexivity. }
      rewrite (bind_ok _ _ _ _ _ EP). destruct Hr as (r & R & Hpo & Hin). rewrite <- (proj1 So) in R. rewrite (bind_ok _ _ _ _ _ (for_token_ok o r _ R)), Hin.
      rewrite (bind_ok _ _ _ _ _ (D d Ld)). reflexivity. }
  assert (K_is : forall l e ty ts i tt (Hl : l <= 7) (w : writes 7 e ts) (IH : Pw 7 e ts) (Hi : is_symbol TIs i) (Ht : writes_type ty tt), Pw l (EIs e ty) (ts ++ i :: tt)).
  { intros l e ty ts i tt Hl w IH Hi Ht. split; [apply starts_app, IH|]. intros p rest A B C F. rewrite <- app_assoc. cbn [app].
    eapply (reads_infix p _ e i (tt ++ rest) FIs PComparison).
    - apply (proj2 IH); [exact A|lia|exact C|]. apply (follow_sym 7 TIs i _ _ Hi eq_refl eq_refl). cbn. lia.
    - apply Hi.
    - rewrite (proj1 Hi). eexists. split; [reflexivity|]. split; reflexivity.
    - cbn [rank]. lia.
    - cbn [List.length]. rewrite app_length. lia.
    - exists 0. intros d _. cbn [run_infix]. unfold is_operator. rewrite (bind_ok _ _ _ _ _ (type_ok TIs i ty tt rest l Hi Ht ltac:(lia) (eq_ind _ (fun n => follow n rest) F _ (cap_id l ltac:(lia))))). reflexivity. }
  assert (K_null : forall l e ts q (Hl : l <= 11) (w : writes 11 e ts) (IH : Pw 11 e ts) (Hq : is_symbol TQuestionMark q), Pw l (ENullPropagate e) (ts ++ [q])).
  { intros l e ts q Hl w IH Hq. split; [apply starts_app, IH|]. intros p rest A B C F. rewrite <- app_assoc. cbn [app].
    eapply (reads_postfix p _ e q rest FNullPropagate PPropagate).
    - apply (proj2 IH); [exact A|lia|exact C|]. apply (follow_sym 14 TQuestionMark q _ _ Hq eq_refl eq_refl). cbn. lia.
    - apply Hq.
    - rewrite (proj1 Hq). eexists. split; reflexivity.
    - cbn [rank]. lia.
    - cbn [List.length]. lia.
    - cbn [run_postfix]. unfold null_propagate. rewrite (bind_ok _ _ _ _ _ (consume_ok _ _ _ Hq)). reflexivity. }
  assert (K_err : forall l e ts q (Hl : l <= 11) (w : writes 11 e ts) (IH : Pw 11 e ts) (Hq : is_symbol TErrorPropagate q), Pw l (EErrorPropagate e) (ts ++ [q])).
  { intros l e ts q Hl w IH Hq. split; [apply starts_app, IH|]. intros p rest A B C F. rewrite <- app_assoc. cbn [app].
    eapply (reads_postfix p _ e q rest FErrorPropagate PPropagate).
    - apply (proj2 IH); [exact A|lia|exact C|]. apply (follow_sym 14 TErrorPropagate q _ _ Hq eq_refl eq_refl). cbn. lia.
    - apply Hq.
    - rewrite (proj1 Hq). eexists. split; reflexivity.
    - cbn [rank]. lia.
    - cbn [List.length]. lia.
    - cbn [run_postfix]. unfold error_propagate. rewrite (bind_ok _ _ _ _ _ (consume_ok _ _ _ Hq)). reflexivity. }
  (* calls and accesses *)
  assert (K_call : forall l f tf o args ta c (Hl : l <= 11) (wf : writes 11 f tf) (IHf : Pw 11 f tf) (Ho : is_symbol TLeftParen o) (wa : writes_items args ta) (IHa : Pi args ta) (Hc : is_symbol TRightParen c),
    Pw l (EFnCall f args) (tf ++ o :: ta ++ [c])).
  { intros l f tf o args ta c Hl wf IHf Ho wa IHa Hc. split; [apply starts_app, IHf|]. intros p rest A B C F. rewrite <- app_assoc. cbn [app]. rewrite <- app_assoc. cbn [app].
    eapply (reads_infix p _ f o (ta ++ c :: rest) FCall PCall).
    - apply (proj2 IHf); [exact A|lia|exact C|]. apply (follow_sym 14 TLeftParen o _ _ Ho eq_refl eq_refl). cbn. lia.
    - apply Ho.
    - rewrite (proj1 Ho). eexists. split; [reflexivity|]. split; reflexivity.
    - cbn [rank]. lia.
    - cbn [List.length]. rewrite app_length. cbn [List.length]. lia.
    - destruct (IHa TRightParen (or_introl eq_refl) c rest Hc) as (d0 & D). exists d0. intros d Ld. cbn [run_infix]. unfold fn_call.
      rewrite (bind_ok _ _ _ _ _ (is_ok TBackslashArg o _ (proj2 Ho))), (proj1 Ho). change (kind_eqb TLeftParen TBackslashArg) with false. cbv iota.
      rewrite (bind_ok _ _ _ _ _ (consume_ok _ _ _ Ho)). rewrite (bind_ok _ _ _ _ _ (comma_ok TRightParen _ ta args c rest Hc (D d Ld _ (Nat.lt_succ_diag_r _)))). reflexivity. }
  assert (K_backslash : forall l f tf s t (Hl : l <= 11) (wf : writes 11 f tf) (IHf : Pw 11 f tf) (Ht : is_quoted TBackslashArg "\" s t),
    Pw l (EFnCall f [ELitString s]) (tf ++ [t])).
  { intros l f tf s t Hl wf IHf Ht. split; [apply starts_app, IHf|]. intros p rest A B C F. rewrite <- app_assoc. cbn [app]. destruct Ht as (K & U & E).
    eapply (reads_infix p _ f t rest FCall PCall).
    - apply (proj2 IHf); [exact A|lia|exact C|]. apply (follow_sym 14 TBackslashArg t _ _ (conj K E) eq_refl eq_refl). cbn. lia.
    - exact E.
    - rewrite K. eexists. split; [reflexivity|]. split; reflexivity.
    - cbn [rank]. lia.
    - cbn [List.length]. lia.
    - exists 0. intros d Ld. cbn [run_infix]. unfold fn_call.
      rewrite (bind_ok _ _ _ _ _ (is_ok TBackslashArg t _ E)), K, kind_refl, (bind_ok _ _ _ _ _ (next_ok t _ E)), U.
      rewrite (bind_ok _ _ _ _ _ (process_ok "\" s rest)). reflexivity. }
  assert (K_list : forall l o items ts c (Ho : is_symbol TLeftSquare o) (w : writes_items items ts) (IH : Pi items ts) (Hc : is_symbol TRightSquare c),
    Pw l (ELitList items) (o :: ts ++ [c])).
  { intros l o items ts c Ho w IH Hc. split; [apply (starts_sym TLeftSquare o _ _ _ Ho eq_refl eq_refl)|]. intros p rest A B C F. cbn [app]. rewrite <- app_assoc. cbn [app].
    apply (reads_prefix p o _ FList PPrimary); [apply Ho|eexists; rewrite (proj1 Ho); split; reflexivity|].
    destruct (IH TRightSquare (or_intror eq_refl) c rest Hc) as (d0 & D). exists d0. intros d Ld. cbn [run_prefix]. unfold list_literal.
    rewrite (bind_ok _ _ _ _ _ (consume_ok _ _ _ Ho)). rewrite (bind_ok _ _ _ _ _ (comma_ok TRightSquare _ ts items c rest Hc (D d Ld _ (Nat.lt_succ_diag_r _)))). reflexivity. }
  assert (K_object : forall l h o items ts c (Hh : is_symbol TObject h) (Ho : is_symbol TLeftCurly o) (w : writes_fields items ts) (IH : Pf items ts) (Hc : is_symbol TRightCurly c),
    Pw l (ELitObject items) (h :: o :: ts ++ [c])).
  { intros l h o items ts c Hh Ho w IH Hc. split; [apply (starts_sym TObject h _ _ _ Hh eq_refl eq_refl)|]. intros p rest A B C F. cbn [app]. rewrite <- app_assoc. cbn [app].
    eapply (reads_prefix p h _ FObject); [apply Hh|eexists; rewrite (proj1 Hh); split; reflexivity|].
    destruct (IH c rest Hc) as (d0 & D). exists d0. intros d Ld. cbn [run_prefix]. unfold object.
    rewrite (bind_ok _ _ _ _ _ (consume_ok _ _ _ Hh)), (bind_ok _ _ _ _ _ (consume_ok _ _ _ Ho)). rewrite (bind_ok _ _ _ _ _ (comma_ok TRightCurly _ ts items c rest Hc (D d Ld _ (Nat.lt_succ_diag_r _)))). reflexivity. }
  assert (K_assign_name : forall l op x t o rhs tr (Hl : l <= 1) (Hx : is_name x t) (Ho : is_symbol (assign_symbol op) o) (w : writes 1 rhs tr) (IH : Pw 1 rhs tr),
    Pw l (EAssignment op (ELitIdent x) rhs) (t :: o :: tr)).
  { intros l op x t o rhs tr Hl Hx Ho w IH. destruct Hx as (K & U & E). split; [exists t, (o :: tr); eexists; eexists; split; [reflexivity|]; split; [exact E|]; rewrite K; split; reflexivity|].
    intros p rest A B C F. cbn [app]. assert (p = PAssignment) by (apply rank_1; lia). subst p.
    apply (reads_prefix PAssignment t _ FVariable PPrimary); [exact E|eexists; rewrite K; split; reflexivity|].
    destruct (w_done1 rhs tr w rest IH (follow_weak _ _ _ (cap_le l 1 Hl ltac:(lia)) F)) as (d0 & D). exists d0. intros d Ld. cbn [run_prefix].
    unfold variable. rewrite (bind_ok _ _ _ _ _ (next_ok t _ E)), K, U. apply do_assignment; [exact Ho|exact (D d Ld)]. }
  assert (K_assign : forall l op e te o rhs tr (Hl : l <= 1) (wt : writes_target e te) (IHt : Pt e te) (Ho : is_symbol (assign_symbol op) o) (w : writes 1 rhs tr) (IH : Pw 1 rhs tr),
    Pw l (EAssignment op e rhs) (te ++ o :: tr)).
  { intros l op e te o rhs tr Hl wt IHt Ho w IH. split; [apply starts_app, IHt|]. intros p rest A B C F. assert (p = PAssignment) by (apply rank_1; lia). subst p. rewrite <- app_assoc. cbn [app].
    apply (proj2 (proj2 IHt)); [exact Ho|]. apply (w_done1 rhs tr w rest IH (follow_weak _ _ _ (cap_le l 1 Hl ltac:(lia)) F)). }
  assert (K_function : forall l o args ta c body tb (Hl : l <= 1) (Ho : is_symbol TPipe o) (Ha : writes_params args ta) (Hc : is_symbol TPipe c) (Hn : List.length args <= 255) (w : writes 1 body tb) (IH : Pw 1 body tb),
    Pw l (ELitAnonymousFn args None body) (o :: ta ++ c :: tb)).
  { intros l o args ta c body tb Hl Ho Ha Hc Hn w IH. split; [apply (starts_sym TPipe o _ _ _ Ho eq_refl eq_refl)|]. intros p rest A B C F. cbn [app]. rewrite <- app_assoc. cbn [app].
    eapply (reads_prefix p o _ FAnonymousFn); [apply Ho|eexists; rewrite (proj1 Ho); split; reflexivity|].
    destruct (w_done1 body tb w rest IH (follow_weak _ _ _ (cap_le l 1 Hl ltac:(lia)) F)) as (d0 & D). exists d0. intros d Ld. cbn [run_prefix]. unfold anonymous_fn.
    rewrite (bind_ok _ _ _ _ _ (args_ok TPipe TPipe o args ta c (tb ++ rest) (or_introl eq_refl) Ho Ha Hc)), (bind_ok _ _ _ _ _ (count_ok args (tb ++ rest) Hn)).
    unfold expression. rewrite (bind_ok _ _ _ _ _ (D d Ld)). reflexivity. }
  (* fields and elements *)
  assert (K_field : forall e ts dot x t (w : writes 11 e ts) (IH : Pw 11 e ts) (Hd : is_symbol TDot dot) (Hx : is_name x t), Pt (EFieldAccess e x) (ts ++ [dot; t])).
  { intros e ts dot x t w IH Hd Hx.
    assert (G : forall p rest e' rest', 1 <= rank p -> rank p <= 11 -> List.length rest' <= List.length rest ->
      (exists d0, forall d, d0 <= d -> parse_assignment (p_prec (parser d)) (EFieldAccess e x) (negb (prec_gt p PAssignment)) rest = Ok (e', rest')) -> reads p (ts ++ dot :: t :: rest) e' rest').
    { intros p rest e' rest' A C Len (d0 & D). eapply (reads_infix p _ e dot (t :: rest) FField PCall).
      - apply (proj2 IH); [exact A|exact C|exact C|]. apply (follow_sym 14 TDot dot _ _ Hd eq_refl eq_refl). cbn. lia.
      - apply Hd.
      - rewrite (proj1 Hd). eexists. split; [reflexivity|]. split; reflexivity.
      - cbn [rank]. lia.
      - cbn [List.length]. lia.
      - exists d0. intros d Ld. cbn [run_infix]. unfold field_access. rewrite (bind_ok _ _ _ _ _ (consume_ok _ _ _ Hd)), (bind_ok _ _ _ _ _ (ident_ok x t _ Hx)). exact (D d Ld). }
    split; [apply starts_app, IH|]. split.
    - intros p rest A C F. rewrite <- app_assoc. cbn [app]. apply (G p rest); [exact A|exact C|lia|]. exists 0. intros d _. apply no_assignment, (follow_assign _ _ F).
    - intros op o tr rhs rest Ho (d0 & D). rewrite <- app_assoc. cbn [app]. apply (G PAssignment (o :: tr ++ rest)); [cbn; lia|cbn; lia|cbn [List.length]; rewrite app_length; lia|].
      exists d0. intros d Ld. apply do_assignment; [exact Ho|exact (D d Ld)]. }
  assert (K_index : forall e ts o i ti c (w : writes 11 e ts) (IH : Pw 11 e ts) (Ho : is_symbol TLeftSquare o) (wi : writes 1 i ti) (IHi : Pw 1 i ti) (Hc : is_symbol TRightSquare c),
    Pt (EIndex e i) (ts ++ o :: ti ++ [c])).
  { intros e ts o i ti c w IH Ho wi IHi Hc.
    assert (G : forall p rest e' rest', 1 <= rank p -> rank p <= 11 -> List.length rest' <= List.length rest ->
      (exists d0, forall d, d0 <= d -> parse_assignment (p_prec (parser d)) (EIndex e i) (negb (prec_gt p PAssignment)) rest = Ok (e', rest')) -> reads p (ts ++ o :: ti ++ c :: rest) e' rest').
    { intros p rest e' rest' A C Len (d0 & D). eapply (reads_infix p _ e o (ti ++ c :: rest) FIndex PCall).
      - apply (proj2 IH); [exact A|exact C|exact C|]. apply (follow_sym 14 TLeftSquare o _ _ Ho eq_refl eq_refl). cbn. lia.
      - apply Ho.
      - rewrite (proj1 Ho). eexists. split; [reflexivity|]. split; reflexivity.
      - cbn [rank]. lia.
      - cbn [List.length]. rewrite app_length. cbn [List.length]. lia.
      - destruct (w_done1 i ti wi (c :: rest) IHi (follow_close _ _ _ _ Hc ltac:(auto))) as (d1 & D1). exists (d0 + d1). intros d Ld. cbn [run_infix]. unfold index_access, expression.
        rewrite (bind_ok _ _ _ _ _ (consume_ok _ _ _ Ho)), (bind_ok _ _ _ _ _ (D1 d ltac:(lia))), (bind_ok _ _ _ _ _ (consume_ok _ _ _ Hc)). apply D. lia. }
    split; [apply starts_app, IH|]. split.
    - intros p rest A C F. rewrite <- app_assoc. cbn [app]. rewrite <- app_assoc. cbn [app]. apply (G p rest); [exact A|exact C|lia|]. exists 0. intros d _. apply no_assignment, (follow_assign _ _ F).
    - intros op o' tr rhs rest Ho' (d0 & D). rewrite <- app_assoc. cbn [app]. rewrite <- app_assoc. cbn [app]. apply (G PAssignment (o' :: tr ++ rest)); [cbn; lia|cbn; lia|cbn [List.length]; rewrite app_length; lia|].
      exists d0. intros d Ld. apply do_assignment; [exact Ho'|exact (D d Ld)]. }
  (* lists *)
  assert (K_one : forall e ts (w : writes 1 e ts) (IH : Pw 1 e ts), Pi [e] ts).
  { intros e ts w IH close Hclose c rest Hc. destruct (w_done1 e ts w (c :: rest) IH) as (d0 & D); [apply (follow_close close); [exact Hc|tauto]|].
    exists d0. intros d Ld F LF. specialize (D d Ld). destruct (starts_kind ts (proj1 IH)) as (t & r & -> & E & N1 & N2 & N3). cbn [app] in *.
    apply items_last; [exact E|destruct Hclose as [-> | ->]; assumption|destruct Hclose as [-> | ->]; discriminate|exact Hc| |exact D].
    cbn [List.length] in LF. rewrite app_length in LF. cbn [List.length] in LF. lia. }
  assert (K_more : forall e ts c l tl (w : writes 1 e ts) (IH : Pw 1 e ts) (Hc : is_symbol TComma c) (wl : writes_items l tl) (IHl : Pi l tl), Pi (e :: l) (ts ++ c :: tl)).
  { intros e ts cm l tl w IH Hcm wl IHl close Hclose c rest Hc. rewrite <- app_assoc. cbn [app].
    destruct (w_done1 e ts w (cm :: tl ++ c :: rest) IH) as (d0 & D); [apply (follow_close TComma); [exact Hcm|tauto]|].
    destruct (IHl close Hclose c rest Hc) as (d1 & D1). exists (d0 + d1). intros d Ld F LF. specialize (D d ltac:(lia)).
    destruct (starts_kind ts (proj1 IH)) as (t & r & -> & E & N1 & N2 & N3). cbn [app] in *.
    destruct F as [|F]; [lia|]. eapply items_more; [exact E|destruct Hclose as [-> | ->]; assumption|exact Hcm|exact D|]. apply D1; [lia|].
    cbn [List.length] in LF. rewrite app_length in LF. cbn [List.length] in LF. lia. }
  assert (K_fone : forall x e ts (w : writes_property x e ts) (IH : Pp x e ts), Pf [(x, e)] ts).
  { intros x e ts w [(t & r & -> & E & N) IH] c rest Hc. destruct (IH (c :: rest)) as (d0 & D); [apply (follow_close TRightCurly); [exact Hc|tauto]|].
    exists d0. intros d Ld F LF. specialize (D d Ld). cbn [app] in *.
    apply items_last; [exact E|exact N|discriminate|exact Hc| |exact D].
    cbn [List.length] in LF. rewrite app_length in LF. cbn [List.length] in LF. lia. }
  assert (K_fmore : forall x e ts c l tl (w : writes_property x e ts) (IH : Pp x e ts) (Hc : is_symbol TComma c) (wl : writes_fields l tl) (IHl : Pf l tl), Pf ((x, e) :: l) (ts ++ c :: tl)).
  { intros x e ts cm l tl w [(t & r & -> & E & N) IH] Hcm wl IHl c rest Hc. rewrite <- app_assoc. cbn [app].
    destruct (IH (cm :: tl ++ c :: rest)) as (d0 & D); [apply (follow_close TComma); [exact Hcm|tauto]|].
    destruct (IHl c rest Hc) as (d1 & D1). exists (d0 + d1). intros d Ld F LF. specialize (D d ltac:(lia)). cbn [app] in *.
    destruct F as [|F]; [lia|]. eapply items_more; [exact E|exact N|exact Hcm|exact D|]. apply D1; [lia|].
    cbn [List.length] in LF. rewrite app_length in LF. cbn [List.length] in LF. lia. }
  assert (K_prop : forall k t c e ts (Hk : In (tk_kind t) [TString; TInteger; TIdentifier]) (E : tk_error t = None) (U : utf8 (tk_slice t) = k) (Hc : is_symbol TColon c) (w : writes 1 e ts) (IH : Pw 1 e ts),
    Pp k e (t :: c :: ts)).
  { intros k t c e ts Hk E U Hc w IH. split; [exists t, (c :: ts); split; [reflexivity|]; split; [exact E|]; intro Eq; rewrite Eq in Hk; cbn in Hk; decompose [or] Hk; try discriminate; contradiction|].
    intros rest F. destruct (w_done1 e ts w rest IH F) as (d0 & D). exists d0. intros d Ld. cbn [app]. unfold property.
    assert (EK : consume_one_of [TString; TInteger; TIdentifier] (t :: c :: ts ++ rest) = Ok (t, c :: ts ++ rest)).
    { unfold consume_one_of. rewrite (bind_ok _ _ _ _ _ (next_ok t _ E)). cbn in Hk. destruct Hk as [<-|[<-|[<-|[]]]]; reflexivity. }
    rewrite (bind_ok _ _ _ _ _ EK), (bind_ok _ _ _ _ _ (consume_ok _ _ _ Hc)). unfold expression. rewrite (bind_ok _ _ _ _ _ (D d Ld)). cbn. rewrite U. reflexivity. }
  assert (K_target : forall l e ts (Hl : l <= 11) (wt : writes_target e ts) (IHt : Pt e ts), Pw l e ts).
  { intros l e ts Hl wt (S & R & _). split; [exact S|]. intros p rest A B C F. apply R; [exact A|exact C|]. exact (follow_weak _ _ _ (cap_14 l) F). }
  assert (K_none : Pi [] []). { intros close _ c rest Hc. exists 0. intros d _ F LF. apply items_none; [exact Hc|lia]. }
  assert (K_fnone : Pf [] []). { intros c rest Hc. exists 0. intros d _ F LF. apply items_none; [exact Hc|lia]. }
  (* blocks *)
  assert (K_block : forall o es t ts c (Ho : is_symbol TLeftCurly o) (w : writes_seq true es t ts) (IH : Pq true es t ts) (Hc : is_symbol TRightCurly c), Pb (EBlock es t) (o :: ts ++ [c])).
  { intros o es t ts c Ho w IH Hc. split; [eexists; eexists; split; [reflexivity|exact Ho]|]. intro rest. cbn [app]. rewrite <- app_assoc. cbn [app].
    destruct (proj2 IH (c :: rest) (or_introl (ex_intro _ c (ex_intro _ rest (conj eq_refl Hc))))) as (d0 & D). exists (1 + d0). intros [|d] Ld; [lia|]. unfold block_expression.
    rewrite (bind_ok _ _ _ _ _ (consume_ok _ _ _ Ho)).
    assert (EQ : p_seq (parser (S d)) (ts ++ c :: rest) = Ok (EBlock es t, c :: rest)).
    { cbn [parser p_seq]. unfold expression_sequence_body, pbind. rewrite (D d ltac:(lia) _ (Nat.lt_succ_diag_r _)). reflexivity. }
    rewrite (bind_ok _ _ _ _ _ EQ), (bind_ok _ _ _ _ _ (consume_ok _ _ _ Hc)). reflexivity. }
  assert (K_braces : forall l e ts (w : writes_block e ts) (IH : Pb e ts), Pw l e ts).
  { intros l e ts w [(o & r & -> & Ho) IH]. split; [apply (starts_sym TLeftCurly o _ _ _ Ho eq_refl eq_refl)|]. intros p rest A B C F. cbn [app].
    eapply (reads_prefix p o _ FBlock); [apply Ho|eexists; rewrite (proj1 Ho); split; reflexivity|]. exact (IH rest). }
  (* if *)
  assert (If : forall i c tc b tb r e rest (Hi : is_symbol TIf i) (wc : writes 1 c tc) (IHc : Pw 1 c tc) (IHb : Pb b tb),
    (exists d0, forall d, d0 <= d -> forall F, List.length (r ++ rest) <= F ->
       (b0 <- is_kind TElse ;;
        if b0 then
          next ;;; k <- peek_kind ;;
          match k with
          | TIf => s <- if_chain (p_prec (parser d)) (p_seq (parser d)) F ;; pret (EIf c b (Some s))
          | TLeftCurly => s <- block_expression (p_seq (parser d)) ;; pret (EIf c b (Some s))
          | _ => pret (EIf c b None)
          end
        else pret (EIf c b None)) (r ++ rest) = Ok (e, rest)) ->
    exists d0, forall d, d0 <= d -> forall F, List.length ((i :: tc ++ tb ++ r) ++ rest) < F -> if_chain (p_prec (parser d)) (p_seq (parser d)) F ((i :: tc ++ tb ++ r) ++ rest) = Ok (e, rest)).
  { intros i c tc b tb r e rest Hi wc IHc [(o & ob & Eb & Ho) IHb] (d0 & D).
    destruct (IHb (r ++ rest)) as (d1 & D1).
    destruct (w_done1 c tc wc (tb ++ r ++ rest) IHc ltac:(rewrite Eb; cbn [app]; apply curly_follow, Ho)) as (d2 & D2).
    exists (d0 + d1 + d2). intros d Ld F LF. cbn [app] in *. rewrite <- !app_assoc in *. destruct F as [|F]; [lia|]. cbn [if_chain].
    rewrite (bind_ok _ _ _ _ _ (consume_ok _ _ _ Hi)). unfold expression. rewrite (bind_ok _ _ _ _ _ (D2 d ltac:(lia))), (bind_ok _ _ _ _ _ (D1 d ltac:(lia))).
    apply D; [lia|]. cbn [List.length] in LF. rewrite !app_length in *. lia. }
  assert (K_then : forall i c tc b tb (Hi : is_symbol TIf i) (wc : writes 1 c tc) (IHc : Pw 1 c tc) (wb : writes_block b tb) (IHb : Pb b tb), Pif (EIf c b None) (i :: tc ++ tb)).
  { intros i c tc b tb Hi wc IHc wb IHb. split; [eexists; eexists; split; [reflexivity|exact Hi]|]. intros rest N.
    destruct (If i c tc b tb [] (EIf c b None) rest Hi wc IHc IHb) as (d0 & D).
    - exists 0. intros d _ F _. cbn [app]. destruct rest as [|t r]; [reflexivity|]. destruct N as [E N]. rewrite (bind_ok _ _ _ _ _ (is_ok TElse t r E)).
      destruct (kind_eqb (tk_kind t) TElse) eqn:Ek; [apply kind_eqb_eq in Ek; contradiction|reflexivity].
    - rewrite app_nil_r in D. exists d0. exact D. }
  assert (K_else : forall i c tc b tb e b' tb' (Hi : is_symbol TIf i) (wc : writes 1 c tc) (IHc : Pw 1 c tc) (wb : writes_block b tb) (IHb : Pb b tb) (He : is_symbol TElse e)
    (wb' : writes_block b' tb') (IHb' : Pb b' tb'), Pif (EIf c b (Some b')) (i :: tc ++ tb ++ e :: tb')).
  { intros i c tc b tb e b' tb' Hi wc IHc wb IHb He wb' [(o & ob & -> & Ho) IHb']. split; [eexists; eexists; split; [reflexivity|exact Hi]|]. intros rest N.
    apply (If i c tc b tb (e :: o :: ob) (EIf c b (Some b')) rest Hi wc IHc IHb).
    destruct (IHb' rest) as (d0 & D). exists d0. intros d Ld F _. cbn [app].
    rewrite (bind_ok _ _ _ _ _ (is_ok TElse e _ (proj2 He))), (proj1 He), kind_refl, (bind_ok _ _ _ _ _ (next_ok e _ (proj2 He))), (bind_ok _ _ _ _ _ (kind_ok o _ (proj2 Ho))), (proj1 Ho).
    unfold pbind. cbn [app] in D. rewrite (D d Ld). reflexivity. }
  assert (K_else_if : forall i c tc b tb e x tx (Hi : is_symbol TIf i) (wc : writes 1 c tc) (IHc : Pw 1 c tc) (wb : writes_block b tb) (IHb : Pb b tb) (He : is_symbol TElse e)
    (wx : writes_if x tx) (IHx : Pif x tx), Pif (EIf c b (Some x)) (i :: tc ++ tb ++ e :: tx)).
  { intros i c tc b tb e x tx Hi wc IHc wb IHb He wx [(o & ob & -> & Ho) IHx]. split; [eexists; eexists; split; [reflexivity|exact Hi]|]. intros rest N.
    apply (If i c tc b tb (e :: o :: ob) (EIf c b (Some x)) rest Hi wc IHc IHb).
    destruct (IHx rest N) as (d0 & D). exists d0. intros d Ld F LF. cbn [app] in *.
    rewrite (bind_ok _ _ _ _ _ (is_ok TElse e _ (proj2 He))), (proj1 He), kind_refl, (bind_ok _ _ _ _ _ (next_ok e _ (proj2 He))), (bind_ok _ _ _ _ _ (kind_ok o _ (proj2 Ho))), (proj1 Ho).
    unfold pbind. cbn [List.length] in LF. rewrite (D d Ld F); [reflexivity|cbn [List.length]; lia]. }
  assert (K_if : forall l e ts (w : writes_if e ts) (IH : Pif e ts), Pw l e ts).
  { intros l e ts w [(o & r & -> & Ho) IH]. split; [apply (starts_sym TIf o _ _ _ Ho eq_refl eq_refl)|]. intros p rest A B C F. cbn [app].
    eapply (reads_prefix p o _ FIf); [apply Ho|eexists; rewrite (proj1 Ho); split; reflexivity|].
    destruct (IH rest (follow_no_else _ _ F)) as (d0 & D). exists d0. intros d Ld. cbn [run_prefix]. unfold if_expression. apply (D d Ld). cbn [app]. lia. }
  (* super *)
  assert (K_super_call : forall (l : nat) s o args ta c (Hs : is_symbol TSuper s) (Ho : is_symbol TLeftParen o) (wa : writes_items args ta) (IHa : Pi args ta) (Hc : is_symbol TRightParen c),
    Pw l (ESuperCall args) (s :: o :: ta ++ [c])).
  { intros l s o args ta c Hs Ho wa IHa Hc. split; [apply (starts_sym TSuper s _ _ _ Hs eq_refl eq_refl)|]. intros p rest A B C F. cbn [app]. rewrite <- app_assoc. cbn [app].
    eapply (reads_prefix p s _ FSuper); [apply Hs|eexists; rewrite (proj1 Hs); split; reflexivity|].
    destruct (IHa TRightParen (or_introl eq_refl) c rest Hc) as (d0 & D). exists d0. intros d Ld. cbn [run_prefix]. unfold super_access.
    rewrite (bind_ok _ _ _ _ _ (consume_ok _ _ _ Hs)), (bind_ok _ _ _ _ _ (kind_ok o _ (proj2 Ho))), (proj1 Ho). unfold super_call. rewrite (bind_ok _ _ _ _ _ (consume_ok _ _ _ Ho)).
    rewrite (bind_ok _ _ _ _ _ (comma_ok TRightParen _ ta args c rest Hc (D d Ld _ (Nat.lt_succ_diag_r _)))). reflexivity. }
  assert (K_super_field : forall (l : nat) s d x t (Hs : is_symbol TSuper s) (Hd : is_symbol TDot d) (Hx : is_name x t), Pw l (ESuperAccess x None) [s; d; t]).
  { intros l s dot x t Hs Hd Hx. split; [apply (starts_sym TSuper s _ _ _ Hs eq_refl eq_refl)|]. intros p rest A B C F. cbn [app].
    eapply (reads_prefix p s _ FSuper); [apply Hs|eexists; rewrite (proj1 Hs); split; reflexivity|]. exists 0. intros d _. cbn [run_prefix]. unfold super_access.
    rewrite (bind_ok _ _ _ _ _ (consume_ok _ _ _ Hs)), (bind_ok _ _ _ _ _ (kind_ok dot _ (proj2 Hd))), (proj1 Hd). unfold super_method_access.
    rewrite (bind_ok _ _ _ _ _ (is_ok TLeftSquare dot _ (proj2 Hd))), (proj1 Hd). change (kind_eqb TDot TLeftSquare) with false. cbv iota.
    rewrite (bind_ok (pret None) _ _ _ _ eq_refl), (bind_ok _ _ _ _ _ (consume_ok _ _ _ Hd)), (bind_ok _ _ _ _ _ (ident_ok x t _ Hx)). reflexivity. }
  assert (K_super_class : forall (l : nat) s o k tk c d x t (Hs : is_symbol TSuper s) (Ho : is_symbol TLeftSquare o) (Hk : is_name k tk) (Hc : is_symbol TRightSquare c) (Hd : is_symbol TDot d) (Hx : is_name x t),
    Pw l (ESuperAccess x (Some k)) [s; o; tk; c; d; t]).
  { intros l s o k tk c dot x t Hs Ho Hk Hc Hd Hx. split; [apply (starts_sym TSuper s _ _ _ Hs eq_refl eq_refl)|]. intros p rest A B C F. cbn [app].
    eapply (reads_prefix p s _ FSuper); [apply Hs|eexists; rewrite (proj1 Hs); split; reflexivity|]. exists 0. intros d _. cbn [run_prefix]. unfold super_access.
    rewrite (bind_ok _ _ _ _ _ (consume_ok _ _ _ Hs)), (bind_ok _ _ _ _ _ (kind_ok o _ (proj2 Ho))), (proj1 Ho). unfold super_method_access.
    rewrite (bind_ok _ _ _ _ _ (is_ok TLeftSquare o _ (proj2 Ho))), (proj1 Ho), kind_refl.
    assert (EN : (next ;;; x0 <- consume_ident ;; consume TRightSquare ;;; pret (Some x0)) (o :: tk :: c :: dot :: t :: rest) = Ok (Some k, dot :: t :: rest)).
    { rewrite (bind_ok _ _ _ _ _ (next_ok o _ (proj2 Ho))), (bind_ok _ _ _ _ _ (ident_ok k tk _ Hk)), (bind_ok _ _ _ _ _ (consume_ok _ _ _ Hc)). reflexivity. }
    rewrite (bind_ok _ _ _ _ _ EN), (bind_ok _ _ _ _ _ (consume_ok _ _ _ Hd)), (bind_ok _ _ _ _ _ (ident_ok x t _ Hx)). reflexivity. }
  assert (K_unwrap : forall l e te s x t b tb (Hl : l <= 3) (w : writes 3 e te) (IH : Pw 3 e te) (Hs : is_symbol TErrorCoalesce s) (Hx : is_name x t) (wb : writes_block b tb) (IHb : Pb b tb),
    Pw l (unwrapped e x b) (te ++ s :: t :: tb)).
  { intros l e te s x t b tb Hl w IH Hs Hx wb [_ IHb]. split; [apply starts_app, IH|]. intros p rest A B C F. rewrite <- app_assoc. cbn [app].
    eapply (reads_infix p _ e s (t :: tb ++ rest) FErrorCoalesce PCoalesce).
    - apply (proj2 IH); [exact A|lia|exact C|]. apply (follow_sym 3 TErrorCoalesce s _ _ Hs eq_refl eq_refl). cbn. lia.
    - apply Hs.
    - rewrite (proj1 Hs). eexists. split; [reflexivity|]. split; reflexivity.
    - cbn [rank]. lia.
    - cbn [List.length]. rewrite app_length. lia.
    - destruct (IHb rest) as (d0 & D). exists d0. intros d Ld. cbn [run_infix]. unfold error_coalesce.
      rewrite (bind_ok _ _ _ _ _ (consume_ok _ _ _ Hs)), (bind_ok _ _ _ _ _ (ident_ok x t _ Hx)), (bind_ok _ _ _ _ _ (D d Ld)). reflexivity. }
  (* sequences *)
  assert (K_empty : forall b : bool, Pq b [] None []).
  { intro b. split; [left; reflexivity|]. intros rest R. exists 0. intros d _ F LF. cbn [app]. destruct F as [|F]; [lia|]. cbn [statements].
    destruct (ends_peek b rest R) as (k & K & N). rewrite (bind_ok _ _ _ _ _ K), N. reflexivity. }
  assert (K_last : forall (b : bool) open e ts (w : writes_stmt open e ts) (IH : Ps open e ts), Pq b [] (Some e) ts).
  { intros b open e ts w [S IH]. split; [right; exact S|]. intros rest R. destruct (IH rest (fun _ => ends_follow b rest R)) as (d0 & D). exists d0. intros d Ld F LF. specialize (D d Ld).
    destruct S as (t & r & -> & E & _ & N). cbn [app] in *. destruct F as [|F]; [lia|]. cbn [statements]. rewrite (bind_ok _ _ _ _ _ (kind_ok t _ E)), N, (bind_ok _ _ _ _ _ D).
    destruct (ends_peek b rest R) as (k & K & N'). rewrite (bind_ok _ _ _ _ _ K), N'. reflexivity. }
  assert (K_ret : forall r (Hr : is_symbol TReturn r), Pq true [] (Some (EReturn None)) [r]).
  { intros r Hr. split; [right; apply (starts_sym_stmt TReturn); [exact Hr|discriminate|reflexivity]|]. intros rest [(c & q & -> & Hc)|[X _]]; [|discriminate X].
    exists 0. intros d _ F LF. cbn [app]. destruct F as [|F]; [lia|]. cbn [statements]. rewrite (bind_ok _ _ _ _ _ (kind_ok r _ (proj2 Hr))), (proj1 Hr). cbn [ends_block statement].
    assert (EC : control_flow (p_prec (parser d)) (r :: c :: q) = Ok (EReturn None, c :: q)).
    { unfold control_flow. rewrite (bind_ok _ _ _ _ _ (next_ok r _ (proj2 Hr))), (proj1 Hr), (bind_ok _ _ _ _ _ (is_ok TRightCurly c q (proj2 Hc))), (proj1 Hc), kind_refl. reflexivity. }
    rewrite (bind_ok _ _ _ _ _ EC), (bind_ok _ _ _ _ _ (kind_ok c q (proj2 Hc))), (proj1 Hc). reflexivity. }
  assert (K_seq : forall (b : bool) open e ts es t tr (w : writes_stmt open e ts) (IH : Ps open e ts) (Hn : tr <> []) (Hf : open = true -> begins_afresh tr) (wr : writes_seq b es t tr) (IHr : Pq b es t tr),
    Pq b (e :: es) t (ts ++ tr)).
  { intros b open e ts es t tr w [S IH] Hn Hf wr [[->|Sr] IHr]; [contradiction|]. split; [right; apply starts_stmt_app, S|]. intros rest R. rewrite <- app_assoc.
    destruct (IH (tr ++ rest) (fun O => afresh_follow tr rest Sr (Hf O))) as (d0 & D). destruct (IHr rest R) as (d1 & D1). exists (d0 + d1). intros d Ld F LF. specialize (D d ltac:(lia)).
    destruct S as (t0 & r & -> & E & _ & N). cbn [app] in *. destruct F as [|F]; [lia|]. cbn [statements]. rewrite (bind_ok _ _ _ _ _ (kind_ok t0 _ E)), N, (bind_ok _ _ _ _ _ D).
    cbn [List.length] in LF. rewrite app_length in LF. specialize (D1 d ltac:(lia) F ltac:(lia)).
    destruct Sr as (t1 & r1 & -> & E1 & _ & N1). cbn [app] in *. rewrite (bind_ok _ _ _ _ _ (kind_ok t1 _ E1)), N1, (bind_ok _ _ _ _ _ D1). reflexivity. }
  assert (K_export_name : forall (b : bool) k x n es t tr (Hk : is_symbol TExport k) (Hx : is_name x n) (wr : writes_seq b es t (n :: tr)) (IHr : Pq b es t (n :: tr)),
    Pq b (EExportDecl (ELitIdent x) :: es) t (k :: n :: tr)).
  { intros b k x n es t tr Hk Hx wr [_ IHr]. split; [right; apply (starts_sym_stmt TExport); [exact Hk|discriminate|reflexivity]|]. intros rest R.
    destruct (IHr rest R) as (d0 & D). exists d0. intros d Ld F LF. cbn [app] in *. destruct F as [|F]; [lia|]. cbn [statements].
    rewrite (bind_ok _ _ _ _ _ (kind_ok k _ (proj2 Hk))), (proj1 Hk). cbn [ends_block statement]. destruct Hx as (Kx & Ux & Ex).
    assert (EE : export_decl (p_prec (parser d)) (p_seq (parser d)) (k :: n :: tr ++ rest) = Ok (EExportDecl (ELitIdent x), n :: tr ++ rest)).
    { unfold export_decl. rewrite (bind_ok _ _ _ _ _ (consume_ok _ _ _ Hk)), (bind_ok _ _ _ _ _ (peek_ok n _ Ex)), Kx, Ux. reflexivity. }
    rewrite (bind_ok _ _ _ _ _ EE), (bind_ok _ _ _ _ _ (kind_ok n _ Ex)), Kx. cbn [ends_block].
    cbn [List.length] in LF. rewrite (bind_ok _ _ _ _ _ (D d Ld F ltac:(cbn [List.length]; lia))). reflexivity. }
  (* statements *)
  assert (K_sexpr : forall e ts (w : writes 1 e ts) (IH : Pw 1 e ts), Ps true e ts).
  { intros e ts w IH. split; [apply starts_ok_stmt, IH|]. intros rest Fo. specialize (Fo eq_refl). destruct (w_done1 e ts w rest IH Fo) as (d0 & D). exists d0. intros d Ld. specialize (D d Ld).
    destruct (proj1 IH) as (t & r & rl & f & -> & E & R & H). rewrite (expression_statement _ _ t rl f R H). exact D. }
  assert (Decl : forall k (f : parsers -> P expr) open e ts, rule_for k <> None -> ends_block k = false -> (forall ps, statement (p_prec ps) (p_seq ps) k = f ps) -> Pd k open f e ts -> Ps open e ts).
  { intros k f open e ts R N Hs [(t & r & -> & Ht) IH]. split; [apply (starts_sym_stmt k); assumption|]. intros rest Fo. destruct (IH rest Fo) as (d0 & D). exists d0. intros d Ld.
    rewrite (proj1 Ht), Hs. apply D, Ld. }
  assert (K_slet : forall e ts (w : writes_let e ts) (IH : Pl e ts), Ps true e ts).
  { intros e ts _ IH. eapply (Decl TLet); [discriminate|reflexivity| |exact IH]. reflexivity. }
  assert (K_sfn : forall e ts (w : writes_fn e ts) (IH : Pfn e ts), Ps false e ts).
  { intros e ts _ IH. eapply (Decl TFunction); [discriminate|reflexivity| |exact IH]. reflexivity. }
  assert (K_sop : forall e ts (w : writes_op e ts) (IH : Pop e ts), Ps false e ts).
  { intros e ts _ IH. eapply (Decl TOperator); [discriminate|reflexivity| |exact IH]. reflexivity. }
  assert (K_sclass : forall e ts (w : writes_class e ts) (IH : Pc e ts), Ps false e ts).
  { intros e ts _ IH. eapply (Decl TClass); [discriminate|reflexivity| |exact IH]. reflexivity. }
  assert (K_simport : forall e ts (w : writes_import e ts), Ps false e ts).
  { intros e ts w. apply (Decl TImport (fun _ => import_decl)); [discriminate|reflexivity|reflexivity|]. split; [destruct w; eexists; eexists; (split; [reflexivity|assumption])|].
    intros rest _. exists 0. intros d _. apply import_ok, w. }
  assert (Export : forall k f0 (f : parsers -> P expr) open e ts, is_symbol TExport k ->
    (f0 = TLet \/ f0 = TFunction \/ f0 = TClass) -> (forall t r ps, is_symbol f0 t -> export_decl (p_prec ps) (p_seq ps) (k :: t :: r) = (e0 <- f ps ;; pret (EExportDecl e0)) (t :: r)) ->
    Pd f0 open f e ts -> Ps open (EExportDecl e) (k :: ts)).
  { intros k f0 f open e ts Hk _ Hf [(t & r & -> & Ht) IH]. apply (Decl TExport (fun ps => export_decl (p_prec ps) (p_seq ps))); [discriminate|reflexivity|reflexivity|].
    split; [eexists; eexists; split; [reflexivity|exact Hk]|]. intros rest Fo. destruct (IH rest Fo) as (d0 & D). exists d0. intros d Ld. cbn [app]. rewrite (Hf t (r ++ rest) (parser d) Ht).
    cbn [app] in D. rewrite (bind_ok _ _ _ _ _ (D d Ld)). reflexivity. }
  assert (ExportEq : forall k t r ps, is_symbol TExport k -> tk_error t = None ->
    export_decl (p_prec ps) (p_seq ps) (k :: t :: r) = (e <- match tk_kind t with TLet => var_decl (p_prec ps) | TFunction => fn_decl (p_seq ps) | TClass => class_decl (p_prec ps) (p_seq ps)
      | TIdentifier => pret (ELitIdent (utf8 (tk_slice t))) | _ => perr UNEXPECTED_TOKEN end ;; pret (EExportDecl e)) (t :: r)).
  { intros k t r ps Hk E. unfold export_decl. rewrite (bind_ok _ _ _ _ _ (consume_ok _ _ _ Hk)), (bind_ok _ _ _ _ _ (peek_ok t r E)). reflexivity. }
  assert (K_elet : forall k e ts (Hk : is_symbol TExport k) (w : writes_let e ts) (IH : Pl e ts), Ps true (EExportDecl e) (k :: ts)).
  { intros k e ts Hk _ IH. eapply Export; [exact Hk|left; reflexivity| |exact IH]. intros t r ps [K E]. cbv beta. rewrite (ExportEq k t r ps Hk E), K. reflexivity. }
  assert (K_efn : forall k e ts (Hk : is_symbol TExport k) (w : writes_fn e ts) (IH : Pfn e ts), Ps false (EExportDecl e) (k :: ts)).
  { intros k e ts Hk _ IH. eapply Export; [exact Hk|right; left; reflexivity| |exact IH]. intros t r ps [K E]. cbv beta. rewrite (ExportEq k t r ps Hk E), K. reflexivity. }
  assert (K_eclass : forall k e ts (Hk : is_symbol TExport k) (w : writes_class e ts) (IH : Pc e ts), Ps false (EExportDecl e) (k :: ts)).
  { intros k e ts Hk _ IH. eapply Export; [exact Hk|right; right; reflexivity| |exact IH]. intros t r ps [K E]. cbv beta. rewrite (ExportEq k t r ps Hk E), K. reflexivity. }
  assert (K_sloop : forall k b tb (Hk : is_symbol TLoop k) (w : writes_block b tb) (IH : Pb b tb), Ps false (ELoop b) (k :: tb)).
  { intros k b tb Hk _ [_ IH]. apply (Decl TLoop (fun ps => loop_statement (p_seq ps))); [discriminate|reflexivity|reflexivity|]. split; [eexists; eexists; split; [reflexivity|exact Hk]|].
    intros rest _. destruct (IH rest) as (d0 & D). exists d0. intros d Ld. cbn [app]. unfold loop_statement. rewrite (bind_ok _ _ _ _ _ (consume_ok _ _ _ Hk)), (bind_ok _ _ _ _ _ (D d Ld)). reflexivity. }
  assert (Head : forall c tc b tb rest, writes 1 c tc -> Pw 1 c tc -> Pb b tb ->
    exists d0, forall d, d0 <= d -> p_prec (parser d) PAssignment (tc ++ tb ++ rest) = Ok (c, tb ++ rest) /\ block_expression (p_seq (parser d)) (tb ++ rest) = Ok (b, rest)).
  { intros c tc b tb rest w IH [(o & r & Eb & Ho) IHb]. destruct (IHb rest) as (d0 & D).
    destruct (w_done1 c tc w (tb ++ rest) IH ltac:(rewrite Eb; cbn [app]; apply curly_follow, Ho)) as (d1 & D1). exists (d0 + d1). intros d Ld. split; [apply D1|apply D]; lia. }
  assert (K_swhile : forall k c tc b tb (Hk : is_symbol TWhile k) (w : writes 1 c tc) (IH : Pw 1 c tc) (wb : writes_block b tb) (IHb : Pb b tb), Ps false (EWhile c b) (k :: tc ++ tb)).
  { intros k c tc b tb Hk w IH _ IHb. apply (Decl TWhile (fun ps => while_statement (p_prec ps) (p_seq ps))); [discriminate|reflexivity|reflexivity|]. split; [eexists; eexists; split; [reflexivity|exact Hk]|].
    intros rest _. destruct (Head c tc b tb rest w IH IHb) as (d0 & D). exists d0. intros d Ld. destruct (D d Ld) as [D1 D2]. cbn [app]. rewrite <- app_assoc. unfold while_statement, expression.
    rewrite (bind_ok _ _ _ _ _ (consume_ok _ _ _ Hk)), (bind_ok _ _ _ _ _ D1), (bind_ok _ _ _ _ _ D2). reflexivity. }
  assert (K_sfor : forall k x t i e te b tb (Hk : is_symbol TFor k) (Hx : is_name x t) (Hi : is_symbol TIn i) (w : writes 1 e te) (IH : Pw 1 e te) (wb : writes_block b tb) (IHb : Pb b tb),
    Ps false (EFor x e b) (k :: t :: i :: te ++ tb)).
  { intros k x t i e te b tb Hk Hx Hi w IH _ IHb. apply (Decl TFor (fun ps => for_statement (p_prec ps) (p_seq ps))); [discriminate|reflexivity|reflexivity|]. split; [eexists; eexists; split; [reflexivity|exact Hk]|].
    intros rest _. destruct (Head e te b tb rest w IH IHb) as (d0 & D). exists d0. intros d Ld. destruct (D d Ld) as [D1 D2]. cbn [app]. rewrite <- app_assoc. unfold for_statement, expression.
    rewrite (bind_ok _ _ _ _ _ (consume_ok _ _ _ Hk)), (bind_ok _ _ _ _ _ (ident_ok x t _ Hx)), (bind_ok _ _ _ _ _ (consume_ok _ _ _ Hi)), (bind_ok _ _ _ _ _ D1), (bind_ok _ _ _ _ _ D2). reflexivity. }
  assert (K_sbreak : forall k (Hk : is_symbol TBreak k), Ps false EBreak [k]).
  { intros k Hk. apply (Decl TBreak (fun ps => control_flow (p_prec ps))); [discriminate|reflexivity|reflexivity|]. split; [eexists; eexists; split; [reflexivity|exact Hk]|].
    intros rest _. exists 0. intros d _. cbn [app]. unfold control_flow. rewrite (bind_ok _ _ _ _ _ (next_ok k _ (proj2 Hk))), (proj1 Hk). reflexivity. }
  assert (K_scontinue : forall k (Hk : is_symbol TContinue k), Ps false EContinue [k]).
  { intros k Hk. apply (Decl TContinue (fun ps => control_flow (p_prec ps))); [discriminate|reflexivity|reflexivity|]. split; [eexists; eexists; split; [reflexivity|exact Hk]|].
    intros rest _. exists 0. intros d _. cbn [app]. unfold control_flow. rewrite (bind_ok _ _ _ _ _ (next_ok k _ (proj2 Hk))), (proj1 Hk). reflexivity. }
  assert (K_sreturn : forall k e te (Hk : is_symbol TReturn k) (w : writes 1 e te) (IH : Pw 1 e te), Ps true (EReturn (Some e)) (k :: te)).
  { intros k e te Hk w IH. apply (Decl TReturn (fun ps => control_flow (p_prec ps))); [discriminate|reflexivity|reflexivity|]. split; [eexists; eexists; split; [reflexivity|exact Hk]|].
    intros rest Fo. destruct (w_done1 e te w rest IH (Fo eq_refl)) as (d0 & D). exists d0. intros d Ld. specialize (D d Ld). cbn [app]. unfold control_flow. rewrite (bind_ok _ _ _ _ _ (next_ok k _ (proj2 Hk))), (proj1 Hk).
    destruct (starts_kind te (proj1 IH)) as (t & r & -> & E & _ & _ & N). cbn [app] in *. rewrite (bind_ok _ _ _ _ _ (is_ok TRightCurly t _ E)).
    destruct (kind_eqb (tk_kind t) TRightCurly) eqn:Ek; [apply kind_eqb_eq in Ek; contradiction|]. unfold expression. rewrite (bind_ok _ _ _ _ _ D). reflexivity. }
  (* declarations *)
  assert (Mut : forall m tm t r, writes_mut m tm -> tk_error t = None -> tk_kind t <> TMut ->
    is_kind TMut (tm ++ t :: r) = Ok (m, tm ++ t :: r) /\ (if m then next ;;; pret tt else pret tt) (tm ++ t :: r) = Ok (tt, t :: r)).
  { intros m tm t r Hm E N. destruct Hm as [|q Hq]; cbn [app].
    - rewrite (is_ok TMut t r E). destruct (kind_eqb (tk_kind t) TMut) eqn:Ek; [apply kind_eqb_eq in Ek; contradiction|]. split; reflexivity.
    - rewrite (is_ok TMut q _ (proj2 Hq)), (proj1 Hq), kind_refl. split; [reflexivity|]. rewrite (bind_ok _ _ _ _ _ (next_ok q _ (proj2 Hq))). reflexivity. }
  assert (K_lone : forall k m tm x t a e te (Hk : is_symbol TLet k) (Hm : writes_mut m tm) (Hx : is_name x t) (Ha : is_symbol TAssign a) (w : writes 1 e te) (IH : Pw 1 e te),
    Pl (EVarDecl (Singular x) m e None) (k :: tm ++ t :: a :: te)).
  { intros k m tm x t a e te Hk Hm Hx Ha w IH. split; [eexists; eexists; split; [reflexivity|exact Hk]|]. intros rest Fo. destruct (w_done1 e te w rest IH (Fo eq_refl)) as (d0 & D). exists d0. intros d Ld.
    cbn [app]. rewrite <- app_assoc. cbn [app]. destruct Hx as (Kx & Ux & Ex). destruct (Mut m tm t (a :: te ++ rest) Hm Ex ltac:(rewrite Kx; discriminate)) as [M1 M2].
    unfold var_decl. rewrite (bind_ok _ _ _ _ _ (consume_ok _ _ _ Hk)), (bind_ok _ _ _ _ _ M1), (bind_ok _ _ _ _ _ M2), (bind_ok _ _ _ _ _ (peek_ok t _ Ex)), Kx, Ux.
    assert (EN : (next ;;; pret (Singular x)) (t :: a :: te ++ rest) = Ok (Singular x, a :: te ++ rest)) by (rewrite (bind_ok _ _ _ _ _ (next_ok t _ Ex)); reflexivity).
    rewrite (bind_ok _ _ _ _ _ EN), (bind_ok _ _ _ _ _ (consume_ok _ _ _ Ha)). unfold expression. rewrite (bind_ok _ _ _ _ _ (D d Ld)). reflexivity. }
  assert (K_lfields : forall k m tm o xs tx c a e te (Hk : is_symbol TLet k) (Hm : writes_mut m tm) (Ho : is_symbol TLeftCurly o) (Hx : writes_names xs tx) (Hc : is_symbol TRightCurly c) (Ha : is_symbol TAssign a)
    (w : writes 1 e te) (IH : Pw 1 e te), Pl (EVarDecl (Destructured xs) m e None) (k :: tm ++ o :: tx ++ c :: a :: te)).
  { intros k m tm o xs tx c a e te Hk Hm Ho Hx Hc Ha w IH. split; [eexists; eexists; split; [reflexivity|exact Hk]|]. intros rest Fo. destruct (w_done1 e te w rest IH (Fo eq_refl)) as (d0 & D). exists d0. intros d Ld.
    cbn [app]. rewrite <- app_assoc. cbn [app]. rewrite <- app_assoc. cbn [app]. destruct (Mut m tm o (tx ++ c :: a :: te ++ rest) Hm (proj2 Ho) ltac:(rewrite (proj1 Ho); discriminate)) as [M1 M2].
    unfold var_decl. rewrite (bind_ok _ _ _ _ _ (consume_ok _ _ _ Hk)), (bind_ok _ _ _ _ _ M1), (bind_ok _ _ _ _ _ M2), (bind_ok _ _ _ _ _ (peek_ok o _ (proj2 Ho))), (proj1 Ho).
    assert (EN : (l <- parse_fields TLeftCurly TRightCurly ;; pret (Destructured l)) (o :: tx ++ c :: a :: te ++ rest) = Ok (Destructured xs, a :: te ++ rest)) by (rewrite (bind_ok _ _ _ _ _ (fields_ok o xs tx c _ Ho Hx Hc)); reflexivity).
    rewrite (bind_ok _ _ _ _ _ EN), (bind_ok _ _ _ _ _ (consume_ok _ _ _ Ha)). unfold expression. rewrite (bind_ok _ _ _ _ _ (D d Ld)). reflexivity. }
  assert (K_fn : forall k x t o args ta c r tr b tb (Hk : is_symbol TFunction k) (Hx : is_name x t) (Ho : is_symbol TLeftParen o) (Ha : writes_params args ta) (Hc : is_symbol TRightParen c) (Hn : List.length args <= 255)
    (Hr : writes_return r tr) (wb : writes_block b tb) (IHb : Pb b tb), Pfn (EFnDecl x args r b) (k :: t :: o :: ta ++ c :: tr ++ tb)).
  { intros k x t o args ta c r tr b tb Hk Hx Ho Ha Hc Hn Hr _ [(ob & qb & -> & Hb) IHb]. split; [eexists; eexists; split; [reflexivity|exact Hk]|]. intros rest _. destruct (IHb rest) as (d0 & D). exists d0. intros d Ld. specialize (D d Ld).
    cbn [app]. rewrite <- app_assoc. cbn [app]. rewrite <- app_assoc. cbn [app] in *. unfold fn_decl.
    rewrite (bind_ok _ _ _ _ _ (consume_ok _ _ _ Hk)), (bind_ok _ _ _ _ _ (ident_ok x t _ Hx)), (bind_ok _ _ _ _ _ (args_ok TLeftParen TRightParen o args ta c _ (or_intror eq_refl) Ho Ha Hc)),
      (bind_ok _ _ _ _ _ (count_ok args _ Hn)), (bind_ok _ _ _ _ _ (return_ok r tr ob _ Hr Hb)), (bind_ok _ _ _ _ _ D). reflexivity. }
  assert (K_op : forall k op s o args ta c r tr b tb (Hk : is_symbol TOperator k) (Hs : is_symbol (operator_symbol op) s) (Ho : is_symbol TLeftParen o) (Ha : writes_params args ta) (Hc : is_symbol TRightParen c)
    (Hr : writes_return r tr) (wb : writes_block b tb) (IHb : Pb b tb), Pop (EOpDecl op args r b) (k :: s :: o :: ta ++ c :: tr ++ tb)).
  { intros k op s o args ta c r tr b tb Hk Hs Ho Ha Hc Hr _ [(ob & qb & -> & Hb) IHb]. split; [eexists; eexists; split; [reflexivity|exact Hk]|]. intros rest _. destruct (IHb rest) as (d0 & D). exists d0. intros d Ld. specialize (D d Ld).
    cbn [app]. rewrite <- app_assoc. cbn [app]. rewrite <- app_assoc. cbn [app] in *. unfold op_decl.
    rewrite (bind_ok _ _ _ _ _ (consume_ok _ _ _ Hk)), (bind_ok _ _ _ _ _ (next_ok s _ (proj2 Hs))), (proj1 Hs), operator_ok, (bind_ok _ _ _ _ _ (args_ok TLeftParen TRightParen o args ta c _ (or_intror eq_refl) Ho Ha Hc)),
      (bind_ok _ _ _ _ _ (return_ok r tr ob _ Hr Hb)), (bind_ok _ _ _ _ _ D). reflexivity. }
  assert (K_croot : forall k x t o ms tm c (Hk : is_symbol TClass k) (Hx : is_name x t) (Ho : is_symbol TLeftCurly o) (w : writes_members ms tm) (IH : Pm ms tm) (Hc : is_symbol TRightCurly c),
    Pc (EClassDecl x ms None) (k :: t :: o :: tm ++ [c])).
  { intros k x t o ms tm c Hk Hx Ho _ [_ IH] Hc. split; [eexists; eexists; split; [reflexivity|exact Hk]|]. intros rest _. destruct (IH c rest Hc) as (d0 & D). exists d0. intros d Ld. specialize (D d Ld _ (Nat.lt_succ_diag_r _)).
    cbn [app]. rewrite <- app_assoc. cbn [app] in *. unfold class_decl.
    rewrite (bind_ok _ _ _ _ _ (consume_ok _ _ _ Hk)), (bind_ok _ _ _ _ _ (ident_ok x t _ Hx)), (bind_ok _ _ _ _ _ (is_ok TColon o _ (proj2 Ho))), (proj1 Ho).
    change (kind_eqb TLeftCurly TColon) with false. cbv iota. rewrite (bind_ok (pret None) _ _ _ _ eq_refl), (bind_ok _ _ _ _ _ (consume_ok _ _ _ Ho)).
    rewrite (bind_ok (fun ts => class_items (p_seq (parser d)) (S (List.length ts)) ts) _ _ _ _ D), (bind_ok _ _ _ _ _ (consume_ok _ _ _ Hc)). reflexivity. }
  assert (K_cderived : forall k x t q e te o ms tm c (Hk : is_symbol TClass k) (Hx : is_name x t) (Hq : is_symbol TColon q) (we : writes 1 e te) (IHe : Pw 1 e te) (Ho : is_symbol TLeftCurly o)
    (w : writes_members ms tm) (IH : Pm ms tm) (Hc : is_symbol TRightCurly c), Pc (EClassDecl x ms (Some e)) (k :: t :: q :: te ++ o :: tm ++ [c])).
  { intros k x t q e te o ms tm c Hk Hx Hq we IHe Ho _ [_ IH] Hc. split; [eexists; eexists; split; [reflexivity|exact Hk]|]. intros rest _. destruct (IH c rest Hc) as (d0 & D).
    destruct (w_done1 e te we (o :: tm ++ c :: rest) IHe (curly_follow _ _ _ Ho)) as (d1 & D1). exists (d0 + d1). intros d Ld. specialize (D d ltac:(lia) _ (Nat.lt_succ_diag_r _)). specialize (D1 d ltac:(lia)).
    cbn [app]. rewrite <- app_assoc. cbn [app]. rewrite <- app_assoc. cbn [app] in *. unfold class_decl.
    rewrite (bind_ok _ _ _ _ _ (consume_ok _ _ _ Hk)), (bind_ok _ _ _ _ _ (ident_ok x t _ Hx)), (bind_ok _ _ _ _ _ (is_ok TColon q _ (proj2 Hq))), (proj1 Hq), kind_refl.
    assert (EB : (next ;;; e0 <- expression (p_prec (parser d)) ;; pret (Some e0)) (q :: te ++ o :: tm ++ c :: rest) = Ok (Some e, o :: tm ++ c :: rest)).
    { rewrite (bind_ok _ _ _ _ _ (next_ok q _ (proj2 Hq))). unfold expression. rewrite (bind_ok _ _ _ _ _ D1). reflexivity. }
    rewrite (bind_ok _ _ _ _ _ EB), (bind_ok _ _ _ _ _ (consume_ok _ _ _ Ho)).
    rewrite (bind_ok (fun ts => class_items (p_seq (parser d)) (S (List.length ts)) ts) _ _ _ _ D), (bind_ok _ _ _ _ _ (consume_ok _ _ _ Hc)). reflexivity. }
  assert (K_mnone : Pm [] []).
  { split; [left; reflexivity|]. intros c rest Hc. exists 0. intros d _ F LF. cbn [app]. destruct F as [|F]; [lia|]. cbn [class_items]. rewrite (bind_ok _ _ _ _ _ (kind_ok c _ (proj2 Hc))), (proj1 Hc). reflexivity. }
  assert (K_mfn : forall e ts ms tm (w : writes_fn e ts) (IH : Pfn e ts) (wm : writes_members ms tm) (IHm : Pm ms tm), Pm (e :: ms) (ts ++ tm)).
  { intros e ts ms tm _ [(t & r & -> & Ht) IH] _ [_ IHm]. split; [right; exists t, (r ++ tm); split; [reflexivity|]; split; [apply Ht|left; apply Ht]|]. intros c rest Hc. rewrite <- app_assoc.
    destruct (IH (tm ++ c :: rest) ltac:(discriminate)) as (d0 & D). destruct (IHm c rest Hc) as (d1 & D1). exists (d0 + d1). intros d Ld F LF. specialize (D d ltac:(lia)). cbn [app] in *. destruct F as [|F]; [lia|].
    cbn [List.length] in LF. rewrite app_length in LF. cbn [class_items]. rewrite (bind_ok _ _ _ _ _ (kind_ok t _ (proj2 Ht))), (proj1 Ht), (bind_ok _ _ _ _ _ D), (bind_ok _ _ _ _ _ (D1 d ltac:(lia) F ltac:(lia))). reflexivity. }
  assert (K_mop : forall e ts ms tm (w : writes_op e ts) (IH : Pop e ts) (wm : writes_members ms tm) (IHm : Pm ms tm), Pm (e :: ms) (ts ++ tm)).
  { intros e ts ms tm _ [(t & r & -> & Ht) IH] _ [_ IHm]. split; [right; exists t, (r ++ tm); split; [reflexivity|]; split; [apply Ht|right; apply Ht]|]. intros c rest Hc. rewrite <- app_assoc.
    destruct (IH (tm ++ c :: rest) ltac:(discriminate)) as (d0 & D). destruct (IHm c rest Hc) as (d1 & D1). exists (d0 + d1). intros d Ld F LF. specialize (D d ltac:(lia)). cbn [app] in *. destruct F as [|F]; [lia|].
    cbn [List.length] in LF. rewrite app_length in LF. cbn [class_items]. rewrite (bind_ok _ _ _ _ _ (kind_ok t _ (proj2 Ht))), (proj1 Ht), (bind_ok _ _ _ _ _ D), (bind_ok _ _ _ _ _ (D1 d ltac:(lia) F ltac:(lia))). reflexivity. }
  clear If Decl Export ExportEq Head Mut.
  split; [|split].
  - eapply writes_mutual; eassumption.
  - eapply items_mutual; eassumption.
  - eapply seq_mutual; eassumption.
Qed.
(** Whole programs. *)
Lemma program_inverted es t ts : writes_seq false es t ts -> parse_tokens ts = Ok (EBlock es t, []).
Proof.
  intros w. destruct (proj2 (proj2 writes_reads) false es t ts w) as [_ H]. destruct (H [] (or_intror (conj eq_refl eq_refl))) as (d & D). rewrite app_nil_r in D.
  apply (any_answer (S d)); [|discriminate]. cbn [parser p_seq]. unfold expression_sequence_body, pbind. rewrite (D d (le_n d) _ (Nat.lt_succ_diag_r _)). reflexivity.
Qed.
Lemma program_source_inverted text es t ts : tokens_of 0 text ts -> writes_seq false es t ts -> parse text = Ok (EBlock es t).
Proof. intros T w. apply tokenize_iff in T. unfold parse. rewrite T, (program_inverted es t ts w). reflexivity. Qed.
Lemma program_unambiguous es t es' t' ts : writes_seq false es t ts -> writes_seq false es' t' ts -> es = es' /\ t = t'.
Proof. intros A B. apply program_inverted in A, B. rewrite A in B. injection B as B C. split; assumption. Qed.
