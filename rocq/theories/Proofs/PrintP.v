(** Written trees are read back; numerals. *)
From Coq Require Import Lia ZArith.
From Verif.Model Require Import Parser.
From Verif.Spec Require Import LexSpec ParseSpec GrammarSpec PrintSpec.
From Verif.Proofs Require Import LexerP ParserP ParserFuelP SourceTextP RoundTripP.
#[local] Open Scope parser_scope.

(** * Whole programs of one expression *)
Lemma starts_statement t rl f prec seq : rule_for (tk_kind t) = Some rl -> r_prefix rl = Some f ->
  statement prec seq (tk_kind t) = expression prec /\ ends_block (tk_kind t) = false.
Proof. destruct (tk_kind t); intros R H; try (injection R as <-; try discriminate H); try discriminate R; split; reflexivity. Qed.
Lemma seq_one d ts e : starts_ok ts -> p_prec (parser d) PAssignment ts = Ok (e, []) -> p_seq (parser (S d)) ts = Ok (EBlock [] (Some e), []).
Proof.
  intros (t & r & rl & f & -> & E & R & H) D. cbn [parser p_seq]. unfold expression_sequence_body.
  destruct (starts_statement t rl f (p_prec (parser d)) (p_seq (parser d)) R H) as [S1 S2].
  assert (EQ : statements (p_prec (parser d)) (p_seq (parser d)) (S (List.length (t :: r))) (t :: r) = Ok (([], Some e), [])).
  { cbn [statements]. rewrite (bind_ok _ _ _ _ _ (kind_ok t r E)), S2, S1. unfold expression. rewrite (bind_ok _ _ _ _ _ D). reflexivity. }
  unfold pbind. rewrite EQ. reflexivity.
Qed.
Lemma seq_err d ts c : starts_ok ts -> p_prec (parser d) PAssignment ts = Err c -> p_seq (parser (S d)) ts = Err c.
Proof.
  intros (t & r & rl & f & -> & E & R & H) D. cbn [parser p_seq]. unfold expression_sequence_body.
  destruct (starts_statement t rl f (p_prec (parser d)) (p_seq (parser d)) R H) as [S1 S2].
  assert (EQ : statements (p_prec (parser d)) (p_seq (parser d)) (S (List.length (t :: r))) (t :: r) = Err c).
  { cbn [statements]. rewrite (bind_ok _ _ _ _ _ (kind_ok t r E)), S2, S1. unfold expression, pbind. rewrite D. reflexivity. }
  unfold pbind. rewrite EQ. reflexivity.
Qed.
Lemma grammar_inverted e ts : writes 1 e ts -> parse_tokens ts = Ok (EBlock [] (Some e), []).
Proof.
  intros w. pose proof (proj1 writes_reads 1 e ts w) as W. destruct (w_done1 e ts w [] W I) as (d & D). rewrite app_nil_r in D.
  apply (any_answer (S d)); [|discriminate]. apply seq_one; [apply W|]. apply D. lia.
Qed.
Lemma source_inverted t e ts : tokens_of 0 t ts -> writes 1 e ts -> parse t = Ok (EBlock [] (Some e)).
Proof. intros T w. apply tokenize_iff in T. unfold parse. rewrite T, (grammar_inverted e ts w). reflexivity. Qed.
Lemma grammar_unambiguous e e' ts : writes 1 e ts -> writes 1 e' ts -> e = e'.
Proof. intros A B. apply grammar_inverted in A, B. rewrite A in B. injection B as B. exact B. Qed.

(** * Integer literals *)
Lemma parse_integer_token s d : d <> [] -> all digit_char d ->
  parse_tokens [Tok TInteger s d None] =
    if (numeral_value d <=? i64_max)%Z then Ok (EBlock [] (Some (ELitInt (numeral_value d))), []) else Err INVALID_INTEGER_VALUE.
Proof.
  intros N H. set (t := Tok TInteger s d None). assert (T : token_is TInteger d t) by (split; [reflexivity|split; reflexivity]).
  assert (S : starts_ok [t]) by (exists t, []; eexists; eexists; split; [reflexivity|]; split; [reflexivity|]; split; reflexivity).
  assert (L : forall dd, p_prec (parser (Datatypes.S dd)) PAssignment [t] = if (numeral_value d <=? i64_max)%Z then Ok (ELitInt (numeral_value d), []) else Err INVALID_INTEGER_VALUE).
  { intro dd. cbn [parser p_prec]. unfold parse_precedence_body. rewrite (bind_ok _ _ _ _ _ (peek_ok t [] eq_refl)), (bind_ok _ _ _ _ _ (for_token_ok t _ [t] eq_refl)).
    cbn [prefix r_prefix run_prefix]. pose proof (int_ok d t [] T N H) as LI. destruct (numeral_value d <=? i64_max)%Z.
    - rewrite (bind_ok _ _ _ _ _ LI). reflexivity.
    - unfold pbind. rewrite LI. reflexivity. }
  apply (any_answer 2).
  - destruct (numeral_value d <=? i64_max)%Z; [apply seq_one|apply seq_err]; try exact S; exact (L 0).
  - destruct (numeral_value d <=? i64_max)%Z; discriminate.
Qed.
Lemma parse_integer d : d <> [] -> all digit_char d ->
  parse d = if (numeral_value d <=? i64_max)%Z then Ok (EBlock [] (Some (ELitInt (numeral_value d)))) else Err INVALID_INTEGER_VALUE.
Proof.
  intros N H. unfold parse. assert (E : tokenize d = [Tok TInteger 0 d None]).
  { symmetry. apply tokens_unique. assert (E0 : d = [] ++ d ++ []) by (rewrite app_nil_r; reflexivity). rewrite E0 at 1.
    change 0 with (0 + text_len []) at 2. pose proof (digit_word d N H) as W. apply to_token.
    - constructor.
    - apply lx_integer; [exact N|exact H|intros []|]. intros (r & Er & _). discriminate Er.
    - exact N.
    - apply word_not_white, W.
    - apply comment_47_not, W.
    - constructor. constructor. }
  rewrite E, (parse_integer_token 0 d N H). destruct (numeral_value d <=? i64_max)%Z; reflexivity.
Qed.

Lemma parse_integer_lt d : d <> [] -> all digit_char d ->
  parse d = if (numeral_value d <? 2 ^ 63)%Z then Ok (EBlock [] (Some (ELitInt (numeral_value d)))) else Err INVALID_INTEGER_VALUE.
Proof.
  intros N H. rewrite (parse_integer d N H). change i64_max with 9223372036854775807%Z. change (2 ^ 63)%Z with 9223372036854775808%Z.
  destruct (Z.leb_spec (numeral_value d) 9223372036854775807) as [A|A], (Z.ltb_spec (numeral_value d) 9223372036854775808) as [B|B]; try reflexivity; lia.
Qed.
Lemma numeral_app a b : numeral_value (a ++ b) = (numeral_value a * 10 ^ Z.of_nat (List.length b) + numeral_value b)%Z.
Proof.
  induction a as [|c a IH]; cbn [app numeral_value]; [lia|]. rewrite IH, app_length, Nat2Z.inj_add, Z.pow_add_r by lia. lia.
Qed.
Lemma digits_ok n : forall z, (0 <= z < 10 ^ Z.of_nat n)%Z -> n <> 0 -> digits n z <> [] /\ all digit_char (digits n z) /\ numeral_value (digits n z) = z.
Proof.
  induction n as [|n IH]; intros z Hz Hn; [congruence|]. cbn [digits].
  assert (M : (0 <= z mod 10 < 10)%Z) by (apply Z.mod_pos_bound; lia).
  assert (D : digit_char (Z.to_N (48 + z mod 10))). { apply is_digit_char. unfold is_digit, Lexer.between. apply andb_true_intro. split; apply N.leb_le; lia. }
  assert (V : (Z.of_N (Z.to_N (48 + z mod 10)) - 48 = z mod 10)%Z) by lia.
  split; [intro X; apply app_eq_nil in X; destruct X as [_ X]; discriminate X|].
  destruct (Z.ltb_spec z 10) as [L|L].
  - cbn [app numeral_value List.length]. rewrite V. split; [constructor; [exact D|constructor]|]. rewrite Z.mod_small by lia. change (10 ^ Z.of_nat 0)%Z with 1%Z. lia.
  - rewrite Nat2Z.inj_succ, Z.pow_succ_r in Hz by lia.
    assert (B : (0 <= z / 10 < 10 ^ Z.of_nat n)%Z) by (split; [apply Z.div_pos; lia|apply Z.div_lt_upper_bound; lia]).
    assert (N0 : n <> 0). { intro X. subst n. change (10 ^ Z.of_nat 0)%Z with 1%Z in Hz. lia. }
    destruct (IH _ B N0) as (_ & A & E). split; [apply Forall_app; split; [exact A|constructor; [exact D|constructor]]|].
    rewrite numeral_app, E. cbn [numeral_value List.length]. rewrite V. change (10 ^ Z.of_nat 0)%Z with 1%Z. change (10 ^ Z.of_nat 1)%Z with 10%Z. pose proof (Z.div_mod z 10 ltac:(lia)). lia.
Qed.

(** * Words and tokens *)
Definition spelled (w : word) (t : token) : Prop := tk_kind t = fst w /\ tk_slice t = snd w /\ tk_error t = None.
Definition all_spelled : list word -> list token -> Prop := Forall2 spelled.
(** A word before a space is a token. *)
Definition good (w : word) : Prop :=
  snd w <> [] /\ ~ starts white (snd w) /\ forall rest, ~ comment_starts (snd w ++ chars " " ++ rest) /\ lexeme (fst w) (snd w) (chars " " ++ rest) None.
Lemma good_tokens ws : Forall good ws -> forall pos, exists ts, tokens_of pos (flat_map (fun w => snd w ++ chars " ") ws) ts /\ all_spelled ws ts.
Proof.
  intros H0.
  assert (B : forall ws, Forall good ws -> forall g, Forall white g -> forall pos, exists ts, tokens_of pos (g ++ flat_map (fun w => snd w ++ chars " ") ws) ts /\ all_spelled ws ts).
  { clear ws H0. intros ws H. induction H as [|[k s] ws (N & W & G) H IH]; intros g Hg pos; cbn [flat_map].
    - exists []. split; [|constructor]. rewrite app_nil_r. constructor. apply blank_all_white, Hg.
    - destruct (IH (chars " ") ltac:(repeat constructor) (pos + text_len (g ++ s))) as (ts & T & A). cbn [fst snd] in *. eexists. split.
      + rewrite <- app_assoc. apply to_token; [apply blank_all_white, Hg|apply G|exact N|exact W|apply G|exact T].
      + constructor; [split; [reflexivity|split; reflexivity]|exact A]. }
  intros pos. exact (B ws H0 [] ltac:(constructor) pos).
Qed.

Lemma no_space k s : symbol k = Some s -> ~ In 32%N (chars s).
Proof. destruct k; intro H; try discriminate H; injection H as <-; cbn; intro I; decompose [or] I; try discriminate; try contradiction. Qed.
Lemma good_sym k s : symbol k = Some s -> good (sym k).
Proof.
  intros H. unfold good, sym. cbn [fst snd]. rewrite H.
  assert (C : forall rest, ~ comment_starts (chars s ++ chars " " ++ rest)).
  { intros rest (c & r & E & _). destruct k; try discriminate H; injection H as <-; cbn in E; discriminate E. }
  split; [destruct k; try discriminate H; injection H as <-; discriminate|].
  split; [destruct k; try discriminate H; injection H as <-; cbn; intro W; decompose [or] W; try discriminate; contradiction|].
  intros rest. split; [apply C|]. apply lx_symbol; [exact H|apply C|]. intros k' s' r H' E.
  destruct (Nat.le_gt_cases (String.length s') (String.length s)) as [L|L]; [exact L|]. exfalso.
  apply (no_space k' s' H'). rewrite <- !chars_length in L. revert E L. generalize (chars s) (chars s'). clear. intros a. induction a as [|x a IH]; intros [|y b] E L; cbn [app List.length] in *; try lia.
  - cbn in E. injection E as <- _. left. reflexivity.
  - injection E as _ E. right. apply (IH b E). lia.
Qed.
Lemma chars_app a b : chars a ++ chars b = chars (a ++ b).
Proof. induction a as [|c a IH]; [reflexivity|]. cbn [chars app String.append]. rewrite IH. reflexivity. Qed.
Lemma utf8_ascii s : all (fun c => (c < 128)%N) (chars s) -> utf8 (chars s) = s.
Proof.
  induction s as [|a s IH]; intro H; [reflexivity|]. cbn [chars] in H. inversion H as [|c t Hc Ht]; subst. cbn [chars utf8]. rewrite (IH Ht). unfold utf8_char.
  destruct (N.ltb_spec (N_of_ascii a) 128) as [L|L]; [|lia]. unfold utf8_byte. rewrite ascii_N_embedding. reflexivity.
Qed.
Lemma word_ascii t : all word_char t -> all (fun c => (c < 128)%N) t.
Proof.
  intro H. eapply Forall_impl; [|exact H]. intros c Hc. apply is_word_char in Hc. unfold is_ident_char, is_ident_start, is_digit, Lexer.between in Hc.
  repeat (apply orb_prop in Hc; destruct Hc as [Hc|Hc]); try (apply andb_prop in Hc; destruct Hc as [_ Hc]; apply N.leb_le in Hc; lia). apply N.eqb_eq in Hc. lia.
Qed.
Lemma not_word_space rest : ~ starts word_char (chars " " ++ rest).
Proof. cbn. intro H. apply is_word_char in H. discriminate H. Qed.
Lemma good_name x : writable_name x -> good (name_word x).
Proof.
  intros (S & A & K). unfold good, name_word. cbn [fst snd]. pose proof (letter_word _ S) as W.
  split; [destruct (chars x); [contradiction|discriminate]|]. split; [apply word_not_white, W|]. intro rest. split; [apply comment_47_not, W|].
  apply lx_identifier; [|exact S|exact A|apply not_word_space]. intros k I. rewrite (utf8_ascii x (word_ascii _ A)) in I. exact (K k I).
Qed.
Lemma good_keyword k w : In w (keyword k) -> starts letter (chars w) -> all word_char (chars w) -> good (k, chars w).
Proof.
  intros I S A. unfold good. cbn [fst snd]. pose proof (letter_word _ S) as W.
  split; [destruct (chars w); [contradiction|discriminate]|]. split; [apply word_not_white, W|]. intro rest. split; [apply comment_47_not, W|].
  apply lx_keyword; [rewrite (utf8_ascii w (word_ascii _ A)); exact I|exact S|exact A|apply not_word_space].
Qed.
Lemma all_words_true t : forallb is_ident_char t = true -> all word_char t.
Proof. apply (all_forallb _ _ _ is_word_char). Qed.
Lemma good_digits d : d <> [] -> all digit_char d -> good (TInteger, d).
Proof.
  intros N A. unfold good. cbn [fst snd]. pose proof (digit_word _ N A) as W.
  split; [exact N|]. split; [apply word_not_white, W|]. intro rest. split; [apply comment_47_not, W|].
  apply lx_integer; [exact N|exact A| |intros (r & E & _); discriminate E]. cbn. intro H. apply is_digit_char in H. discriminate H.
Qed.
Lemma good_string s : writable_string s -> good (TString, chars """" ++ chars s ++ chars """").
Proof.
  intros (S & A). unfold good. cbn [fst snd]. split; [discriminate|]. split; [cbn; intro W; decompose [or] W; try discriminate; contradiction|].
  intro rest. split; [intros (c & r & E & _); discriminate E|]. apply lx_string, S.
Qed.

(** * The printer follows the grammar *)
Lemma words_cases l e : words_of l e = if own_level e <? l then sym TLeftParen :: words_of 0 e ++ [sym TRightParen] else words_of 0 e.
Proof. destruct e; reflexivity. Qed.
Lemma level_bounds e : 1 <= own_level e <= 12.
Proof. destruct e; cbn; try lia. destruct op; cbn; lia. Qed.
Lemma sym_token k s t : symbol k = Some s -> spelled (sym k) t -> is_symbol k t.
Proof. intros _ (A & _ & B). split; assumption. Qed.
Lemma name_token x t : writable_name x -> spelled (name_word x) t -> is_name x t.
Proof. intros (_ & A & _) (K & S & E). split; [exact K|]. split; [|exact E]. rewrite S. apply utf8_ascii, word_ascii, A. Qed.
Lemma spelled_app a b ts : all_spelled (a ++ b) ts -> exists x y, ts = x ++ y /\ all_spelled a x /\ all_spelled b y.
Proof. intro H. apply Forall2_app_inv_l in H. destruct H as (x & y & A & B & ->). exists x, y. auto. Qed.
Lemma spelled_cons a b ts : all_spelled (a :: b) ts -> exists x y, ts = x :: y /\ spelled a x /\ all_spelled b y.
Proof. intro H. inversion H as [|w t ws ts' A B]; subst. exists t, ts'. auto. Qed.
Lemma spelled_one a ts : all_spelled [a] ts -> exists x, ts = [x] /\ spelled a x.
Proof. intro H. destruct (spelled_cons _ _ _ H) as (x & y & -> & A & B). inversion B; subst. exists x. auto. Qed.
Lemma is_sym k t : spelled (sym k) t -> is_symbol k t.
Proof. intros (A & _ & B). split; assumption. Qed.

Definition follows (e : expr) : Prop := forall l ts, l <= 11 -> all_spelled (words_of l e) ts -> writes l e ts.
Lemma follows_of e : (forall l ts, l <= own_level e -> l <= 11 -> all_spelled (words_of 0 e) ts -> writes l e ts) -> follows e.
Proof.
  intros H l ts L A. rewrite words_cases in A. destruct (Nat.ltb_spec (own_level e) l) as [B|B]; [|exact (H l ts B L A)].
  apply spelled_cons in A. destruct A as (o & y & -> & So & A). apply spelled_app in A. destruct A as (x & z & -> & A & C). apply spelled_one in C. destruct C as (c & -> & Sc).
  apply w_paren; [apply is_sym, So| |apply is_sym, Sc]. apply H; [apply level_bounds|lia|exact A].
Qed.
Lemma items_follow l : (forall a, In a l -> follows a) -> forall ts, all_spelled (commas (map (words_of 1) l)) ts -> writes_items l ts.
Proof.
  destruct l as [|a l]; intros H ts A; cbn [map commas] in A.
  - inversion A; subst. constructor.
  - apply spelled_app in A. destruct A as (x & y & -> & A & B). revert a x y H A B. induction l as [|b l IH]; intros a x y H A B; cbn [map flat_map] in B.
    + inversion B; subst. rewrite app_nil_r. apply wi_one. apply (H a (or_introl eq_refl) 1); [lia|exact A].
    + cbn [app] in B. apply spelled_cons in B. destruct B as (c & z & -> & Sc & B). apply spelled_app in B. destruct B as (u & v & -> & B & C).
      apply wi_more; [apply (H a (or_introl eq_refl) 1); [lia|exact A]|apply is_sym, Sc|]. apply IH; [intros a' I; apply H; right; exact I|exact B|exact C].
Qed.
Lemma params_follow l : (forall a, In a l -> writable_name (fa_name a)) -> (forall a, In a l -> fa_type a = None) ->
  forall ts, all_spelled (commas (map (fun a => [name_word (fa_name a)]) l)) ts -> writes_params l ts.
Proof.
  destruct l as [|a l]; intros H N ts A; cbn [map commas] in A.
  - inversion A; subst. constructor.
  - apply spelled_app in A. destruct A as (x & y & -> & A & B). apply spelled_one in A. destruct A as (t & -> & A).
    revert a t y H N A B. induction l as [|b l IH]; intros a t y H N A B; cbn [map flat_map] in B;
      destruct a as [n ty]; pose proof (N _ (or_introl eq_refl)) as Nt; cbn in Nt; subst ty; pose proof (name_token _ _ (H _ (or_introl eq_refl)) A) as T; cbn [fa_name] in T; cbn [app].
    + inversion B; subst. apply wp_one, wp_plain. exact T.
    + cbn [app] in B. apply spelled_cons in B. destruct B as (c & z & -> & Sc & B). apply spelled_cons in B. destruct B as (u & v & -> & B & C).
      apply (wp_more _ [t]); [apply wp_plain; exact T|apply is_sym, Sc|]. apply (IH b u v); [intros a' I; apply H; right; exact I|intros a' I; apply N; right; exact I|exact B|exact C].
Qed.
Lemma property_follow x e ts : writable_name x -> follows e -> all_spelled (name_word x :: sym TColon :: words_of 1 e) ts -> writes_property x e ts.
Proof.
  intros N H A. apply spelled_cons in A. destruct A as (t & y & -> & St & A). apply spelled_cons in A. destruct A as (c & z & -> & Sc & A).
  destruct (name_token x t N St) as (K & U & E). apply w_property; [rewrite K; cbn; auto|exact E|exact U|apply is_sym, Sc|apply H; [lia|exact A]].
Qed.
Lemma fields_follow l : (forall x a, In (x, a) l -> writable_name x) -> (forall x a, In (x, a) l -> follows a) ->
  forall ts, all_spelled (commas (map (fun p => name_word (fst p) :: sym TColon :: words_of 1 (snd p)) l)) ts -> writes_fields l ts.
Proof.
  destruct l as [|[k a] l]; intros N H ts A; cbn [map commas] in A.
  - inversion A; subst. constructor.
  - apply spelled_app in A. destruct A as (x & y & -> & A & B). revert k a x y N H A B. induction l as [|[k' b] l IH]; intros k a x y N H A B; cbn [map flat_map] in B;
      pose proof (property_follow k a x (N k a (or_introl eq_refl)) (H k a (or_introl eq_refl)) A) as P.
    + inversion B; subst. rewrite app_nil_r. apply wf_one, P.
    + change ((sym TComma :: name_word (fst (k', b)) :: sym TColon :: words_of 1 (snd (k', b))) ++ flat_map (fun y => sym TComma :: y) (map (fun p => name_word (fst p) :: sym TColon :: words_of 1 (snd p)) l))
        with (sym TComma :: (name_word k' :: sym TColon :: words_of 1 b) ++ flat_map (fun y => sym TComma :: y) (map (fun p => name_word (fst p) :: sym TColon :: words_of 1 (snd p)) l)) in B.
      apply spelled_cons in B. destruct B as (c & z & -> & Sc & B). apply spelled_app in B. destruct B as (u & v & -> & B & C).
      apply wf_more; [exact P|apply is_sym, Sc|]. apply IH; [intros x' a' I; apply (N x' a'); right; exact I|intros x' a' I; apply (H x' a'); right; exact I|exact B|exact C].
Qed.
Definition target_follows (e : expr) : Prop :=
  match e with
  | EFieldAccess _ _ | EIndex _ _ => forall ts, all_spelled (words_of 0 e) ts -> writes_target e ts
  | ELitIdent x => writable_name x
  | _ => True
  end.
Lemma symbols_follow ks ts : all_spelled (map sym ks) ts -> Forall2 is_symbol ks ts.
Proof. revert ts. induction ks as [|k ks IH]; intros ts A; inversion A as [|w t ws ts' S A']; subst; constructor; [apply is_sym, S|apply IH, A']. Qed.
Ltac cut_one H := apply spelled_one in H; destruct H as (? & -> & ?).
Lemma printer_follows e : writable e -> follows e /\ target_follows e.
Proof.
  induction 1 as [z Hz|s Hs|b| | |x Hx|op a Ha [IHa _]|op a b Ha [IHa _] Hb [IHb _]|a t Ha [IHa _] Ht|a Ha [IHa _]|a Ha [IHa _]|a x Ha [IHa _] Hx
    |a i Ha [IHa _] Hi [IHi _]|f args Hf [IHf _] Ha IHa|items Hi IHi|items Hn Hi IHi|op a b Hk Ha [IHa Ta] Hb [IHb _]|args body Hargs Hl Hb [IHb _]];
    (split; [|try exact I]).
  - apply follows_of. intros l ts _ _ A. cbn [words_of own_level] in A. cut_one A. apply w_atom.
    destruct (digits_ok 19 z ltac:(change (10 ^ Z.of_nat 19)%Z with 10000000000000000000%Z; lia) ltac:(lia)) as (N & D & V).
    rewrite <- V at 1. apply wa_int; [exact H|exact N|exact D|rewrite V; apply Hz].
  - apply follows_of. intros l ts _ _ A. cbn [words_of own_level] in A. cut_one A. apply w_atom. apply wa_string. destruct H as (K & S & E). split; [exact K|]. split; [|exact E].
    rewrite S. cbn [snd]. change (chars """" ++ chars s ++ chars """") with (chars """" ++ (chars s ++ chars """")). 
    assert (Q : forall a b, all (fun c => (c < 128)%N) (chars a) -> all (fun c => (c < 128)%N) (chars b) -> utf8 (chars a ++ chars b) = (a ++ b)%string).
    { intros a b Pa Pb. assert (CA : chars a ++ chars b = chars (a ++ b)) by apply chars_app.
      rewrite CA. apply utf8_ascii. rewrite <- CA. apply Forall_app. split; assumption. }
    assert (CS : chars s ++ chars """" = chars (s ++ """")) by apply chars_app.
    assert (Q34 : all (fun c => (c < 128)%N) (chars """")) by (repeat constructor).
    rewrite CS. apply Q; [exact Q34|]. rewrite <- CS. apply Forall_app. split; [apply Hs|exact Q34].
  - apply follows_of. intros l ts _ _ A. cbn [words_of own_level] in A. destruct b; cut_one A; apply w_atom; destruct H as (K & S & E); constructor; split; assumption.
  - apply follows_of. intros l ts _ _ A. cbn [words_of own_level] in A. cut_one A; apply w_atom; destruct H as (K & S & E); constructor; split; assumption.
  - apply follows_of. intros l ts _ _ A. cbn [words_of own_level] in A. apply spelled_cons in A. destruct A as (o & y & -> & So & A). cut_one A. apply w_atom. apply wa_unit; apply is_sym; assumption.
  - apply follows_of. intros l ts _ _ A. cbn [words_of own_level] in A. cut_one A; apply w_atom. apply wa_name. apply name_token; assumption.
  - exact Hx.
  - apply follows_of. intros l ts L _ A. cbn [own_level] in L. cbn [words_of own_level Nat.ltb Nat.leb] in A. apply spelled_cons in A. destruct A as (o & y & -> & So & A).
    apply w_prefix; [exact L|apply is_sym, So|apply IHa; [lia|exact A]].
  - apply follows_of. intros l ts L _ A. cbn [own_level] in L. cbn [words_of own_level] in A. replace (binary_level op <? 0) with false in A by reflexivity.
    apply spelled_app in A. destruct A as (x & y & -> & A & B). apply spelled_app in B. destruct B as (os & v & -> & B & C). pose proof (binary_level_range op).
    apply w_binary; [exact L|apply IHa; [lia|exact A]|apply symbols_follow, B|apply IHb; [lia|exact C]].
  - apply follows_of. intros l ts L _ A. cbn [own_level] in L. cbn [words_of own_level Nat.ltb Nat.leb] in A. apply spelled_app in A. destruct A as (x & y & -> & A & B).
    apply spelled_cons in B. destruct B as (i & v & -> & Si & B). apply w_is; [exact L|apply IHa; [lia|exact A]|destruct Si as (K & _ & E); split; assumption|].
    destruct t as [n q]. unfold type_words in B. cbn [ta_name ta_nullable] in *. apply spelled_cons in B. destruct B as (nt & w & -> & Sn & B). pose proof (name_token n nt Ht Sn). destruct q.
    + cut_one B. apply wt_nullable; [assumption|apply is_sym; assumption].
    + inversion B; subst. apply wt_plain. assumption.
  - apply follows_of. intros l ts L _ A. cbn [own_level] in L. cbn [words_of own_level Nat.ltb Nat.leb] in A. apply spelled_app in A. destruct A as (x & y & -> & A & B). cut_one B.
    apply w_null_propagate; [exact L|apply IHa; [lia|exact A]|apply is_sym; assumption].
  - apply follows_of. intros l ts L _ A. cbn [own_level] in L. cbn [words_of own_level Nat.ltb Nat.leb] in A. apply spelled_app in A. destruct A as (x & y & -> & A & B). cut_one B.
    apply w_error_propagate; [exact L|apply IHa; [lia|exact A]|apply is_sym; assumption].
  - assert (T : target_follows (EFieldAccess a x)).
    { intros ts A. cbn [words_of own_level Nat.ltb Nat.leb] in A. apply spelled_app in A. destruct A as (u & v & -> & A & B). apply spelled_cons in B. destruct B as (dot & w & -> & Sd & B). cut_one B.
      apply w_field; [apply IHa; [lia|exact A]|apply is_sym, Sd|apply name_token; assumption]. }
    apply follows_of. intros l ts L _ A. apply w_target; [exact L|]. exact (T ts A).
  - intros ts A. cbn [words_of own_level Nat.ltb Nat.leb] in A. apply spelled_app in A. destruct A as (u & v & -> & A & B). apply spelled_cons in B. destruct B as (dot & w & -> & Sd & B). cut_one B.
    apply w_field; [apply IHa; [lia|exact A]|apply is_sym, Sd|apply name_token; assumption].
  - apply follows_of. intros l ts L _ A. apply w_target; [exact L|]. cbn [words_of own_level Nat.ltb Nat.leb] in A. apply spelled_app in A. destruct A as (u & v & -> & A & B). apply spelled_cons in B. destruct B as (o & w & -> & So & B).
    apply spelled_app in B. destruct B as (ti & z & -> & B & C). cut_one C. apply w_index; [apply IHa; [lia|exact A]|apply is_sym, So|apply IHi; [lia|exact B]|apply is_sym; assumption].
  - intros ts A. cbn [words_of own_level Nat.ltb Nat.leb] in A. apply spelled_app in A. destruct A as (u & v & -> & A & B). apply spelled_cons in B. destruct B as (o & w & -> & So & B).
    apply spelled_app in B. destruct B as (ti & z & -> & B & C). cut_one C. apply w_index; [apply IHa; [lia|exact A]|apply is_sym, So|apply IHi; [lia|exact B]|apply is_sym; assumption].
  - apply follows_of. intros l ts L _ A. cbn [own_level] in L. cbn [words_of own_level Nat.ltb Nat.leb] in A. apply spelled_app in A. destruct A as (u & v & -> & A & B). apply spelled_cons in B. destruct B as (o & w & -> & So & B).
    apply spelled_app in B. destruct B as (ti & z & -> & B & C). cut_one C. apply w_call; [exact L|apply IHf; [lia|exact A]|apply is_sym, So|apply items_follow; [intros a' I'; apply (IHa a' I')|exact B]|apply is_sym; assumption].
  - apply follows_of. intros l ts L _ A. cbn [words_of own_level Nat.ltb Nat.leb] in A. apply spelled_cons in A. destruct A as (o & w & -> & So & B).
    apply spelled_app in B. destruct B as (ti & z & -> & B & C). cut_one C. apply w_list; [apply is_sym, So|apply items_follow; [intros a' I'; apply (IHi a' I')|exact B]|apply is_sym; assumption].
  - apply follows_of. intros l ts L _ A. cbn [words_of own_level Nat.ltb Nat.leb] in A. apply spelled_cons in A. destruct A as (h & w & -> & Sh & B). apply spelled_cons in B. destruct B as (o & w' & -> & So & B).
    apply spelled_app in B. destruct B as (ti & z & -> & B & C). cut_one C. apply w_object; [apply is_sym, Sh|apply is_sym, So|apply fields_follow; [exact Hn|intros x' a' I'; apply (IHi x' a' I')|exact B]|apply is_sym; assumption].
  - apply follows_of. intros l ts L _ A. cbn [own_level] in L. cbn [words_of own_level Nat.ltb Nat.leb] in A. apply spelled_app in A. destruct A as (u & v & -> & A & B). apply spelled_cons in B. destruct B as (o & w & -> & So & B).
    pose proof (is_sym _ _ So) as So'. assert (Wb : writes 1 b w) by (apply IHb; [lia|exact B]).
    rewrite words_cases in A. destruct a; try contradiction Hk; cbn [own_level Nat.ltb Nat.leb] in A.
    + cbn [words_of own_level Nat.ltb Nat.leb] in A. cut_one A. cbn [app]. apply w_assign_name; [exact L|apply name_token; [exact Ta|assumption]|exact So'|exact Wb].
    + apply w_assign; [exact L|exact (Ta u A)|exact So'|exact Wb].
    + apply w_assign; [exact L|exact (Ta u A)|exact So'|exact Wb].
  - apply follows_of. intros l ts L _ A. cbn [own_level] in L. cbn [words_of own_level Nat.ltb Nat.leb] in A. apply spelled_cons in A. destruct A as (o & w & -> & So & B).
    apply spelled_app in B. destruct B as (ta & z & -> & B & C). apply spelled_cons in C. destruct C as (c & tb & -> & Sc & C).
    apply w_function; [exact L|apply is_sym, So|apply params_follow; [intros a' I'; apply (Hargs a' I')|intros a' I'; apply (Hargs a' I')|exact B]|apply is_sym, Sc|exact Hl|apply IHb; [lia|exact C]].
Qed.

(** Every word of a written tree is a token. *)
Lemma good_commas l : (forall ws, In ws l -> Forall good ws) -> Forall good (commas l).
Proof.
  destruct l as [|x l]; intro H; [constructor|]. cbn [commas]. apply Forall_app. split; [apply H; left; reflexivity|].
  assert (H' : forall ws, In ws l -> Forall good ws) by (intros ws I; apply H; right; exact I). clear H. induction l as [|y l IH]; [constructor|]. cbn [flat_map].
  apply Forall_app. split; [constructor; [apply (good_sym TComma ","); reflexivity|apply H'; left; reflexivity]|]. apply IH. intros ws I. apply H'. right. exact I.
Qed.
Lemma words_good e : writable e -> forall l, Forall good (words_of l e).
Proof.
  assert (P : forall e, Forall good (words_of 0 e) -> forall l, Forall good (words_of l e)).
  { intros e0 H l. rewrite words_cases. destruct (own_level e0 <? l); [|exact H]. constructor; [apply (good_sym TLeftParen "("); reflexivity|].
    apply Forall_app. split; [exact H|]. constructor; [apply (good_sym TRightParen ")"); reflexivity|constructor]. }
  assert (S : forall k, symbol k <> None -> good (sym k)). { intros k H. destruct (symbol k) as [s|] eqn:E; [exact (good_sym k s E)|congruence]. }
  induction 1 as [z Hz|s Hs|b| | |x Hx|op a Ha IHa|op a b Ha IHa Hb IHb|a t Ha IHa Ht|a Ha IHa|a Ha IHa|a x Ha IHa Hx
    |a i Ha IHa Hi IHi|f args Hf IHf Ha IHa|items Hi IHi|items Hn Hi IHi|op a b Hk Ha IHa Hb IHb|args body Hargs Hl Hb IHb];
    apply P; cbn [words_of own_level]; try (change (12 <? 0) with false); try (change (11 <? 0) with false); try (change (10 <? 0) with false); try (change (7 <? 0) with false);
    try (change (1 <? 0) with false); try (replace (binary_level op <? 0) with false by reflexivity); cbv iota.
  - constructor; [|constructor]. destruct (digits_ok 19 z ltac:(change (10 ^ Z.of_nat 19)%Z with 10000000000000000000%Z; lia) ltac:(lia)) as (N & D & _). apply good_digits; assumption.
  - constructor; [apply good_string, Hs|constructor].
  - destruct b; (constructor; [apply good_keyword; [left; reflexivity|apply is_letter; reflexivity|apply all_words_true; reflexivity]|constructor]).
  - constructor; [apply good_keyword; [left; reflexivity|apply is_letter; reflexivity|apply all_words_true; reflexivity]|constructor].
  - constructor; [apply S; discriminate|]. constructor; [apply S; discriminate|constructor].
  - constructor; [apply good_name, Hx|constructor].
  - constructor; [apply S; destruct op; discriminate|apply IHa].
  - apply Forall_app. split; [apply IHa|]. apply Forall_app. split; [|apply IHb]. destruct op; cbn [binary_symbols map]; repeat (apply Forall_cons; [apply S; discriminate|]); apply Forall_nil.
  - apply Forall_app. split; [apply IHa|]. constructor; [apply good_keyword; [left; reflexivity|apply is_letter; reflexivity|apply all_words_true; reflexivity]|].
    unfold type_words. constructor; [apply good_name, Ht|]. destruct (ta_nullable t); [|constructor]. constructor; [apply S; discriminate|constructor].
  - apply Forall_app. split; [apply IHa|]. constructor; [apply S; discriminate|constructor].
  - apply Forall_app. split; [apply IHa|]. constructor; [apply S; discriminate|constructor].
  - apply Forall_app. split; [apply IHa|]. constructor; [apply S; discriminate|]. constructor; [apply good_name, Hx|constructor].
  - apply Forall_app. split; [apply IHa|]. constructor; [apply S; discriminate|]. apply Forall_app. split; [apply IHi|]. constructor; [apply S; discriminate|constructor].
  - apply Forall_app. split; [apply IHf|]. constructor; [apply S; discriminate|]. apply Forall_app. split; [|constructor; [apply S; discriminate|constructor]].
    apply good_commas. intros ws I. apply in_map_iff in I. destruct I as (a & <- & I). apply (IHa a I).
  - constructor; [apply S; discriminate|]. apply Forall_app. split; [|constructor; [apply S; discriminate|constructor]].
    apply good_commas. intros ws I. apply in_map_iff in I. destruct I as (a & <- & I). apply (IHi a I).
  - constructor; [apply S; discriminate|]. constructor; [apply S; discriminate|]. apply Forall_app. split; [|constructor; [apply S; discriminate|constructor]].
    apply good_commas. intros ws I. apply in_map_iff in I. destruct I as ([x a] & <- & I). cbn [fst snd]. constructor; [apply good_name, (Hn x a I)|].
    constructor; [apply S; discriminate|]. apply (IHi x a I).
  - apply Forall_app. split; [apply IHa|]. constructor; [apply S; destruct op; discriminate|apply IHb].
  - constructor; [apply S; discriminate|]. apply Forall_app. split; [|constructor; [apply S; discriminate|apply IHb]].
    apply good_commas. intros ws I. apply in_map_iff in I. destruct I as (a & <- & I). constructor; [apply good_name, (Hargs a I)|constructor].
Qed.
Lemma print_parse e : writable e -> parse (text_of e) = Ok (EBlock [] (Some e)).
Proof.
  intro W. destruct (good_tokens (words_of 1 e) (words_good e W 1) 0) as (ts & T & A).
  apply (source_inverted (text_of e) e ts T). apply (proj1 (printer_follows e W) 1 ts); [lia|exact A].
Qed.

(** * What follows an unmatched closing brace is ignored *)
Lemma stray_brace e ts c rest : writes 1 e ts -> is_symbol TRightCurly c -> parse_tokens (ts ++ c :: rest) = Ok (EBlock [] (Some e), c :: rest).
Proof.
  intros w Hc. pose proof (proj1 writes_reads 1 e ts w) as W. destruct (w_done1 e ts w (c :: rest) W (follow_close _ _ _ _ Hc ltac:(auto))) as (d & D).
  apply (any_answer (S d)); [|discriminate]. specialize (D d (le_n d)). destruct (proj1 W) as (t & r & rl & f & -> & E & R & H). cbn [app] in *.
  cbn [parser p_seq]. unfold expression_sequence_body.
  destruct (starts_statement t rl f (p_prec (parser d)) (p_seq (parser d)) R H) as [S1 S2].
  assert (EQ : statements (p_prec (parser d)) (p_seq (parser d)) (S (List.length (t :: r ++ c :: rest))) (t :: r ++ c :: rest) = Ok (([], Some e), c :: rest)).
  { cbn [statements]. rewrite (bind_ok _ _ _ _ _ (kind_ok t _ E)), S2, S1. unfold expression. rewrite (bind_ok _ _ _ _ _ D), (bind_ok _ _ _ _ _ (kind_ok c rest (proj2 Hc))), (proj1 Hc). reflexivity. }
  unfold pbind. rewrite EQ. reflexivity.
Qed.
(** A program that starts with a token that has no rule. *)
Lemma no_rule_panics t r : tk_error t = None -> In (tk_kind t) [TArrow; TWideArrow; TElse; TMut; TIn; TAs; TFrom; TReserved; TError] -> parse_tokens (t :: r) = Panic.
Proof.
  intros E K. apply (any_answer 2); [|discriminate]. cbn [parser p_seq p_prec]. unfold expression_sequence_body. unfold pbind at 1. cbn [statements].
  rewrite (bind_ok _ _ _ _ _ (kind_ok t r E)).
  assert (R : ends_block (tk_kind t) = false /\ (forall prec seq, statement prec seq (tk_kind t) = expression prec) /\ rule_for (tk_kind t) = None).
  { cbn [In] in K. decompose [or] K; try contradiction; subst; match goal with HH : _ = tk_kind t |- _ => rewrite <- HH end; repeat split; reflexivity. }
  destruct R as (R1 & R2 & R3). rewrite R1, R2. unfold expression, parse_precedence_body, pbind at 1. rewrite (bind_ok _ _ _ _ _ (peek_ok t r E)). unfold pbind at 1, for_token at 1. rewrite R3. reflexivity.
Qed.

(** * Examples *)
Definition all_keyword_kinds : list token_kind :=
  [TErrorCoalesce; TFalse; TTrue; TNull; TIf; TElse; TWhile; TLoop; TFor; TBreak; TContinue; TReturn; TFunction; TLet; TMut;
   TIn; TOperator; TClass; TIs; TImport; TAs; TFrom; TExport; TSuper; TReserved].
Lemma name_check x : forallb is_ident_char (chars x) = true -> match chars x with c :: _ => is_ident_start c = true | [] => False end ->
  existsb (String.eqb x) (flat_map keyword all_keyword_kinds) = false -> writable_name x.
Proof.
  intros A S K. split; [destruct (chars x); [exact S|apply is_letter, S]|]. split; [apply all_words_true, A|]. intros k I.
  rewrite <- Bool.not_true_iff_false in K. apply K, existsb_exists. exists x. split; [|apply String.eqb_refl]. apply in_flat_map. exists k. split; [|exact I].
  destruct k; cbn in I; try contradiction; cbn; auto 30.
Qed.
Definition sample_tree : expr :=
  EBinary BCoalesce
    (EBinary BSubtract (ELitIdent "a")
       (EBinary BMultiply (EBinary BSubtract (ELitIdent "b") (ELitIdent "c")) (EPrefix Negate (ELitIdent "d"))))
    (ELitAnonymousFn [FnArg "x" None] None (ENullPropagate (EFnCall (EFieldAccess (ELitIdent "x") "f") [ELitInt 1; ELitList []]))).
Lemma sample_tree_writable : writable sample_tree.
Proof.
  assert (N : forall x, In x ["a"; "b"; "c"; "d"; "x"; "f"]%string -> writable_name x).
  { intros x I. cbn [In] in I. decompose [or] I; try contradiction; subst; apply name_check; reflexivity. }
  assert (V : forall x, In x ["a"; "b"; "c"; "d"; "x"; "f"]%string -> writable (ELitIdent x)) by (intros x I; apply wr_name, N, I).
  unfold sample_tree. apply wr_binary.
  - apply wr_binary; [apply V; cbn; auto|]. apply wr_binary; [|apply wr_prefix, V; cbn; auto]. apply wr_binary; apply V; cbn; auto.
  - apply wr_function; [|cbn; lia|].
    + intros a [<-|[]]. split; [apply N; cbn; auto 10|reflexivity].
    + apply wr_null_propagate, wr_call.
      * apply wr_field; [apply V|apply N]; cbn; auto 10.
      * intros a [<-|[<-|[]]]; [apply wr_int; lia|apply wr_list; intros a []].
Qed.
Lemma no_rule_text t tk r : tokenize t = tk :: r -> tk_error tk = None ->
  In (tk_kind tk) [TArrow; TWideArrow; TElse; TMut; TIn; TAs; TFrom; TReserved; TError] -> parse t = Panic.
Proof. intros E N K. unfold parse. rewrite E, (no_rule_panics tk r N K). reflexivity. Qed.
