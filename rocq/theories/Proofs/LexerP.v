(** The scanner of Model/Lexer.v against Spec/LexSpec.v. *)
From Coq Require Import Lia.
From Verif.Model Require Import Lexer.
From Verif.Spec Require Import LexSpec.

(** * Character classes *)
Lemma chars_small s c : In c (chars s) -> (c < 256)%N.
Proof.
  induction s as [|a s IH]; cbn [chars In]; [tauto|].
  intros [<-|H]; [|auto]. apply N_ascii_bounded.
Qed.
Lemma class_table (f : char -> bool) (s : string) :
  forallb (fun c => Bool.eqb (f c) (existsb (N.eqb c) (chars s))) (map N.of_nat (seq 0 256)) = true ->
  (forall c, f c = true -> (c < 256)%N) ->
  forall c, f c = true <-> char_in s c.
Proof.
  intros HT HB c. unfold char_in.
  assert (HE : existsb (N.eqb c) (chars s) = true <-> In c (chars s)).
  { rewrite existsb_exists. split.
    - intros (x & Hx & E). apply N.eqb_eq in E. subst. exact Hx.
    - intro H. exists c. split; [exact H|apply N.eqb_refl]. }
  rewrite <- HE.
  destruct (N.ltb_spec c 256) as [Hc|Hc].
  - rewrite forallb_forall in HT. specialize (HT c).
    assert (Hin : In c (map N.of_nat (seq 0 256))).
    { apply in_map_iff. exists (N.to_nat c). split; [apply N2Nat.id|]. apply in_seq. lia. }
    specialize (HT Hin). apply Bool.eqb_prop in HT. rewrite HT. reflexivity.
  - split; intro H.
    + specialize (HB c H). lia.
    + apply HE, chars_small in H. lia.
Qed.
Ltac small := let c := fresh "c" in intros c; unfold is_ident_char, is_ident_start, is_digit, is_space, is_eol, is_escape, between;
  rewrite ?Bool.orb_true_iff, ?Bool.andb_true_iff, ?N.eqb_eq, ?N.leb_le; lia.
Lemma is_letter c : is_ident_start c = true <-> letter c.
Proof. apply class_table; [vm_compute; reflexivity|small]. Qed.
Lemma is_digit_char c : is_digit c = true <-> digit_char c.
Proof. apply class_table; [vm_compute; reflexivity|small]. Qed.
Lemma is_word_char c : is_ident_char c = true <-> word_char c.
Proof. unfold is_ident_char, word_char. rewrite Bool.orb_true_iff, is_letter, is_digit_char. reflexivity. Qed.
Lemma is_white c : is_space c = true <-> white c.
Proof. unfold is_space, white; cbn [In]. rewrite !Bool.orb_true_iff, !N.eqb_eq. split; intro H; repeat destruct H as [H|H]; auto 8; tauto. Qed.
Lemma is_line_end c : is_eol c = true <-> line_end c.
Proof. unfold is_eol, line_end; cbn [In]. rewrite !Bool.orb_true_iff, !N.eqb_eq. split; intro H; repeat destruct H as [H|H]; auto 8; tauto. Qed.
Lemma is_escape_char c : is_escape c = true <-> char_in """\nrt" c.
Proof. apply class_table; [vm_compute; reflexivity|small]. Qed.
Lemma is_quote_char c : (c =? 34)%N || (c =? 92)%N = true <-> char_in """\" c.
Proof. apply (class_table (fun c => (c =? 34)%N || (c =? 92)%N)); [vm_compute; reflexivity|small]. Qed.
Lemma is_slash_char c : (c =? 92)%N = true <-> char_in "\" c.
Proof. apply (class_table (fun c => (c =? 92)%N)); [vm_compute; reflexivity|small]. Qed.
Lemma false_iff (b : bool) (Q : Prop) : (b = true <-> Q) -> (b = false <-> ~ Q).
Proof. intro H. rewrite <- H. destruct b; split; congruence. Qed.

(** * Runs of a class *)
Lemma span_of_le p t : span_of p t <= List.length t.
Proof. induction t as [|c t IH]; cbn [span_of List.length]; [lia|]. destruct (p c); lia. Qed.
Lemma span_of_spec p t : forallb p (firstn (span_of p t) t) = true /\
  match skipn (span_of p t) t with c :: _ => p c = false | [] => True end.
Proof.
  induction t as [|c t IH]; cbn [span_of]; [split; [reflexivity|exact I]|].
  destruct (p c) eqn:E; cbn [firstn skipn forallb].
  - rewrite E. exact IH.
  - split; [reflexivity|exact E].
Qed.
Lemma span_of_app p a b : forallb p a = true -> match b with c :: _ => p c = false | [] => True end ->
  span_of p (a ++ b) = List.length a.
Proof.
  induction a as [|c a IH]; cbn [app forallb span_of List.length]; intros H Hb.
  - destruct b as [|c b]; cbn [span_of]; [reflexivity|]. rewrite Hb. reflexivity.
  - apply Bool.andb_true_iff in H as [Hc Ha]. rewrite Hc, (IH Ha Hb). reflexivity.
Qed.
Lemma all_forallb p (Q : char -> Prop) t : (forall c, p c = true <-> Q c) -> (forallb p t = true <-> all Q t).
Proof.
  intro H. unfold all. rewrite forallb_forall, Forall_forall. split; intros G x Hx; apply H, G, Hx.
Qed.
Lemma starts_not p (Q : char -> Prop) t : (forall c, p c = true <-> Q c) ->
  (match t with c :: _ => p c = false | [] => True end <-> ~ starts Q t).
Proof.
  intro H. destruct t as [|c t]; cbn [starts]; [tauto|]. apply false_iff, H.
Qed.
Lemma firstn_len (t : list char) n : n <= List.length t -> List.length (firstn n t) = n.
Proof. intro H. rewrite firstn_length. lia. Qed.
Lemma firstn_app_l (a b : list char) : firstn (List.length a) (a ++ b) = a.
Proof. rewrite firstn_app, Nat.sub_diag, firstn_all, firstn_O, app_nil_r. reflexivity. Qed.
Lemma skipn_app_l (a b : list char) : skipn (List.length a) (a ++ b) = b.
Proof. rewrite skipn_app, skipn_all, Nat.sub_diag. reflexivity. Qed.

(** * Prefixes and operators *)
Lemma is_prefix_spec p t : is_prefix p t = true <-> exists r, t = p ++ r.
Proof.
  revert t. induction p as [|a p IH]; intros t; cbn [is_prefix].
  - split; [intros _; exists t; reflexivity|reflexivity].
  - destruct t as [|b t].
    + split; [discriminate|intros (r & E); discriminate E].
    + rewrite Bool.andb_true_iff, N.eqb_eq, IH. split.
      * intros [-> (r & ->)]. exists r. reflexivity.
      * intros (r & E). injection E as -> ->. split; [reflexivity|exists r; reflexivity].
Qed.
Lemma chars_length s : List.length (chars s) = String.length s.
Proof. induction s as [|a s IH]; cbn; congruence. Qed.
Definition best_of (t : list char) (seen : list (string * token_kind)) (b : option (nat * token_kind)) : Prop :=
  match b with
  | None => forall p, In p seen -> is_prefix (chars (fst p)) t = false
  | Some (n, k) =>
      (exists s, In (s, k) seen /\ is_prefix (chars s) t = true /\ n = String.length s) /\
      (forall p, In p seen -> is_prefix (chars (fst p)) t = true -> String.length (fst p) <= n)
  end.
Lemma best_step t seen b p : best_of t seen b -> best_of t (seen ++ [p]) (longer t b p).
Proof.
  unfold longer. intro H. destruct (is_prefix (chars (fst p)) t) eqn:E.
  - destruct b as [[m k]|]; cbn [best_of] in H.
    + destruct H as [(s & Hs & Hp & Hn) Hmax]. rewrite chars_length. destruct (Nat.ltb_spec m (String.length (fst p))) as [Hl|Hl].
      * cbn [best_of]. split.
        { exists (fst p). rewrite in_app_iff. split; [right; left; destruct p; reflexivity|split; [exact E|reflexivity]]. }
        intros q Hq Eq. apply in_app_iff in Hq as [Hq|[<-|[]]]; [|lia]. specialize (Hmax q Hq Eq). lia.
      * cbn [best_of]. split.
        { exists s. rewrite in_app_iff. tauto. }
        intros q Hq Eq. apply in_app_iff in Hq as [Hq|[<-|[]]]; [|lia]. exact (Hmax q Hq Eq).
    + rewrite chars_length. cbn [best_of]. split.
      { exists (fst p). rewrite in_app_iff. split; [right; left; destruct p; reflexivity|split; [exact E|reflexivity]]. }
      intros q Hq Eq. apply in_app_iff in Hq as [Hq|[<-|[]]]; [|lia]. rewrite (H q Hq) in Eq. discriminate.
  - destruct b as [[m k]|]; cbn [best_of] in *.
    + destruct H as [(s & Hs & Hp & Hn) Hmax]. split.
      { exists s. rewrite in_app_iff. tauto. }
      intros q Hq Eq. apply in_app_iff in Hq as [Hq|[<-|[]]]; [exact (Hmax q Hq Eq)|congruence].
    + intros q Hq. apply in_app_iff in Hq as [Hq|[<-|[]]]; [exact (H q Hq)|exact E].
Qed.
Lemma best_fold t l : forall seen b, best_of t seen b -> best_of t (seen ++ l) (fold_left (longer t) l b).
Proof.
  induction l as [|p l IH]; intros seen b H; cbn [fold_left].
  - rewrite app_nil_r. exact H.
  - specialize (IH (seen ++ [p]) _ (best_step t seen b p H)). rewrite <- app_assoc in IH. exact IH.
Qed.
Lemma operator_at_best t : best_of t operators (operator_at t).
Proof. apply (best_fold t operators [] None). intros p []. Qed.
Lemma symbol_in k s : symbol k = Some s <-> In (s, k) operators.
Proof.
  split.
  - destruct k; cbn [symbol]; intro H; try discriminate H; injection H as <-; cbn [operators In]; tauto.
  - unfold operators; cbn [In]. intro H.
    repeat (destruct H as [H|H]; [injection H as <- <-; reflexivity|]). destruct H.
Qed.
Lemma same_length_prefix (a b r r' : list char) : a ++ r = b ++ r' -> List.length a = List.length b -> a = b /\ r = r'.
Proof.
  revert b. induction a as [|x a IH]; intros [|y b] E L; cbn in *; try discriminate.
  - split; [reflexivity|exact E].
  - injection E as -> E. injection L as L. destruct (IH b E L) as [-> ->]. split; reflexivity.
Qed.
Lemma chars_inj a b : chars a = chars b -> a = b.
Proof.
  revert b. induction a as [|x a IH]; intros [|y b] E; cbn in E; try discriminate; [reflexivity|].
  injection E as E1 E2. rewrite (IH b E2). f_equal.
  rewrite <- (ascii_N_embedding x), <- (ascii_N_embedding y), E1. reflexivity.
Qed.
(** The operator found, and the longest one is found. *)
Lemma operator_found t n k : operator_at t = Some (n, k) ->
  exists s r, symbol k = Some s /\ n = String.length s /\ t = chars s ++ r /\
    forall k' s' r', symbol k' = Some s' -> t = chars s' ++ r' -> String.length s' <= String.length s.
Proof.
  intro E. generalize (operator_at_best t). rewrite E. cbn [best_of]. intros [(s & Hs & Hp & Hn) Hmax].
  apply is_prefix_spec in Hp as (r & Hr). exists s, r. repeat split; auto.
  - apply symbol_in, Hs.
  - intros k' s' r' Hk' Ht. rewrite <- Hn. apply (Hmax (s', k')); [apply symbol_in, Hk'|].
    apply is_prefix_spec. exists r'. exact Ht.
Qed.
Lemma symbol_inj k k' s : symbol k = Some s -> symbol k' = Some s -> k = k'.
Proof.
  intros H H'. apply symbol_in in H. apply symbol_in in H'.
  unfold operators in H, H'; cbn [In] in H, H'.
  repeat (destruct H as [H|H]; [injection H as <- <-; repeat (destruct H' as [H'|H']; [first [discriminate H'|injection H' as <-; reflexivity]|]); destruct H'|]).
  destruct H.
Qed.
Lemma operator_longest k s rest :
  symbol k = Some s ->
  (forall k' s' r, symbol k' = Some s' -> chars s ++ rest = chars s' ++ r -> String.length s' <= String.length s) ->
  operator_at (chars s ++ rest) = Some (String.length s, k).
Proof.
  intros Hs Hmax. destruct (operator_at (chars s ++ rest)) as [[n k']|] eqn:E.
  - destruct (operator_found _ _ _ E) as (s' & r & Hs' & Hn & Ht & Hmax').
    assert (L : String.length s' = String.length s).
    { specialize (Hmax _ _ _ Hs' Ht). specialize (Hmax' _ _ _ Hs eq_refl). lia. }
    destruct (same_length_prefix _ _ _ _ Ht) as [Es _]; [rewrite !chars_length; congruence|].
    apply chars_inj in Es. subst s'. rewrite (symbol_inj _ _ _ Hs Hs'). congruence.
  - generalize (operator_at_best (chars s ++ rest)). rewrite E. cbn [best_of]. intro H.
    apply symbol_in in Hs. specialize (H _ Hs). cbn [fst] in H.
    assert (is_prefix (chars s) (chars s ++ rest) = true) by (apply is_prefix_spec; exists rest; reflexivity). congruence.
Qed.
Lemma operator_none t : operator_at t = None <-> (forall k s r, symbol k = Some s -> t <> chars s ++ r).
Proof.
  split.
  - intros E k s r Hs Ht. generalize (operator_at_best t). rewrite E. cbn [best_of]. intro H.
    apply symbol_in in Hs. specialize (H _ Hs). cbn [fst] in H.
    assert (is_prefix (chars s) t = true) by (apply is_prefix_spec; exists r; exact Ht). congruence.
  - intro H. destruct (operator_at t) as [[n k]|] eqn:E; [|reflexivity]. exfalso.
    destruct (operator_found _ _ _ E) as (s & r & Hs & _ & Ht & _). exact (H _ _ _ Hs Ht).
Qed.

(** * Words *)
Lemma keyword_in k s : In s (keyword k) <-> In (s, k) words.
Proof.
  split.
  - destruct k; cbn [keyword In words]; intro H; repeat (destruct H as [<-|H]; [tauto|]); destruct H.
  - unfold words; cbn [In]. intro H.
    repeat (destruct H as [H|H]; [injection H as <- <-; cbn [keyword In]; tauto|]). destruct H.
Qed.
Lemma keyword_inj k k' s : In s (keyword k) -> In s (keyword k') -> k = k'.
Proof.
  rewrite !keyword_in. unfold words; cbn [In]. intros H H'.
  repeat (destruct H as [H|H]; [injection H as <- <-; repeat (destruct H' as [H'|H']; [first [discriminate H'|injection H' as <-; reflexivity]|]); destruct H'|]).
  destruct H.
Qed.
Lemma word_kind_keyword w k : In (utf8 w) (keyword k) -> word_kind w = k.
Proof.
  intro H. unfold word_kind. destruct (find _ words) as [p|] eqn:E.
  - apply find_some in E as [Hp E]. apply String.eqb_eq in E. destruct p as [s k']. cbn [fst snd] in *. subst s.
    apply keyword_in in Hp. exact (keyword_inj _ _ _ Hp H).
  - apply keyword_in in H. apply (find_none _ _ E) in H. cbn [fst] in H. rewrite String.eqb_refl in H. discriminate.
Qed.
Lemma word_kind_ident w : (forall k, ~ In (utf8 w) (keyword k)) -> word_kind w = TIdentifier.
Proof.
  intro H. unfold word_kind. destruct (find _ words) as [p|] eqn:E; [|reflexivity].
  apply find_some in E as [Hp E]. apply String.eqb_eq in E. destruct p as [s k']. cbn [fst snd] in *. subst s.
  apply keyword_in in Hp. destruct (H _ Hp).
Qed.
Lemma word_kind_spec w :
  In (utf8 w) (keyword (word_kind w)) \/ ((forall k, ~ In (utf8 w) (keyword k)) /\ word_kind w = TIdentifier).
Proof.
  unfold word_kind. destruct (find _ words) as [p|] eqn:E.
  - left. apply find_some in E as [Hp E]. apply String.eqb_eq in E. destruct p as [s k']. cbn [fst snd] in *. subst s.
    apply keyword_in, Hp.
  - right. split; [|reflexivity]. intros k H. apply keyword_in in H.
    apply (find_none _ _ E) in H. cbn [fst] in H. rewrite String.eqb_refl in H. discriminate.
Qed.

(** * String literals *)
Definition string_answer (t : list char) (a : nat + option errcode) : Prop :=
  match a with
  | inl n => exists s r, t = s ++ r /\ n = List.length s /\ string_tail s
  | inr (Some e) => bad_string t e
  | inr None => ~ (exists s r, t = s ++ r /\ string_tail s) /\ ~ (exists e, bad_string t e)
  end.
Lemma char_34 c : (c =? 34)%N = true -> [c] = chars """".
Proof. intro H. apply N.eqb_eq in H. subst. reflexivity. Qed.
Lemma char_92 c : (c =? 92)%N = true -> [c] = chars "\".
Proof. intro H. apply N.eqb_eq in H. subst. reflexivity. Qed.
Lemma plain_char c : (c =? 34)%N = false -> (c =? 92)%N = false -> ~ char_in """\" c.
Proof. intros A B. apply (false_iff _ _ (is_quote_char c)). rewrite A, B. reflexivity. Qed.
Lemma lex_string_tail s : string_tail s -> forall r, lex_string (s ++ r) = inl (List.length s).
Proof.
  induction 1 as [|c t Hc H IH|c t Hc H IH]; intro r.
  - reflexivity.
  - cbn [app lex_string List.length]. apply (false_iff _ _ (is_quote_char c)) in Hc. apply Bool.orb_false_iff in Hc as [A B].
    rewrite A, B, IH. reflexivity.
  - apply is_escape_char in Hc.
    change (lex_string ((chars "\" ++ c :: t) ++ r)) with
      (if is_escape c then match lex_string (t ++ r) with inl n => inl (S (S n)) | inr e => inr e end
       else inr (Some INVALID_ESCAPE_SEQUENCE) : nat + option errcode).
    rewrite Hc, IH. reflexivity.
Qed.
Lemma lex_string_bad t e : bad_string t e -> lex_string t = inr (Some e).
Proof.
  induction 1 as [c t Hc| |c t e Hc H IH|c t e Hc H IH].
  - apply (false_iff _ _ (is_escape_char c)) in Hc.
    change (lex_string (chars "\" ++ c :: t)) with
      (if is_escape c then match lex_string t with inl n => inl (S (S n)) | inr e => inr e end
       else inr (Some INVALID_ESCAPE_SEQUENCE) : nat + option errcode).
    rewrite Hc. reflexivity.
  - reflexivity.
  - cbn [lex_string]. apply (false_iff _ _ (is_quote_char c)) in Hc. apply Bool.orb_false_iff in Hc as [A B].
    rewrite A, B, IH. reflexivity.
  - apply is_escape_char in Hc.
    change (lex_string (chars "\" ++ c :: t)) with
      (if is_escape c then match lex_string t with inl n => inl (S (S n)) | inr e => inr e end
       else inr (Some INVALID_ESCAPE_SEQUENCE) : nat + option errcode).
    rewrite Hc, IH. reflexivity.
Qed.
Lemma string_none t : lex_string t = inr None ->
  ~ (exists s r, t = s ++ r /\ string_tail s) /\ ~ (exists e, bad_string t e).
Proof.
  intro E. split.
  - intros (s & r & -> & H). rewrite (lex_string_tail s H r) in E. discriminate.
  - intros (e & H). rewrite (lex_string_bad _ _ H) in E. discriminate.
Qed.
Lemma lex_string_spec n : forall t, List.length t <= n -> string_answer t (lex_string t).
Proof.
  induction n as [|n IH]; intros t L.
  - destruct t as [|c t]; [|cbn in L; lia]. apply string_none. reflexivity.
  - destruct (lex_string t) as [m|[e|]] eqn:E; [| |apply string_none, E].
    + destruct t as [|c r]; cbn [lex_string] in E; [discriminate E|]. cbn [List.length] in L.
      destruct (c =? 34)%N eqn:E34.
      { injection E as <-. exists (chars """"), r. apply char_34 in E34. injection E34 as ->. split; [reflexivity|]. split; [reflexivity|constructor]. }
      destruct (c =? 92)%N eqn:E92.
      * destruct r as [|d r']; [discriminate E|]. destruct (is_escape d) eqn:Ed; [|discriminate E].
        cbn [List.length] in L. specialize (IH r' ltac:(lia)). destruct (lex_string r') as [k|]; [|discriminate E].
        injection E as <-. destruct IH as (s & q & -> & -> & Hs). apply char_92 in E92. injection E92 as ->.
        exists (chars "\" ++ d :: s), q. split; [reflexivity|]. split; [reflexivity|]. constructor; [apply is_escape_char, Ed|exact Hs].
      * specialize (IH r ltac:(lia)). destruct (lex_string r) as [k|]; [|discriminate E]. injection E as <-.
        destruct IH as (s & q & -> & -> & Hs). exists (c :: s), q. split; [reflexivity|]. split; [reflexivity|].
        constructor; [apply plain_char; assumption|exact Hs].
    + destruct t as [|c r]; cbn [lex_string] in E; [discriminate E|]. cbn [List.length] in L.
      destruct (c =? 34)%N eqn:E34; [discriminate E|].
      destruct (c =? 92)%N eqn:E92.
      * apply char_92 in E92. injection E92 as ->.
        destruct r as [|d r']; [injection E as <-; constructor|].
        destruct (is_escape d) eqn:Ed.
        -- cbn [List.length] in L. specialize (IH r' ltac:(lia)). destruct (lex_string r') as [k|e']; [discriminate E|].
           injection E as ->. apply bs_skip; [apply is_escape_char, Ed|exact IH].
        -- injection E as <-. apply bs_escape. apply (false_iff _ _ (is_escape_char d)), Ed.
      * specialize (IH r ltac:(lia)). destruct (lex_string r) as [k|e']; [discriminate E|]. injection E as ->.
        apply bs_char; [apply plain_char; assumption|exact IH].
Qed.
Lemma lex_backslash_spec t :
  match lex_backslash t with
  | inl n => exists s r, t = s ++ chars "\" ++ r /\ n = S (List.length s) /\ all (fun c => ~ char_in "\" c) s
  | inr e => e = None /\ all (fun c => ~ char_in "\" c) t
  end.
Proof.
  induction t as [|c t IH]; cbn [lex_backslash]; [split; [reflexivity|constructor]|].
  destruct (c =? 92)%N eqn:E.
  - exists [], t. apply char_92 in E. injection E as ->. split; [reflexivity|]. split; [reflexivity|constructor].
  - apply (false_iff _ _ (is_slash_char c)) in E. destruct (lex_backslash t) as [n|e].
    + destruct IH as (s & r & -> & -> & Hs). exists (c :: s), r. split; [reflexivity|]. split; [reflexivity|]. constructor; assumption.
    + destruct IH as [-> H]. split; [reflexivity|]. constructor; assumption.
Qed.
Lemma lex_backslash_found s r : all (fun c => ~ char_in "\" c) s -> lex_backslash (s ++ chars "\" ++ r) = inl (S (List.length s)).
Proof.
  induction 1 as [|c s Hc H IH]; [reflexivity|]. cbn [app lex_backslash List.length].
  apply (false_iff _ _ (is_slash_char c)) in Hc. rewrite Hc, IH. reflexivity.
Qed.
Lemma lex_backslash_open t : all (fun c => ~ char_in "\" c) t -> lex_backslash t = inr None.
Proof.
  induction 1 as [|c s Hc H IH]; [reflexivity|]. cbn [lex_backslash].
  apply (false_iff _ _ (is_slash_char c)) in Hc. rewrite Hc, IH. reflexivity.
Qed.

(** * One step *)
Lemma comment_test c r :
  is_prefix (chars "//") (c :: r) && match r with _ :: d :: _ => negb (is_eol d) | _ => false end = true <->
  comment_starts (c :: r).
Proof.
  unfold comment_starts. rewrite Bool.andb_true_iff, is_prefix_spec. split.
  - intros [(q & E) H]. destruct r as [|x [|d r]]; try discriminate H. injection E as -> -> <-.
    exists d, r. split; [reflexivity|]. apply (false_iff _ _ (is_line_end d)). apply Bool.negb_true_iff, H.
  - intros (d & q & E & H). injection E as -> ->. split; [exists (d :: q); reflexivity|].
    apply Bool.negb_true_iff. apply (false_iff _ _ (is_line_end d)), H.
Qed.
(** The letters, digits and quotes are not white, and no symbol starts with one of them. *)
Lemma letter_facts c : is_ident_start c = true -> is_space c = false /\ is_digit c = false /\ (c =? 34)%N = false /\ (c =? 92)%N = false /\ (c =? 47)%N = false.
Proof.
  unfold is_ident_start, is_space, is_digit, between.
  rewrite !Bool.orb_true_iff, !Bool.andb_true_iff, N.eqb_eq, !N.leb_le. intro H.
  repeat split; repeat (apply Bool.orb_false_iff; split); try (apply N.eqb_neq; lia); apply Bool.andb_false_iff;
    (destruct (N.leb_spec 48 c); [right; apply N.leb_gt; lia|left; reflexivity]).
Qed.
Lemma digit_facts c : is_digit c = true -> is_space c = false /\ is_ident_start c = false /\ (c =? 34)%N = false /\ (c =? 92)%N = false /\ (c =? 47)%N = false.
Proof.
  unfold is_ident_start, is_space, is_digit, between.
  rewrite !Bool.andb_true_iff, !N.leb_le. intro H.
  repeat split; repeat (apply Bool.orb_false_iff; split); try (apply N.eqb_neq; lia); apply Bool.andb_false_iff;
    left; apply N.leb_gt; lia.
Qed.
Lemma comment_47 c r : (c =? 47)%N = false -> is_prefix (chars "//") (c :: r) = false.
Proof. intro H. cbn [chars is_prefix]. change (N_of_ascii "/") with 47%N. rewrite N.eqb_sym, H. reflexivity. Qed.

Definition step_ok (t : list char) (l : lexed) : Prop :=
  match l with
  | LSkip n => 1 <= n <= List.length t /\ blank (skipn n t) (firstn n t)
  | LToken k e n => 1 <= n <= List.length t /\ lexeme k (firstn n t) (skipn n t) e /\ ~ starts white t /\ ~ comment_starts t
  end.
Lemma token_ok k e s rest : s <> [] -> lexeme k s rest e -> ~ starts white (s ++ rest) -> ~ comment_starts (s ++ rest) ->
  step_ok (s ++ rest) (LToken k e (List.length s)).
Proof.
  intros H L W C. cbn [step_ok]. rewrite firstn_app_l, skipn_app_l, app_length. repeat split; auto.
  - destruct s; [congruence|cbn; lia].
  - lia.
Qed.
Lemma blank_all_white rest g : Forall white g -> blank rest g.
Proof. induction 1; constructor; auto. Qed.
Lemma cons_split (c : char) r n : c :: r = (c :: firstn n r) ++ skipn n r.
Proof. cbn [app]. rewrite firstn_skipn. reflexivity. Qed.
Lemma lex_step_ok c r : step_ok (c :: r) (lex_step c r).
Proof.
  unfold lex_step.
  destruct (is_space c) eqn:Esp.
  { cbn [step_ok List.length]. split; [generalize (span_of_le is_space r); lia|].
    cbn [firstn skipn]. apply blank_all_white. constructor; [apply is_white, Esp|].
    apply (all_forallb _ _ _ is_white). apply span_of_spec. }
  assert (W : ~ starts white (c :: r)) by (apply (false_iff _ _ (is_white c)), Esp).
  destruct (is_prefix (chars "//") (c :: r) && match r with _ :: d :: _ => negb (is_eol d) | _ => false end) eqn:Ec.
  { apply comment_test in Ec as (d & q & E & Hd). injection E as -> ->.
    assert (P : forall x, negb (is_eol x) = true <-> ~ line_end x).
    { intro x. rewrite Bool.negb_true_iff. apply false_iff, is_line_end. }
    cbn [span_of]. change (negb (is_eol 47%N)) with true. cbv iota.
    rewrite (proj2 (P d) Hd). set (n := span_of (fun x => negb (is_eol x)) q).
    assert (Hq : n <= List.length q) by apply span_of_le.
    cbn [step_ok List.length firstn skipn]. split; [lia|].
    destruct (span_of_spec (fun x => negb (is_eol x)) q) as [A B]. fold n in A, B.
    assert (X : blank (skipn n q) (chars "//" ++ (d :: firstn n q) ++ [])); [|rewrite app_nil_r in X; exact X].
    apply blank_comment; [discriminate| | |constructor].
    - constructor; [exact Hd|]. apply (all_forallb _ _ _ P), A.
    - cbn [app]. destruct (skipn n q) as [|x q']; [left; reflexivity|right]. cbn [starts].
      apply is_line_end. apply Bool.negb_false_iff, B. }
  assert (C : ~ comment_starts (c :: r)) by (rewrite <- comment_test, Ec; discriminate). clear Ec.
  destruct (is_ident_start c) eqn:Eid.
  { cbv zeta. set (n := span_of is_ident_char r). cbn [firstn].
    assert (L : List.length (c :: firstn n r) = S n) by (cbn [List.length]; rewrite firstn_len by apply span_of_le; reflexivity).
    destruct (span_of_spec is_ident_char r) as [A B]. fold n in A, B.
    rewrite <- L. rewrite (cons_split c r n) in *. apply token_ok; [discriminate| |exact W|exact C].
    assert (S1 : starts letter (c :: firstn n r)) by (apply is_letter, Eid).
    assert (S2 : all word_char (c :: firstn n r)).
    { constructor; [left; apply is_letter, Eid|]. apply (all_forallb _ _ _ is_word_char), A. }
    assert (S3 : ~ starts word_char (skipn n r)) by (apply (starts_not _ _ _ is_word_char), B).
    destruct (word_kind_spec (c :: firstn n r)) as [H|[H E]].
    - apply lx_keyword; assumption.
    - rewrite E. apply lx_identifier; assumption. }
  destruct (is_digit c) eqn:Edi.
  { cbv zeta. set (n := span_of is_digit r). cbn [skipn].
    assert (L : List.length (c :: firstn n r) = S n) by (cbn [List.length]; rewrite firstn_len by apply span_of_le; reflexivity).
    destruct (span_of_spec is_digit r) as [A B]. fold n in A, B.
    assert (S2 : all digit_char (c :: firstn n r)).
    { constructor; [apply is_digit_char, Edi|]. apply (all_forallb _ _ _ is_digit_char), A. }
    assert (S3 : ~ starts digit_char (skipn n r)) by (apply (starts_not _ _ _ is_digit_char), B).
    assert (INT : ~ (exists q, skipn n r = chars "." ++ q /\ starts digit_char q) -> step_ok (c :: r) (LToken TInteger None (S n))).
    { intro H. rewrite <- L. rewrite (cons_split c r n) in *. apply token_ok; [discriminate| |exact W|exact C].
      apply lx_integer; auto; discriminate. }
    destruct (skipn n r) as [|d [|e r']] eqn:Es; [apply INT|apply INT|].
    { intros (q & Hq & _). discriminate Hq. }
    { intros (q & Hq & Hs). injection Hq as _ <-. exact Hs. }
    destruct ((d =? 46)%N && is_digit e) eqn:Ede.
    - apply Bool.andb_true_iff in Ede as [Ed Ee]. apply N.eqb_eq in Ed. subst d.
      set (m := span_of is_digit r'). destruct (span_of_spec is_digit r') as [A' B']. fold m in A', B'.
      assert (E : c :: r = ((c :: firstn n r) ++ chars "." ++ (e :: firstn m r')) ++ skipn m r').
      { rewrite <- !app_assoc. cbn [app chars]. rewrite firstn_skipn. rewrite <- (firstn_skipn n r) at 1. rewrite Es. reflexivity. }
      replace (S n + 2 + m) with (List.length ((c :: firstn n r) ++ chars "." ++ (e :: firstn m r'))).
      2: { rewrite app_length, L. cbn [app chars List.length]. rewrite firstn_len by apply span_of_le. lia. }
      rewrite E in *. apply token_ok; [discriminate| |exact W|exact C].
      apply lx_float; try discriminate; [exact S2| |].
      + constructor; [apply is_digit_char, Ee|]. apply (all_forallb _ _ _ is_digit_char), A'.
      + apply (starts_not _ _ _ is_digit_char), B'.
    - apply INT. intros (q & Hq & Hs). injection Hq as -> <-. cbn [starts] in Hs. apply is_digit_char in Hs.
      rewrite Hs in Ede. discriminate Ede. }
  assert (WC : ~ word_char c) by (apply (false_iff _ _ (is_word_char c)); unfold is_ident_char; rewrite Eid, Edi; reflexivity).
  destruct (c =? 34)%N eqn:E34.
  { apply char_34 in E34. injection E34 as Ec.
    generalize (lex_string_spec (List.length r) r (le_n _)). unfold callback. destruct (lex_string r) as [n|[e|]]; cbn [string_answer]; intro H.
    - destruct H as (s & q & -> & -> & Hs). change (c :: s ++ q) with ((c :: s) ++ q) in *.
      change (S (List.length s)) with (List.length (c :: s)). apply token_ok; [discriminate| |exact W|exact C].
      rewrite Ec. change (34%N :: s) with (chars """" ++ s). apply lx_string, Hs.
    - change (c :: r) with ([c] ++ r) in *. change 1 with (List.length [c]). apply token_ok; [discriminate| |exact W|exact C].
      rewrite Ec. apply lx_bad_string, H.
    - change (c :: r) with ([c] ++ r) in *. change 1 with (List.length [c]). apply token_ok; [discriminate| |exact W|exact C].
      rewrite Ec. apply lx_open_string; apply H. }
  destruct (c =? 92)%N eqn:E92.
  { apply char_92 in E92. injection E92 as Ec.
    generalize (lex_backslash_spec r). unfold callback. destruct (lex_backslash r) as [n|e]; intro H.
    - destruct H as (s & q & -> & -> & Hs).
      replace (c :: s ++ chars "\" ++ q) with ((c :: s ++ chars "\") ++ q) in * by (cbn [app]; rewrite <- app_assoc; reflexivity).
      replace (S (S (List.length s))) with (List.length (c :: s ++ chars "\")) by (cbn [List.length]; rewrite app_length; cbn; lia).
      apply token_ok; [discriminate| |exact W|exact C].
      rewrite Ec. change (92%N :: s ++ chars "\") with (chars "\" ++ s ++ chars "\"). apply lx_backslash, Hs.
    - destruct H as [-> H]. change (c :: r) with ([c] ++ r) in *. change 1 with (List.length [c]). apply token_ok; [discriminate| |exact W|exact C].
      rewrite Ec. apply lx_open_backslash, H. }
  destruct (operator_at (c :: r)) as [[n k]|] eqn:Eo.
  - destruct (operator_found _ _ _ Eo) as (s & q & Hs & -> & E & Hmax). rewrite E in *. rewrite <- chars_length.
    apply token_ok; [|apply lx_symbol; auto|exact W|exact C].
    destruct s; [|discriminate]. destruct k; discriminate Hs.
  - change (c :: r) with ([c] ++ r) in *. change 1 with (List.length [c]). apply token_ok; [discriminate| |exact W|exact C].
    apply lx_unknown; [exact W|exact WC|apply plain_char; assumption|]. apply operator_none, Eo.
Qed.

(** * The rules determine the step *)
Lemma step_word c w rest : is_ident_start c = true -> forallb is_ident_char w = true ->
  match rest with x :: _ => is_ident_char x = false | [] => True end ->
  lex_step c (w ++ rest) = LToken (word_kind (c :: w)) None (S (List.length w)).
Proof.
  intros Hc Hw Hr. unfold lex_step. destruct (letter_facts c Hc) as (A & B & _ & _ & D).
  rewrite A, (comment_47 c _ D), Hc. cbn [andb]. cbv zeta. rewrite (span_of_app _ _ _ Hw Hr). cbn [firstn].
  rewrite firstn_app_l. reflexivity.
Qed.
Lemma step_symbol_char (c : char) (s : string) (r : list char) (k : token_kind) : symbol k = Some s -> (exists q, chars s = c :: q) ->
  is_space c = false /\ is_ident_start c = false /\ is_digit c = false /\ (c =? 34)%N = false /\ (c =? 92)%N = false.
Proof.
  intros Hs (q & E). destruct k; cbn [symbol] in Hs; try discriminate Hs; injection Hs as <-; injection E as <- _; repeat split.
Qed.
Lemma step_complete k s rest e :
  lexeme k s rest e -> s <> [] -> ~ starts white s -> ~ comment_starts (s ++ rest) ->
  match s ++ rest with c :: r => lex_step c r = LToken k e (List.length s) | [] => False end.
Proof.
  intros H Hne Hw Hc. destruct H as [k w rest Hk Hs Ha Hr|w rest Hk Hs Ha Hr|d rest Hd Ha Hr Hf|d f rest Hd Hf Hda Hfa Hr|t rest Ht|rest e Hb|rest Hn1 Hn2|t rest Ht|rest Hn|k s rest Hk Hcm Hmax|c rest Hnw Hnwc Hq Ho].
  - destruct w as [|c w]; [contradiction|]. cbn [app]. apply (all_forallb _ _ _ is_word_char) in Ha. cbn [forallb] in Ha. apply Bool.andb_true_iff in Ha as [_ Ha].
    rewrite (step_word c w rest); [|apply is_letter, Hs|exact Ha|apply (starts_not _ _ _ is_word_char), Hr].
    rewrite (word_kind_keyword _ _ Hk). reflexivity.
  - destruct w as [|c w]; [contradiction|]. cbn [app]. apply (all_forallb _ _ _ is_word_char) in Ha. cbn [forallb] in Ha. apply Bool.andb_true_iff in Ha as [_ Ha].
    rewrite (step_word c w rest); [|apply is_letter, Hs|exact Ha|apply (starts_not _ _ _ is_word_char), Hr].
    rewrite (word_kind_ident _ Hk). reflexivity.
  - destruct d as [|c d]; [contradiction|]. cbn [app]. apply (all_forallb _ _ _ is_digit_char) in Ha. cbn [forallb] in Ha. apply Bool.andb_true_iff in Ha as [Hcd Ha].
    unfold lex_step. destruct (digit_facts c Hcd) as (A & B & _ & _ & D).
    rewrite A, (comment_47 c _ D), B, Hcd. cbn [andb]. cbv zeta.
    rewrite (span_of_app _ _ _ Ha (proj2 (starts_not _ _ _ is_digit_char) Hr)).
    cbn [skipn]. rewrite skipn_app_l.
    destruct rest as [|x [|y q]]; try reflexivity. destruct ((x =? 46)%N && is_digit y) eqn:E; [|reflexivity].
    exfalso. apply Bool.andb_true_iff in E as [E1 E2]. apply N.eqb_eq in E1. subst x. apply Hf. exists (y :: q).
    split; [reflexivity|]. apply is_digit_char, E2.
  - destruct d as [|c d]; [contradiction|]. destruct f as [|y f]; [contradiction|].
    apply (all_forallb _ _ _ is_digit_char) in Hda. cbn [forallb] in Hda. apply Bool.andb_true_iff in Hda as [Hcd Hda].
    apply (all_forallb _ _ _ is_digit_char) in Hfa. cbn [forallb] in Hfa. apply Bool.andb_true_iff in Hfa as [Hyd Hfa].
    rewrite <- app_assoc. cbn [app chars].
    unfold lex_step. destruct (digit_facts c Hcd) as (A & B & _ & _ & D).
    rewrite A, (comment_47 c _ D), B, Hcd. cbn [andb]. cbv zeta.
    rewrite !(span_of_app is_digit d) by (exact Hda || reflexivity).
    cbn [skipn]. rewrite skipn_app_l. change (N_of_ascii "." =? 46)%N with true. rewrite Hyd. cbn [andb].
    rewrite (span_of_app _ _ _ Hfa (proj2 (starts_not _ _ _ is_digit_char) Hr)). f_equal.
    cbn [List.length]. rewrite app_length. cbn [List.length]. lia.
  - change ((chars """" ++ t) ++ rest) with (34%N :: (t ++ rest)). cbv beta iota.
    change (lex_step 34%N (t ++ rest)) with (callback TString (lex_string (t ++ rest))).
    rewrite (lex_string_tail t Ht rest). reflexivity.
  - change (chars """" ++ rest) with (34%N :: rest). cbv beta iota.
    change (lex_step 34%N rest) with (callback TString (lex_string rest)). rewrite (lex_string_bad _ _ Hb). reflexivity.
  - change (chars """" ++ rest) with (34%N :: rest). cbv beta iota.
    change (lex_step 34%N rest) with (callback TString (lex_string rest)).
    generalize (lex_string_spec _ rest (le_n _)). destruct (lex_string rest) as [n|[e|]]; cbn [string_answer]; intro H.
    + destruct Hn1. destruct H as (s & r & E & _ & Hs). exists s, r. split; assumption.
    + destruct Hn2. exists e. exact H.
    + reflexivity.
  - change ((chars "\" ++ t ++ chars "\") ++ rest) with (92%N :: ((t ++ chars "\") ++ rest)). cbv beta iota. rewrite <- app_assoc.
    change (lex_step 92%N (t ++ chars "\" ++ rest)) with (callback TBackslashArg (lex_backslash (t ++ chars "\" ++ rest))).
    rewrite (lex_backslash_found t rest Ht). cbn [callback]. f_equal. cbn [app chars List.length]. rewrite app_length. cbn [List.length]. lia.
  - change (chars "\" ++ rest) with (92%N :: rest). cbv beta iota.
    change (lex_step 92%N rest) with (callback TBackslashArg (lex_backslash rest)). rewrite (lex_backslash_open _ Hn). reflexivity.
  - destruct (chars s ++ rest) as [|c r] eqn:E.
    { destruct (chars s); [congruence|discriminate E]. }
    assert (Hq : exists q, chars s = c :: q).
    { destruct (chars s) as [|x q]; [congruence|]. injection E as -> _. exists q. reflexivity. }
    destruct (step_symbol_char c s r k Hk Hq) as (A1 & A2 & A3 & A4 & A5).
    unfold lex_step. rewrite A1.
    destruct (is_prefix (chars "//") (c :: r) && match r with _ :: d :: _ => negb (is_eol d) | _ => false end) eqn:Ec.
    { apply comment_test in Ec. contradiction. }
    rewrite A2, A3, A4, A5. rewrite <- E in Hmax |- *. rewrite (operator_longest k s rest Hk Hmax), chars_length. reflexivity.
  - cbn [app]. unfold lex_step.
    rewrite (proj2 (false_iff _ _ (is_white c)) Hnw).
    destruct (is_prefix (chars "//") (c :: rest) && match rest with _ :: d :: _ => negb (is_eol d) | _ => false end) eqn:Ec.
    { apply comment_test in Ec. contradiction. }
    apply (false_iff _ _ (is_word_char c)) in Hnwc. unfold is_ident_char in Hnwc. apply Bool.orb_false_iff in Hnwc as [B1 B2].
    apply (false_iff _ _ (is_quote_char c)) in Hq. apply Bool.orb_false_iff in Hq as [B3 B4].
    rewrite B1, B2, B3, B4. rewrite (proj2 (operator_none _) Ho). reflexivity.
Qed.

(** * The whole text *)
Lemma text_len_nil : text_len [] = 0.
Proof. reflexivity. Qed.
Lemma text_len_cons c t : text_len (c :: t) = len_utf8 c + text_len t.
Proof. reflexivity. Qed.
Lemma text_len_app a b : text_len (a ++ b) = text_len a + text_len b.
Proof. induction a as [|c a IH]; cbn [app]; rewrite ?text_len_cons, ?text_len_nil; lia. Qed.
Lemma firstn_split n (t : list char) : firstn n t ++ skipn n t = t.
Proof. apply firstn_skipn. Qed.
Lemma blank_app rest a b : blank (b ++ rest) a -> blank rest b -> blank rest (a ++ b).
Proof.
  intros H Hb. induction H as [|c t Hw H IH|body t Hne Ha Hend H IH]; cbn [app].
  - exact Hb.
  - constructor; assumption.
  - replace ((chars "//" ++ body ++ t) ++ b) with (chars "//" ++ body ++ (t ++ b)) by (cbn [app chars]; rewrite <- app_assoc; reflexivity).
    change (blank rest (chars "//" ++ body ++ (t ++ b))). apply blank_comment; auto. rewrite <- app_assoc. exact Hend.
Qed.
Lemma tokens_skip pos g rest ts : blank rest g -> tokens_of (pos + text_len g) rest ts -> tokens_of pos (g ++ rest) ts.
Proof.
  intros Hg H. inversion H as [p g' Hb Ep Eg Et|p g' k s r e ts' Hb Hl Hne Hw Hc Ht Ep Eg Et]; subst.
  - constructor. apply blank_app; [rewrite app_nil_r; exact Hg|exact Hb].
  - rewrite app_assoc. rewrite <- Nat.add_assoc, <- text_len_app. apply to_token; auto.
    + apply blank_app; assumption.
    + rewrite <- app_assoc, (text_len_app g). rewrite Nat.add_assoc. exact Ht.
Qed.
Lemma lex_from_ok f : forall pos t, List.length t <= f -> tokens_of pos t (lex_from f pos t).
Proof.
  induction f as [|f IH]; intros pos t L.
  - destruct t; [|cbn in L; lia]. constructor. constructor.
  - destruct t as [|c r]; [constructor; constructor|]. cbn [lex_from]. generalize (lex_step_ok c r).
    set (t := c :: r) in *. destruct (lex_step c r) as [n|k e n]; cbn [step_ok].
    + intros [Hn Hb]. rewrite <- (firstn_split n t) at 1. apply tokens_skip; [exact Hb|]. apply IH. rewrite skipn_length. lia.
    + intros (Hn & Hl & Hw & Hc). rewrite <- (firstn_split n t) at 1.
      change (firstn n t ++ skipn n t) with ([] ++ firstn n t ++ skipn n t).
      assert (E : Tok k pos (firstn n t) e = Tok k (pos + text_len []) (firstn n t) e) by (rewrite text_len_nil, Nat.add_0_r; reflexivity).
      rewrite E. apply to_token.
      * constructor.
      * exact Hl.
      * intro E'. apply (f_equal (@List.length char)) in E'. rewrite firstn_len in E' by lia. cbn in E'. lia.
      * intro Hs. apply Hw. unfold t in *. destruct n; [destruct Hs|exact Hs].
      * rewrite firstn_split. exact Hc.
      * cbn [app]. apply IH. rewrite skipn_length. lia.
Qed.
Lemma tokenize_ok t : tokens_of 0 t (tokenize t).
Proof. apply lex_from_ok. apply le_n. Qed.

(** More fuel changes nothing. *)
Lemma lex_from_fuel f : forall f' pos t, List.length t <= f -> List.length t <= f' -> lex_from f pos t = lex_from f' pos t.
Proof.
  induction f as [|f IH]; intros f' pos t L L'.
  - destruct t; [|cbn in L; lia]. destruct f'; reflexivity.
  - destruct t as [|c r]; [destruct f'; reflexivity|]. destruct f' as [|f']; [cbn in L'; lia|]. cbn [lex_from].
    generalize (lex_step_ok c r). set (t := c :: r) in *. destruct (lex_step c r) as [n|k e n]; cbn [step_ok]; intros (Hn & _).
    + apply IH; rewrite skipn_length; lia.
    + f_equal. apply IH; rewrite skipn_length; lia.
Qed.
Definition lex_at (pos : nat) (t : list char) : list token := lex_from (List.length t) pos t.
Lemma lex_at_skip pos c r n : lex_step c r = LSkip n -> lex_at pos (c :: r) = lex_at (pos + text_len (firstn n (c :: r))) (skipn n (c :: r)).
Proof.
  intro E. unfold lex_at at 1. cbn [lex_from List.length]. rewrite E. generalize (lex_step_ok c r). rewrite E. cbn [step_ok]. intros [Hn _].
  apply lex_from_fuel; rewrite skipn_length; cbn [List.length] in *; lia.
Qed.
Lemma lex_at_token pos c r k e n : lex_step c r = LToken k e n ->
  lex_at pos (c :: r) = Tok k pos (firstn n (c :: r)) e :: lex_at (pos + text_len (firstn n (c :: r))) (skipn n (c :: r)).
Proof.
  intro E. unfold lex_at at 1. cbn [lex_from List.length]. rewrite E. generalize (lex_step_ok c r). rewrite E. cbn [step_ok]. intros [Hn _].
  f_equal. apply lex_from_fuel; rewrite skipn_length; cbn [List.length] in *; lia.
Qed.
Lemma lex_at_space n : forall pos c t, List.length t <= n -> is_space c = true -> lex_at pos (c :: t) = lex_at (pos + text_len [c]) t.
Proof.
  intros pos c t _ Hc. rewrite (lex_at_skip pos c t (S (span_of is_space t))) by (unfold lex_step; rewrite Hc; reflexivity).
  cbn [firstn skipn]. destruct t as [|d t']; [reflexivity|]. cbn [span_of]. destruct (is_space d) eqn:Ed.
  - rewrite (lex_at_skip (pos + text_len [c]) d t' (S (span_of is_space t'))) by (unfold lex_step; rewrite Ed; reflexivity).
    cbn [firstn skipn]. f_equal. rewrite ?text_len_cons, ?text_len_nil; lia.
  - reflexivity.
Qed.
Lemma lex_at_blank rest g : blank rest g -> forall pos, lex_at pos (g ++ rest) = lex_at (pos + text_len g) rest.
Proof.
  induction 1 as [|c t Hw H IH|body t Hne Ha Hend H IH]; intro pos.
  - cbn [app]. rewrite text_len_nil, Nat.add_0_r. reflexivity.
  - cbn [app]. rewrite (lex_at_space (List.length (t ++ rest))); [|lia|apply is_white, Hw]. rewrite IH. f_equal. rewrite ?text_len_cons, ?text_len_nil; lia.
  - replace ((chars "//" ++ body ++ t) ++ rest) with (47%N :: 47%N :: body ++ (t ++ rest)) by (cbn [app chars]; rewrite <- app_assoc; reflexivity).
    assert (Pn : forall x, negb (is_eol x) = true <-> ~ line_end x).
    { intro x. rewrite Bool.negb_true_iff. apply false_iff, is_line_end. }
    destruct body as [|b body]; [congruence|].
    assert (Hb : is_eol b = false) by (inversion Ha; subst; apply (false_iff _ _ (is_line_end b)); assumption).
    apply (all_forallb _ _ _ Pn) in Ha.
    assert (Hstop : match t ++ rest with c :: _ => negb (is_eol c) = false | [] => True end).
    { destruct (t ++ rest) as [|x q]; [exact I|]. destruct Hend as [E|E]; [discriminate E|]. cbn [starts] in E. apply is_line_end in E. rewrite E. reflexivity. }
    assert (E : lex_step 47%N (47%N :: (b :: body) ++ t ++ rest) = LSkip (2 + List.length (b :: body))).
    { unfold lex_step. change (is_space 47%N) with false. cbn [app].
      change (is_prefix (chars "//") (47%N :: 47%N :: b :: body ++ t ++ rest)) with true. rewrite Hb. cbn [andb negb].
      cbn [span_of]. change (negb (is_eol 47%N)) with true. cbv iota.
      change (if negb (is_eol b) then S (span_of (fun d => negb (is_eol d)) (body ++ t ++ rest)) else 0) with (span_of (fun d => negb (is_eol d)) ((b :: body) ++ t ++ rest)).
      rewrite (span_of_app _ _ _ Ha Hstop). reflexivity. }
    rewrite (lex_at_skip _ _ _ _ E). cbn [skipn firstn Nat.add]. rewrite skipn_app_l, firstn_app_l, IH. f_equal.
    change (47%N :: 47%N :: b :: body) with (chars "//" ++ b :: body). rewrite !text_len_app. lia.
Qed.
Lemma tokens_unique pos t ts : tokens_of pos t ts -> ts = lex_at pos t.
Proof.
  induction 1 as [pos g Hb|pos g k s rest e ts Hb Hl Hne Hw Hc H IH].
  - rewrite <- (app_nil_r g), (lex_at_blank [] g Hb). reflexivity.
  - rewrite (lex_at_blank _ _ Hb). generalize (step_complete _ _ _ _ Hl Hne Hw Hc).
    destruct (s ++ rest) as [|c r] eqn:E; [tauto|]. intro Hs.
    rewrite (lex_at_token _ _ _ _ _ _ Hs), <- E, firstn_app_l, skipn_app_l, IH. f_equal. f_equal. rewrite text_len_app. lia.
Qed.
Lemma tokenize_iff t ts : tokens_of 0 t ts <-> tokenize t = ts.
Proof.
  split.
  - intro H. symmetry. exact (tokens_unique 0 t ts H).
  - intros <-. apply tokenize_ok.
Qed.

(** * Consequences *)
Lemma tokens_of_slices pos t ts : tokens_of pos t ts -> forall tk, In tk ts ->
  exists before after, t = before ++ tk_slice tk ++ after /\ tk_slice tk <> [] /\ tk_start tk = pos + text_len before.
Proof.
  induction 1 as [pos g Hb|pos g k s rest e ts Hb Hl Hne Hw Hc H IH]; intros tk Hin; [destruct Hin|].
  destruct Hin as [<-|Hin].
  - exists g, rest. cbn [tk_slice tk_start]. auto.
  - destruct (IH tk Hin) as (b & a & -> & Hn & Hs). exists (g ++ s ++ b), a. rewrite <- !app_assoc. repeat split; auto.
    rewrite Hs, !text_len_app. lia.
Qed.
Lemma tokens_of_start pos t ts tk : tokens_of pos t ts -> In tk ts -> pos <= tk_start tk.
Proof. intros H Hin. destruct (tokens_of_slices _ _ _ H _ Hin) as (b & a & _ & _ & ->). lia. Qed.
Lemma tokens_of_ordered pos t ts : tokens_of pos t ts -> forall l a m b r, ts = l ++ a :: m ++ b :: r ->
  tk_start a + text_len (tk_slice a) <= tk_start b.
Proof.
  induction 1 as [pos g Hb|pos g k s rest e ts Hb Hl Hne Hw Hc H IH]; intros l a m b r E; [destruct l; discriminate E|].
  destruct l as [|x l]; cbn [app] in E; injection E as E1 E2.
  - subst a. cbn [tk_start tk_slice]. assert (In b ts) by (rewrite E2; apply in_or_app; right; left; reflexivity).
    generalize (tokens_of_start _ _ _ _ H H0). rewrite text_len_app. lia.
  - exact (IH l a m b r E2).
Qed.
Lemma first_token k s rest e : lexeme k s rest e -> s <> [] -> ~ starts white s -> ~ comment_starts (s ++ rest) ->
  tokenize (s ++ rest) = Tok k 0 s e :: lex_at (text_len s) rest.
Proof.
  intros Hl Hne Hw Hc. generalize (step_complete _ _ _ _ Hl Hne Hw Hc).
  destruct (s ++ rest) as [|c r] eqn:E; [tauto|]. intro Hs. change (tokenize (c :: r)) with (lex_at 0 (c :: r)).
  rewrite (lex_at_token _ _ _ _ _ _ Hs), <- E, firstn_app_l, skipn_app_l. reflexivity.
Qed.
Lemma comment_47_not (s : list char) rest : starts word_char s -> ~ comment_starts (s ++ rest).
Proof.
  intros Hs (c & r & E & _). destruct s as [|x s]; [destruct Hs|]. injection E as -> _. cbn [starts] in Hs. apply is_word_char in Hs. discriminate Hs.
Qed.
Lemma word_not_white s : starts word_char s -> ~ starts white s.
Proof.
  intros Hs Hw. destruct s as [|x s]; [destruct Hs|]. cbn [starts] in *. apply is_word_char in Hs. apply is_white in Hw.
  unfold is_ident_char in Hs. apply Bool.orb_true_iff in Hs as [H|H]; [apply letter_facts in H|apply digit_facts in H]; destruct H as [H _]; congruence.
Qed.
Lemma letter_word s : starts letter s -> starts word_char s.
Proof. destruct s; cbn [starts]; [tauto|left; assumption]. Qed.
Lemma digit_word s : s <> [] -> all digit_char s -> starts word_char s.
Proof. destruct s as [|c s]; [congruence|]. intros _ H. inversion H; subst. right. assumption. Qed.
Lemma starts_app p s r : starts p s -> starts p (s ++ r).
Proof. destruct s; cbn; tauto. Qed.
Lemma keyword_token k w rest : In (utf8 w) (keyword k) -> starts letter w -> all word_char w -> ~ starts word_char rest ->
  hd_error (tokenize (w ++ rest)) = Some (Tok k 0 w None).
Proof.
  intros Hk Hs Ha Hr. apply letter_word in Hs as Hs'.
  rewrite (first_token k w rest None); [reflexivity|apply lx_keyword; assumption| |apply word_not_white, Hs'|apply comment_47_not, Hs'].
  destruct w; [destruct Hs|discriminate].
Qed.
Lemma identifier_token w rest : (forall k, ~ In (utf8 w) (keyword k)) -> starts letter w -> all word_char w -> ~ starts word_char rest ->
  hd_error (tokenize (w ++ rest)) = Some (Tok TIdentifier 0 w None).
Proof.
  intros Hk Hs Ha Hr. apply letter_word in Hs as Hs'.
  rewrite (first_token TIdentifier w rest None); [reflexivity|apply lx_identifier; assumption| |apply word_not_white, Hs'|apply comment_47_not, Hs'].
  destruct w; [destruct Hs|discriminate].
Qed.
Lemma integer_token d rest : d <> [] -> all digit_char d -> ~ starts digit_char rest -> ~ (exists r, rest = chars "." ++ r /\ starts digit_char r) ->
  hd_error (tokenize (d ++ rest)) = Some (Tok TInteger 0 d None).
Proof.
  intros Hne Ha Hr Hf. pose proof (digit_word d Hne Ha) as Hs'.
  rewrite (first_token TInteger d rest None); [reflexivity|apply lx_integer; assumption|exact Hne|apply word_not_white, Hs'|apply comment_47_not, Hs'].
Qed.
Lemma float_token d f rest : d <> [] -> f <> [] -> all digit_char d -> all digit_char f -> ~ starts digit_char rest ->
  hd_error (tokenize (d ++ chars "." ++ f ++ rest)) = Some (Tok TFloat 0 (d ++ chars "." ++ f) None).
Proof.
  intros Hne Hnf Ha Hfa Hr. pose proof (starts_app _ _ (chars "." ++ f) (digit_word d Hne Ha)) as Hs'.
  replace (d ++ chars "." ++ f ++ rest) with ((d ++ chars "." ++ f) ++ rest) by (rewrite <- !app_assoc; reflexivity).
  rewrite (first_token TFloat (d ++ chars "." ++ f) rest None); [reflexivity|apply lx_float; assumption| |apply word_not_white, Hs'|apply comment_47_not, Hs'].
  destruct d; [congruence|discriminate].
Qed.
Lemma symbol_token k s rest : symbol k = Some s -> ~ comment_starts (chars s ++ rest) ->
  (forall k' s' r, symbol k' = Some s' -> chars s ++ rest = chars s' ++ r -> String.length s' <= String.length s) ->
  hd_error (tokenize (chars s ++ rest)) = Some (Tok k 0 (chars s) None).
Proof.
  intros Hk Hc Hm. assert (Hne : chars s <> []) by (destruct k; cbn [symbol] in Hk; try discriminate Hk; injection Hk as <-; discriminate).
  rewrite (first_token k (chars s) rest None); [reflexivity|apply lx_symbol; assumption|exact Hne| |exact Hc].
  intro Hw. destruct (chars s) as [|c q] eqn:E; [destruct Hw|]. cbn [starts] in Hw. apply is_white in Hw.
  destruct (step_symbol_char c s [] k Hk (ex_intro _ q E)) as [A _]. congruence.
Qed.
Lemma empty_comment_tokens rest : rest = [] \/ starts line_end rest ->
  exists ts, tokenize (chars "//" ++ rest) = Tok TSlash 0 (chars "/") None :: Tok TSlash 1 (chars "/") None :: ts.
Proof.
  intro H. assert (G : forall t, t = [] \/ starts line_end t -> forall k' s' r, symbol k' = Some s' -> chars "/" ++ t = chars s' ++ r -> String.length s' <= 1).
  { intros t Ht k' s' r Hk E. destruct k'; cbn [symbol] in Hk; try discriminate Hk; injection Hk as <-; try (cbn; lia); exfalso; cbn [chars app] in E; try discriminate E.
    injection E as E. subst t. destruct Ht as [Ht|Ht]; [discriminate Ht|]. cbn [starts] in Ht. apply is_line_end in Ht. discriminate Ht. }
  assert (N1 : ~ comment_starts (chars "/" ++ rest)).
  { intros (c & r & E & Hc). cbn [chars app] in E. injection E as E. subst rest. destruct H as [H|H]; [discriminate H|]. cbn [starts] in H. apply is_line_end in H. discriminate H. }
  assert (N2 : ~ comment_starts (chars "/" ++ chars "/" ++ rest)).
  { intros (c & r & E & Hc). cbn [chars app] in E. injection E as E. subst rest. destruct H as [H|H]; [discriminate H|]. exact (Hc H). }
  change (chars "//" ++ rest) with (chars "/" ++ (chars "/" ++ rest)).
  rewrite (first_token TSlash (chars "/") (chars "/" ++ rest) None); [|apply (lx_symbol TSlash "/"); [reflexivity|exact N2|]|discriminate| |exact N2].
  - generalize (step_complete TSlash (chars "/") rest None). intro HS. specialize (HS (lx_symbol TSlash "/" rest eq_refl N1 (G rest H))).
    cbn [chars app] in HS. assert (HS' := HS ltac:(discriminate) ltac:(intro W; apply is_white in W; discriminate W) N1).
    cbn [chars app]. rewrite (lex_at_token _ _ _ _ _ _ HS'). eexists. reflexivity.
  - intros k' s' r Hk E. destruct k'; cbn [symbol] in Hk; try discriminate Hk; injection Hk as <-; try (cbn; lia); exfalso; cbn [chars app] in E; discriminate E.
  - intro W. apply is_white in W. discriminate W.
Qed.
