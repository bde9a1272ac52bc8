(** Parsing source texts: the parser on the tokens that the lexer makes. *)
From Coq Require Import Lia ZArith.
From Verif.Model Require Import Parser.
From Verif.Spec Require Import LexSpec ParseSpec.
From Verif.Proofs Require Import LexerP ParserP ParserFuelP ParserDepthP.

Lemma utf8_length t : List.length t <= String.length (utf8 t).
Proof.
  induction t as [|c t IH]; cbn [utf8 List.length]; [lia|]. unfold utf8_char, utf8_byte.
  destruct (c <? 128)%N; [|destruct (c <? 2048)%N; [|destruct (c <? 65536)%N]]; cbn [String.length]; lia.
Qed.
Lemma tokens_of_each pos t ts : tokens_of pos t ts -> forall tk, In tk ts -> exists rest, lexeme (tk_kind tk) (tk_slice tk) rest (tk_error tk).
Proof.
  induction 1 as [pos g Hb|pos g k s rest e ts Hb Hl Hne Hw Hc H IH]; intros tk Hin; [destruct Hin|].
  destruct Hin as [<-|Hin]; [exists rest; exact Hl|exact (IH tk Hin)].
Qed.
Lemma token_lexeme t tk : In tk (tokenize t) -> exists rest, lexeme (tk_kind tk) (tk_slice tk) rest (tk_error tk).
Proof. apply tokens_of_each with (pos := 0) (t := t). apply tokenize_ok. Qed.
Lemma lexeme_not_end k s rest e : lexeme k s rest e -> k <> TEndOfInput.
Proof. destruct 1; try discriminate; intro E; subst; [destruct H|discriminate H]. Qed.
Lemma lexeme_string k s rest e : lexeme k s rest e -> k = TString \/ k = TBackslashArg -> 2 <= List.length s.
Proof.
  destruct 1 as [k w rest Hk Hs Ha Hr|w rest Hk Hs Ha Hr|d rest Hd Ha Hr Hf|d f rest Hd Hf Hda Hfa Hr|t rest Ht|rest e Hb|rest Hn1 Hn2|t rest Ht|rest Hn|k s rest Hk Hcm Hmax|c rest Hnw Hnwc Hq Ho];
    intros [E|E]; try discriminate E; subst; try (destruct Hk; fail); try discriminate Hk.
  - cbn [chars app List.length]. destruct Ht; cbn [List.length chars app]; lia.
  - rewrite !app_length. cbn. lia.
Qed.
Lemma no_end_token t tk : In tk (tokenize t) -> tk_kind tk <> TEndOfInput.
Proof. intro H. destruct (token_lexeme t tk H) as (r & L). exact (lexeme_not_end _ _ _ _ L). Qed.

(** C34 *)
Lemma parse_total t : parse t <> NoFuel.
Proof.
  unfold parse. generalize (parse_tokens_fine (tokenize t)). destruct (parse_tokens (tokenize t)) as [[e r]|e| |]; cbn; try discriminate. intros [].
Qed.
(** C47 *)
Lemma parse_panic t : parse t = Panic -> exists tk, In tk (tokenize t) /\ tk_error tk = None /\
  In (tk_kind tk) [TArrow; TWideArrow; TElse; TMut; TIn; TAs; TFrom; TReserved; TError].
Proof.
  unfold parse. generalize (parse_tokens_fine (tokenize t)). destruct (parse_tokens (tokenize t)) as [[e r]|e| |]; cbn [omap]; try discriminate.
  intros (tk & Hin & He & Hb) _. exists tk. split; [exact Hin|]. split; [exact He|].
  destruct (token_lexeme t tk Hin) as (r & L). destruct Hb as [Hb|[Hk Hl]].
  - cbn [In]. destruct (tk_kind tk); try discriminate Hb; auto 12.
  - exfalso. generalize (lexeme_string _ _ _ _ L Hk) (utf8_length (tk_slice tk)). lia.
Qed.
(** C48 *)
Lemma parse_uses_all t e rest : braces_match (tokenize t) -> parse_tokens (tokenize t) = Ok (e, rest) -> rest = [].
Proof. apply parse_tokens_all. apply no_end_token. Qed.

(** C35 *)
Lemma digit_range c : is_digit c = true -> (0 <= digit c <= 9)%Z.
Proof. unfold is_digit, Lexer.between, digit. rewrite Bool.andb_true_iff, !N.leb_le. lia. Qed.
Lemma numeral_nonneg t : forallb is_digit t = true -> (0 <= numeral_value t)%Z.
Proof.
  induction t as [|c t IH]; cbn [forallb numeral_value]; [lia|]. intro H. apply Bool.andb_true_iff in H as [Hc H]. apply digit_range in Hc. specialize (IH H).
  unfold digit in Hc. assert (0 <= 10 ^ Z.of_nat (List.length t))%Z by (apply Z.pow_nonneg; lia). nia.
Qed.
Lemma parse_digits_value t : forall acc, (0 <= acc <= i64_max)%Z -> forallb is_digit t = true ->
  let v := (acc * 10 ^ Z.of_nat (List.length t) + numeral_value t)%Z in
  parse_digits acc t = if (v <=? i64_max)%Z then Ok v else Err INVALID_INTEGER_VALUE.
Proof.
  induction t as [|c t IH]; intros acc Ha Hd; cbv zeta.
  - cbn [parse_digits numeral_value List.length]. change (10 ^ Z.of_nat 0)%Z with 1%Z. rewrite Z.mul_1_r, Z.add_0_r. destruct (Z.leb_spec acc i64_max); [reflexivity|lia].
  - cbn [forallb] in Hd. apply Bool.andb_true_iff in Hd as [Hc Hd]. cbn [parse_digits numeral_value List.length]. rewrite Hc. cbv zeta.
    pose proof (digit_range c Hc) as Hr. pose proof (numeral_nonneg t Hd) as Hn. fold (digit c).
    set (n := List.length t) in *. assert (P : (1 <= 10 ^ Z.of_nat n)%Z) by (generalize (Z.pow_pos_nonneg 10 (Z.of_nat n)); lia).
    assert (E : (10 ^ Z.of_nat (S n) = 10 * 10 ^ Z.of_nat n)%Z) by (rewrite Nat2Z.inj_succ, Z.pow_succ_r by lia; reflexivity).
    rewrite E. set (p := (10 ^ Z.of_nat n)%Z) in *.
    replace (acc * (10 * p) + (digit c * p + numeral_value t))%Z with ((acc * 10 + digit c) * p + numeral_value t)%Z by ring.
    destruct (Z.ltb_spec i64_max (acc * 10)) as [L|L].
    { destruct (Z.leb_spec ((acc * 10 + digit c) * p + numeral_value t) i64_max); [nia|reflexivity]. }
    destruct (Z.ltb_spec i64_max (acc * 10 + digit c)) as [L2|L2].
    { destruct (Z.leb_spec ((acc * 10 + digit c) * p + numeral_value t) i64_max); [nia|reflexivity]. }
    apply IH; [lia|exact Hd].
Qed.
Lemma parse_i64_value t : t <> [] -> forallb is_digit t = true ->
  parse_i64 t = if (numeral_value t <=? i64_max)%Z then Ok (numeral_value t) else Err INVALID_INTEGER_VALUE.
Proof.
  intros N H. destruct t as [|c t]; [congruence|]. unfold parse_i64.
  rewrite (parse_digits_value (c :: t) 0); [rewrite Z.mul_0_l, Z.add_0_l; reflexivity|unfold i64_max; lia|exact H].
Qed.
