(** Decimal numbers as texts. *)
From Coq Require Import Ascii DecimalString DecimalFacts DecimalPos DecimalZ.
From Verif.Model Require Import Text.
From Verif.Spec Require Import HostSpec.
#[local] Open Scope string_scope.
#[local] Open Scope list_scope.
#[local] Open Scope nat_scope.

(** ** Reading *)
Lemma text_digit_spec c d : text_digit c = Some d <-> digit c d.
Proof.
  unfold text_digit. split.
  - destruct ((48 <=? Z.of_N (N_of_ascii c)) && (Z.of_N (N_of_ascii c) <=? 57))%Z eqn:E; [|discriminate]. intros [= <-].
    apply andb_true_iff in E as [E1 E2]. apply Z.leb_le in E1, E2.
    replace (Z.of_N (N_of_ascii c) - 48)%Z with (Z.of_N (N_of_ascii c - 48)%N) by lia. constructor; lia.
  - intros [c' n H L]. rewrite H. replace ((48 <=? Z.of_N (48 + n)) && (Z.of_N (48 + n) <=? 57))%Z with true.
    + f_equal. lia.
    + symmetry. apply andb_true_iff. split; apply Z.leb_le; lia.
Qed.
Lemma digit_range c d : digit c d -> (0 <= d <= 9)%Z.
Proof. intros [c' n _ L]. lia. Qed.
(** The value of a string of digits read from the left. *)
Fixpoint reading_on (acc : Z) (s : string) : option Z :=
  match s with
  | EmptyString => Some acc
  | String c r => match text_digit c with Some d => reading_on (10 * acc + d) r | None => None end
  end.
Lemma on_more : forall s acc z, reading_on acc s = Some z -> (0 <= acc)%Z -> (acc <= z)%Z.
Proof.
  induction s as [|c s IH]; intros acc z H L; cbn [reading_on] in H; [injection H as <-; lia|].
  destruct (text_digit c) as [d|] eqn:E; [|discriminate]. apply text_digit_spec, digit_range in E. apply IH in H; lia.
Qed.
Lemma on_app : forall s r acc, reading_on acc (s ++ r)%string = match reading_on acc s with Some x => reading_on x r | None => None end.
Proof. induction s as [|c s IH]; intros r acc; [reflexivity|]. cbn [append reading_on]. destruct (text_digit c); [apply IH|reflexivity]. Qed.
Lemma numeral_on t n : numeral t n -> reading_on 0 t = Some n.
Proof.
  induction 1 as [c d H|t n c d _ IH H]; apply text_digit_spec in H.
  - cbn [reading_on]. rewrite H. f_equal; lia.
  - rewrite on_app, IH. cbn [reading_on]. now rewrite H.
Qed.
Lemma app_assoc_s (a b c : string) : ((a ++ b) ++ c = a ++ (b ++ c))%string.
Proof. induction a as [|x a IH]; [reflexivity|]. cbn [append]. now rewrite IH. Qed.
Lemma app_nil_s (a : string) : (a ++ "" = a)%string.
Proof. induction a as [|x a IH]; [reflexivity|]. cbn [append]. now rewrite IH. Qed.
Lemma on_numeral_from : forall s p n z, numeral p n -> reading_on n s = Some z -> numeral (p ++ s)%string z.
Proof.
  induction s as [|c s IH]; intros p n z H E; cbn [reading_on] in E.
  - injection E as <-. now rewrite app_nil_s.
  - destruct (text_digit c) as [d|] eqn:Ed; [|discriminate]. apply text_digit_spec in Ed.
    change (String c s) with (String c "" ++ s)%string. rewrite <- app_assoc_s. eapply IH; [|exact E]. now constructor.
Qed.
Lemma on_numeral t n : t <> "" -> reading_on 0 t = Some n -> numeral t n.
Proof.
  destruct t as [|c s]; [congruence|]. intros _ E. cbn [reading_on] in E. destruct (text_digit c) as [d|] eqn:Ed; [|discriminate].
  apply text_digit_spec in Ed. replace (10 * 0 + d)%Z with d in E by lia. exact (on_numeral_from s (String c "") d n (nm_one c d Ed) E).
Qed.
Lemma numeral_nonneg t n : numeral t n -> (0 <= n)%Z.
Proof. intros H. apply numeral_on in H. eapply on_more; [exact H|lia]. Qed.
Lemma numeral_nonempty t n : numeral t n -> t <> "".
Proof. intros H -> . inversion H as [|t' n' c d H1 H2 E]. destruct t'; discriminate. Qed.

Lemma in_i64_spec z : in_i64 z = true <-> (i64_min <= z <= i64_max)%Z.
Proof. unfold in_i64. rewrite andb_true_iff, !Z.leb_le. tauto. Qed.
Lemma digits_up : forall s acc, (0 <= acc <= i64_max)%Z ->
  text_digits false acc s = match reading_on acc s with Some z => if (z <=? i64_max)%Z then Some z else None | None => None end.
Proof.
  induction s as [|c s IH]; intros acc L; cbn [text_digits reading_on].
  - destruct (Z.leb_spec acc i64_max); [reflexivity|lia].
  - destruct (text_digit c) as [d|] eqn:E; [|reflexivity]. apply text_digit_spec, digit_range in E.
    destruct (in_i64 (acc * 10) && in_i64 (acc * 10 + d))%bool eqn:B.
    + apply andb_true_iff in B as [_ B]. apply in_i64_spec in B. rewrite IH by lia. now replace (acc * 10 + d)%Z with (10 * acc + d)%Z by lia.
    + assert (O : (i64_max < 10 * acc + d)%Z).
      { destruct (Z.lt_ge_cases i64_max (10 * acc + d)) as [Q|Q]; [exact Q|]. exfalso.
        assert (X : (in_i64 (acc * 10) && in_i64 (acc * 10 + d))%bool = true) by (apply andb_true_iff; rewrite !in_i64_spec; unfold i64_min, i64_max in *; lia). congruence. }
      destruct (reading_on (10 * acc + d) s) as [z|] eqn:R; [|reflexivity]. apply on_more in R; [|lia]. destruct (Z.leb_spec z i64_max); [lia|reflexivity].
Qed.
Lemma digits_down : forall s acc, (0 <= acc <= - i64_min)%Z ->
  text_digits true (- acc) s = match reading_on acc s with Some z => if (z <=? - i64_min)%Z then Some (- z)%Z else None | None => None end.
Proof.
  induction s as [|c s IH]; intros acc L; cbn [text_digits reading_on].
  - destruct (Z.leb_spec acc (- i64_min)); [reflexivity|lia].
  - destruct (text_digit c) as [d|] eqn:E; [|reflexivity]. apply text_digit_spec, digit_range in E.
    destruct (in_i64 (- acc * 10) && in_i64 (- acc * 10 - d))%bool eqn:B.
    + apply andb_true_iff in B as [_ B]. apply in_i64_spec in B. replace (- acc * 10 - d)%Z with (- (10 * acc + d))%Z by lia. rewrite IH by lia. reflexivity.
    + assert (O : (- i64_min < 10 * acc + d)%Z).
      { destruct (Z.lt_ge_cases (- i64_min) (10 * acc + d)) as [Q|Q]; [exact Q|]. exfalso.
        assert (X : (in_i64 (- acc * 10) && in_i64 (- acc * 10 - d))%bool = true) by (apply andb_true_iff; rewrite !in_i64_spec; unfold i64_min, i64_max in *; lia). congruence. }
      destruct (reading_on (10 * acc + d) s) as [z|] eqn:R; [|reflexivity]. apply on_more in R; [|lia]. destruct (Z.leb_spec z (- i64_min)); [lia|reflexivity].
Qed.
Lemma digit_not_sign c d : digit c d -> Ascii.eqb c "-" = false /\ Ascii.eqb c "+" = false.
Proof.
  intros [c' n H L]. split; apply Ascii.eqb_neq; intros ->;
    [change (N_of_ascii "-") with 45%N in H|change (N_of_ascii "+") with 43%N in H]; lia.
Qed.
Lemma parse_signed t z : signed t z -> in_i64 z = true -> i64_of_text t = Some z.
Proof.
  intros H R. apply in_i64_spec in R. destruct H as [t n H|t n H|t n H]; pose proof (numeral_nonneg _ _ H) as N; pose proof (numeral_on _ _ H) as O; pose proof (numeral_nonempty _ _ H) as NE.
  - destruct t as [|c s]; [congruence|]. unfold i64_of_text. cbn [reading_on] in O.
    destruct (text_digit c) as [d|] eqn:Ed; [|discriminate]. pose proof Ed as Ed'. apply text_digit_spec, digit_not_sign in Ed' as [-> ->].
    rewrite digits_up by (unfold i64_max; lia). cbn [reading_on]. rewrite Ed, O. destruct (Z.leb_spec n i64_max); [reflexivity|lia].
  - unfold i64_of_text. cbn [Ascii.eqb]. change (Ascii.eqb "+" "-") with false. change (Ascii.eqb "+" "+") with true. cbv iota.
    destruct t as [|c s] eqn:Et; [congruence|]. rewrite digits_up by (unfold i64_max; lia). rewrite O. destruct (Z.leb_spec n i64_max); [reflexivity|lia].
  - unfold i64_of_text. change (Ascii.eqb "-" "-") with true. cbv iota.
    destruct t as [|c s] eqn:Et; [congruence|]. change 0%Z with (- 0)%Z. rewrite digits_down by (unfold i64_min; lia). rewrite O. destruct (Z.leb_spec n (- i64_min)); [reflexivity|lia].
Qed.
Lemma parse_only_signed t z : i64_of_text t = Some z -> signed t z /\ in_i64 z = true.
Proof.
  destruct t as [|c s]; [discriminate|]. unfold i64_of_text. destruct (Ascii.eqb_spec c "-") as [->|N1]; [|destruct (Ascii.eqb_spec c "+") as [->|N2]].
  - destruct s as [|c s]; [discriminate|]. change 0%Z with (- 0)%Z at 1. rewrite digits_down by (unfold i64_min; lia).
    destruct (reading_on 0 (String c s)) as [n|] eqn:E; [|discriminate]. destruct (Z.leb_spec n (- i64_min)) as [L|]; [|discriminate]. intros [= <-].
    assert (P : (0 <= n)%Z) by (eapply on_more; [exact E|lia]).
    split; [constructor; apply on_numeral; [discriminate|exact E]|apply in_i64_spec; unfold i64_min, i64_max in *; lia].
  - destruct s as [|c s]; [discriminate|]. rewrite digits_up by (unfold i64_max; lia).
    destruct (reading_on 0 (String c s)) as [n|] eqn:E; [|discriminate]. destruct (Z.leb_spec n i64_max) as [L|]; [|discriminate]. intros [= <-].
    assert (P : (0 <= n)%Z) by (eapply on_more; [exact E|lia]).
    split; [constructor; apply on_numeral; [discriminate|exact E]|apply in_i64_spec; unfold i64_min, i64_max in *; lia].
  - rewrite digits_up by (unfold i64_max; lia).
    destruct (reading_on 0 (String c s)) as [n|] eqn:E; [|discriminate]. destruct (Z.leb_spec n i64_max) as [L|]; [|discriminate]. intros [= <-].
    assert (P : (0 <= n)%Z) by (eapply on_more; [exact E|lia]).
    split; [constructor; apply on_numeral; [discriminate|exact E]|apply in_i64_spec; unfold i64_min, i64_max in *; lia].
Qed.

(** ** Writing *)
Fixpoint read_uint (acc : Z) (d : Decimal.uint) : Z :=
  match d with
  | Decimal.Nil => acc
  | Decimal.D0 d => read_uint (10 * acc + 0) d | Decimal.D1 d => read_uint (10 * acc + 1) d
  | Decimal.D2 d => read_uint (10 * acc + 2) d | Decimal.D3 d => read_uint (10 * acc + 3) d
  | Decimal.D4 d => read_uint (10 * acc + 4) d | Decimal.D5 d => read_uint (10 * acc + 5) d
  | Decimal.D6 d => read_uint (10 * acc + 6) d | Decimal.D7 d => read_uint (10 * acc + 7) d
  | Decimal.D8 d => read_uint (10 * acc + 8) d | Decimal.D9 d => read_uint (10 * acc + 9) d
  end.
Lemma on_uint : forall d acc, reading_on acc (NilEmpty.string_of_uint d) = Some (read_uint acc d).
Proof. induction d as [|d IH|d IH|d IH|d IH|d IH|d IH|d IH|d IH|d IH|d IH]; intros acc; [reflexivity|..]; exact (IH _). Qed.
Lemma read_acc : forall d p, Zpos (Pos.of_uint_acc d p) = read_uint (Zpos p) d.
Proof.
  induction d as [|d IH|d IH|d IH|d IH|d IH|d IH|d IH|d IH|d IH|d IH]; intros p; [reflexivity|..]; cbn [Pos.of_uint_acc read_uint]; rewrite IH; f_equal; lia.
Qed.
Lemma read_of_uint : forall d, Z.of_N (Pos.of_uint d) = read_uint 0 d.
Proof.
  induction d as [|d IH|d IH|d IH|d IH|d IH|d IH|d IH|d IH|d IH|d IH]; [reflexivity|exact IH|..]; cbn [Pos.of_uint read_uint Z.of_N]; rewrite read_acc; reflexivity.
Qed.
Lemma nzhead_head : forall d, Decimal.nzhead d = Decimal.Nil \/ (forall r, NilEmpty.string_of_uint (Decimal.nzhead d) <> String "0" r).
Proof. induction d as [|d IH|d IH|d IH|d IH|d IH|d IH|d IH|d IH|d IH|d IH]; [now left|exact IH|..]; right; intros r; cbn; discriminate. Qed.
Lemma unorm_head d : NilEmpty.string_of_uint (Decimal.unorm d) = "0" \/ (forall r, NilEmpty.string_of_uint (Decimal.unorm d) <> String "0" r).
Proof.
  unfold Decimal.unorm. destruct (nzhead_head d) as [E|E]; [rewrite E; now left|]. destruct (Decimal.nzhead d); try (right; exact E). now left.
Qed.
Lemma unorm_not_nil d : Decimal.unorm d <> Decimal.Nil.
Proof. unfold Decimal.unorm. destruct (Decimal.nzhead d); discriminate. Qed.
Lemma nilzero d : d <> Decimal.Nil -> NilZero.string_of_uint d = NilEmpty.string_of_uint d.
Proof. destruct d; [congruence|reflexivity..]. Qed.
Lemma uint_numeral d : d <> Decimal.Nil -> numeral (NilEmpty.string_of_uint d) (read_uint 0 d).
Proof. intros H. apply on_numeral; [|apply on_uint]. destruct d; [congruence|discriminate..]. Qed.

Lemma text_usual z : usual (i64_text z) z.
Proof.
  unfold i64_text. pose proof (DecimalZ.of_to z) as E. pose proof (DecimalZ.to_of (Z.to_int z)) as N. rewrite E in N.
  assert (H : forall d, Z.to_int z = Decimal.Pos d \/ Z.to_int z = Decimal.Neg d ->
    exists d', d = Decimal.unorm d' /\ d <> Decimal.Nil /\ Z.abs z = read_uint 0 d).
  { intros d H. assert (A : Z.abs z = read_uint 0 d).
    { rewrite <- E. rewrite <- read_of_uint. destruct H as [-> | ->]; cbn [Z.of_int]; unfold Z.of_uint; lia. }
    destruct H as [H|H]; rewrite H in N; cbn [Decimal.norm] in N.
    - injection N as N. exists d. split; [exact N|]. split; [|exact A]. rewrite N. apply unorm_not_nil.
    - destruct (Decimal.nzhead d) eqn:Z1; try discriminate N; injection N as N; exists d; unfold Decimal.unorm; rewrite Z1; (split; [congruence|]); (split; [congruence|exact A]). }
  destruct (Z.to_int z) as [d|d] eqn:T; cbn [NilZero.string_of_int].
  - destruct (H d (or_introl eq_refl)) as (d' & U & NN & A). rewrite nilzero by exact NN.
    exists (NilEmpty.string_of_uint d). split; [rewrite A; now apply uint_numeral|]. split; [rewrite U; apply unorm_head|].
    assert (P : (0 <= z)%Z) by (rewrite <- E; cbn [Z.of_int]; unfold Z.of_uint; lia). destruct (Z.ltb_spec z 0); [lia|reflexivity].
  - destruct (H d (or_intror eq_refl)) as (d' & U & NN & A). rewrite nilzero by exact NN.
    exists (NilEmpty.string_of_uint d). split; [rewrite A; now apply uint_numeral|]. split; [rewrite U; apply unorm_head|].
    assert (P : (z < 0)%Z).
    { assert (z <> 0)%Z by (intros ->; discriminate T). assert (z <= 0)%Z by (rewrite <- E; cbn [Z.of_int]; unfold Z.of_uint; lia). lia. }
    destruct (Z.ltb_spec z 0); [reflexivity|lia].
Qed.
Lemma usual_signed t z : usual t z -> signed t z.
Proof.
  intros (ds & H & _ & ->). destruct (Z.ltb_spec z 0).
  - pose proof (sg_minus ds _ H) as X. replace (- Z.abs z)%Z with z in X by lia. exact X.
  - pose proof (sg_none ds _ H) as X. replace (Z.abs z) with z in X by lia. exact X.
Qed.
Lemma signed_fun t z z' : signed t z -> signed t z' -> z = z'.
Proof.
  assert (NS : forall c s n, numeral (String c s) n -> Ascii.eqb c "-" = false /\ Ascii.eqb c "+" = false).
  { intros c s n H. apply numeral_on in H. cbn [reading_on] in H. destruct (text_digit c) as [d|] eqn:E; [|discriminate]. apply text_digit_spec in E. eapply digit_not_sign; exact E. }
  intros A B. inversion A as [t1 n1 H1 E1|t1 n1 H1 E1|t1 n1 H1 E1]; subst; inversion B as [t2 n2 H2 E2|t2 n2 H2 E2|t2 n2 H2 E2]; subst;
    try (destruct (NS _ _ _ H1) as [Q1 Q2]; (discriminate Q1 || discriminate Q2));
    try (destruct (NS _ _ _ H2) as [Q1 Q2]; (discriminate Q1 || discriminate Q2));
    apply numeral_on in H1, H2; congruence.
Qed.
(** There is one usual text. *)
Lemma on_bounds : forall s acc n, reading_on acc s = Some n -> (0 <= acc)%Z ->
  (acc * 10 ^ Z.of_nat (String.length s) <= n < (acc + 1) * 10 ^ Z.of_nat (String.length s))%Z.
Proof.
  induction s as [|c s IH]; intros acc n H L; cbn [reading_on String.length] in *; [injection H as <-; cbn; lia|].
  destruct (text_digit c) as [d|] eqn:E; [|discriminate]. apply text_digit_spec, digit_range in E. apply IH in H; [|lia].
  rewrite Nat2Z.inj_succ, Z.pow_succ_r by lia. assert (0 < 10 ^ Z.of_nat (String.length s))%Z by (apply Z.pow_pos_nonneg; lia). nia.
Qed.
Lemma digit_fun c c' d : digit c d -> digit c' d -> c = c'.
Proof.
  intros E E'. inversion E as [x k Hk Lk Ex Ey]; subst. inversion E' as [x k' Hk' Lk' Ex Ey']; subst. assert (k = k') by lia. subst k'.
  rewrite <- (ascii_N_embedding c), <- (ascii_N_embedding c'). congruence.
Qed.
Lemma digits_same : forall s s' acc acc' n, reading_on acc s = Some n -> reading_on acc' s' = Some n -> String.length s = String.length s' ->
  (0 <= acc)%Z -> (0 <= acc')%Z -> acc = acc' /\ s = s'.
Proof.
  induction s as [|c s IH]; intros [|c' s'] acc acc' n H H' L P P'; try discriminate L.
  - cbn [reading_on] in *. split; congruence.
  - cbn [String.length] in L. injection L as L. cbn [reading_on] in H, H'.
    destruct (text_digit c) as [d|] eqn:E; [|discriminate]. destruct (text_digit c') as [d'|] eqn:E'; [|discriminate].
    apply text_digit_spec in E, E'. pose proof (digit_range _ _ E). pose proof (digit_range _ _ E').
    destruct (IH s' _ _ n H H' L) as [Q ->]; [lia|lia|]. assert (acc = acc' /\ d = d') as [-> ->] by lia. split; [reflexivity|]. f_equal.
    eapply digit_fun; eauto.
Qed.
Lemma zero_digit : digit "0" 0. Proof. exact (dg "0" 0 eq_refl (N.le_0_l _)). Qed.
Lemma head_size t n : numeral t n -> t = "0" \/ (forall r, t <> String "0" r) ->
  t = "0" /\ n = 0%Z \/ (10 ^ (Z.of_nat (String.length t) - 1) <= n < 10 ^ Z.of_nat (String.length t))%Z.
Proof.
  intros H D. pose proof (numeral_on _ _ H) as O. pose proof (numeral_nonempty _ _ H) as NE. destruct t as [|c s]; [congruence|]. cbn [reading_on] in O.
  destruct (text_digit c) as [d|] eqn:E; [|discriminate]. apply text_digit_spec in E. pose proof (digit_range _ _ E) as R.
  destruct (Z.eq_dec d 0) as [->|Nz].
  - assert (c = "0"%char) by (eapply digit_fun; [exact E|exact zero_digit]). subst c. destruct D as [D|D]; [|destruct (D s eq_refl)]. injection D as ->. left. split; [reflexivity|]. cbn in O. congruence.
  - right. apply on_bounds in O; [|lia]. cbn [String.length]. rewrite Nat2Z.inj_succ. replace (Z.succ (Z.of_nat (String.length s)) - 1)%Z with (Z.of_nat (String.length s)) by lia.
    rewrite Z.pow_succ_r by lia. assert (0 < 10 ^ Z.of_nat (String.length s))%Z by (apply Z.pow_pos_nonneg; lia). nia.
Qed.
Lemma numeral_fun t t' n : numeral t n -> numeral t' n -> (t = "0" \/ forall r, t <> String "0" r) -> (t' = "0" \/ forall r, t' <> String "0" r) -> t = t'.
Proof.
  intros H H' D D'. destruct (head_size _ _ H D) as [(-> & ->)|B]; destruct (head_size _ _ H' D') as [(-> & E')|B'].
  - reflexivity.
  - assert (0 < 10 ^ (Z.of_nat (String.length t') - 1))%Z; [|lia]. apply Z.pow_pos_nonneg; [lia|]. pose proof (numeral_nonempty _ _ H'). destruct t'; [congruence|]. cbn [String.length]. lia.
  - subst n. assert (0 < 10 ^ (Z.of_nat (String.length t) - 1))%Z; [|lia]. apply Z.pow_pos_nonneg; [lia|]. pose proof (numeral_nonempty _ _ H). destruct t; [congruence|]. cbn [String.length]. lia.
  - assert (L : String.length t = String.length t').
    { assert (X : forall a b, (10 ^ (Z.of_nat a - 1) < 10 ^ Z.of_nat b)%Z -> a <= b).
      { intros a b Q. apply Z.pow_lt_mono_r_iff in Q; lia. }
      assert (String.length t <= String.length t') by (apply X; lia). assert (String.length t' <= String.length t) by (apply X; lia). lia. }
    apply numeral_on in H, H'. apply (digits_same t t' 0 0 n H H' L); lia.
Qed.
Lemma usual_fun t t' z : usual t z -> usual t' z -> t = t'.
Proof. intros (ds & H & D & ->) (ds' & H' & D' & ->). now rewrite (numeral_fun _ _ _ H H' D D'). Qed.
