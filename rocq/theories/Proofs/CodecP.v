(** Lemmas about the opcode, operand and instruction codecs. *)
From Verif.Model Require Import Assembler.
From Verif.Spec Require Import Encoding.
Ltac Zify.zify_post_hook ::= Z.div_mod_to_equations.

Lemma opcode_roundtrip o : opcode_of_byte (opcode_to_byte o) = Some o.
Proof. destruct o; reflexivity. Qed.

Lemma opcode_of_byte_sound b o : opcode_of_byte b = Some o -> opcode_to_byte o = b.
Proof.
  do 62 (destruct b as [|b]; [ intros H; injection H as <-; reflexivity | ]).
  intros H; discriminate H.
Qed.

Lemma opcode_to_byte_inj a b : opcode_to_byte a = opcode_to_byte b -> a = b.
Proof.
  intros H. generalize (opcode_roundtrip a). rewrite H, opcode_roundtrip. now intros [= ->].
Qed.

Lemma opcode_lt_256 o : opcode_to_byte o < 62.
Proof. destruct o; cbn; lia. Qed.

Lemma get_u8_app pre b post :
  get_u8 (pre ++ b :: post) (Z.of_nat (List.length pre)) = Ok (b, (Z.of_nat (List.length pre) + 1)%Z).
Proof.
  unfold get_u8, has_remaining. rewrite app_length. cbn [List.length].
  replace (Z.of_nat (List.length pre) <? Z.of_nat (List.length pre + S (List.length post)))%Z with true
    by (symmetry; apply Z.ltb_lt; lia).
  rewrite Nat2Z.id, nth_error_app2 by lia. now rewrite Nat.sub_diag.
Qed.

Lemma get_u8_at code p n b :
  nth_error code n = Some b -> p = Z.of_nat n -> get_u8 code p = Ok (b, (p + 1)%Z).
Proof.
  intros H ->. unfold get_u8, has_remaining.
  assert (n < List.length code) by (apply nth_error_Some; congruence).
  replace (Z.of_nat n <? Z.of_nat (List.length code))%Z with true by (symmetry; apply Z.ltb_lt; lia).
  now rewrite Nat2Z.id, H.
Qed.

Lemma get_u8_inv code p b p' :
  (0 <= p)%Z -> get_u8 code p = Ok (b, p') -> p' = (p + 1)%Z /\ nth_error code (Z.to_nat p) = Some b.
Proof.
  unfold get_u8, has_remaining. intros Hp.
  destruct (Z.ltb_spec p (Z.of_nat (List.length code))); [|discriminate].
  destruct (nth_error code (Z.to_nat p)) eqn:E; [|discriminate].
  now intros [= -> <-].
Qed.

Lemma i16_roundtrip z : (-32768 <= z <= 32767)%Z ->
  i16_of_bytes (Z.to_nat ((z mod 65536) / 256)%Z) (Z.to_nat ((z mod 65536) mod 256)%Z) = z.
Proof. intros H. unfold i16_of_bytes, i16_of. lia. Qed.

Lemma be16_i16_bytes z : be16 z = i16_bytes z.
Proof. unfold be16, i16_bytes. replace ((z mod 65536) mod 256)%Z with (z mod 256)%Z by lia. reflexivity. Qed.

Lemma be16_bytes z : Forall (fun b => b < 256) (be16 z).
Proof. unfold be16. constructor; [lia|]. constructor; [lia|constructor]. Qed.

Lemma read_offset_bytes pre hi lo post :
  read_offset (pre ++ hi :: lo :: post) (Z.of_nat (List.length pre))
  = Ok (i16_of_bytes hi lo, (Z.of_nat (List.length pre) + 2)%Z).
Proof.
  unfold read_offset. rewrite get_u8_app. cbv beta iota.
  replace (pre ++ hi :: lo :: post) with ((pre ++ [hi]) ++ lo :: post) by now rewrite <- app_assoc.
  replace (Z.of_nat (List.length pre) + 1)%Z with (Z.of_nat (List.length (pre ++ [hi])))
    by (rewrite app_length; cbn [List.length]; lia).
  rewrite get_u8_app. f_equal. f_equal. rewrite app_length; cbn [List.length]; lia.
Qed.

Lemma read_offset_app pre z post : (-32768 <= z <= 32767)%Z ->
  read_offset (pre ++ be16 z ++ post) (Z.of_nat (List.length pre))
  = Ok (z, (Z.of_nat (List.length pre) + 2)%Z).
Proof.
  intros H. unfold be16. cbn [app]. rewrite read_offset_bytes. now rewrite i16_roundtrip.
Qed.

Lemma offset_position_exact p z :
  (0 <= p < 2 ^ 64)%Z -> (0 <= p + z < 2 ^ 64)%Z -> offset_position p z = (p + z)%Z.
Proof.
  intros Hp Hz. unfold offset_position, u64_wrap.
  rewrite Zplus_mod_idemp_r. apply Z.mod_small. lia.
Qed.

Lemma read_pairs_app ups : forall pre post,
  read_pairs (pre ++ flat_map (fun '(a, b) => [a; b]) ups ++ post) (List.length ups) (Z.of_nat (List.length pre))
  = Ok (ups, Z.of_nat (List.length pre + List.length (flat_map (fun '(a, b) => [a; b]) ups))).
Proof.
  induction ups as [|[a b] ups IH]; intros pre post.
  - cbn. now rewrite Nat.add_0_r.
  - cbn [List.length read_pairs flat_map]. unfold read_u8. cbn [app].
    rewrite get_u8_app. cbn [obind].
    replace (pre ++ a :: b :: flat_map (fun '(a, b) => [a; b]) ups ++ post)
      with ((pre ++ [a]) ++ b :: flat_map (fun '(a, b) => [a; b]) ups ++ post) by now rewrite <- app_assoc.
    replace (Z.of_nat (List.length pre) + 1)%Z with (Z.of_nat (List.length (pre ++ [a])))
      by (rewrite app_length; cbn [List.length]; lia).
    rewrite get_u8_app. cbn [obind].
    replace ((pre ++ [a]) ++ b :: flat_map (fun '(a, b) => [a; b]) ups ++ post)
      with ((pre ++ [a; b]) ++ flat_map (fun '(a, b) => [a; b]) ups ++ post)
      by (rewrite <- !app_assoc; reflexivity).
    replace (Z.of_nat (List.length (pre ++ [a])) + 1)%Z with (Z.of_nat (List.length (pre ++ [a; b])))
      by (rewrite !app_length; cbn [List.length]; lia).
    rewrite IH. cbn [obind]. do 2 f_equal. rewrite !app_length. cbn [List.length]. lia.
Qed.

Lemma fetch_end tbl consts code p : (Z.of_nat (List.length code) <= p)%Z -> fetch tbl consts code p = Ok None.
Proof.
  intros H. unfold fetch, read_instruction, has_remaining.
  destruct (Z.ltb_spec p (Z.of_nat (List.length code))); [lia|reflexivity].
Qed.

Lemma fetch_encoded consts pre i post :
  instr_ok consts i ->
  fetch vm_operands consts (pre ++ encode_instr i ++ post) (Z.of_nat (List.length pre))
  = Ok (Some (i, Z.of_nat (List.length pre + List.length (encode_instr i)))).
Proof.
  intros Hok. unfold fetch, read_instruction.
  assert (Hrem : forall o rest, has_remaining (pre ++ (opcode_to_byte o :: rest)) (Z.of_nat (List.length pre)) = true).
  { intros. unfold has_remaining. apply Z.ltb_lt. rewrite app_length. cbn [List.length]. lia. }
  assert (Hpos : (Z.of_nat (List.length pre) + 1)%Z = Z.of_nat (List.length pre + 1)) by lia.
  destruct i as [o|o b|o a b|o z|c ups]; cbn [encode_instr app]; rewrite Hrem, get_u8_app; cbv beta iota; rewrite opcode_roundtrip; cbv beta iota;
    unfold read_operands; cbn [instr_ok] in Hok.
  - rewrite Hok. cbn [omap]. cbn [List.length]. do 3 f_equal. lia.
  - rewrite Hok. unfold read_u8.
    replace (pre ++ opcode_to_byte o :: b :: post) with ((pre ++ [opcode_to_byte o]) ++ b :: post) by now rewrite <- app_assoc.
    replace (Z.of_nat (List.length pre) + 1)%Z with (Z.of_nat (List.length (pre ++ [opcode_to_byte o])))
      by (rewrite app_length; cbn [List.length]; lia).
    rewrite get_u8_app. cbn [obind omap]. do 3 f_equal. rewrite app_length. cbn [List.length]. lia.
  - rewrite Hok. unfold read_u8.
    replace (pre ++ opcode_to_byte o :: a :: b :: post) with ((pre ++ [opcode_to_byte o]) ++ a :: b :: post) by now rewrite <- app_assoc.
    replace (Z.of_nat (List.length pre) + 1)%Z with (Z.of_nat (List.length (pre ++ [opcode_to_byte o])))
      by (rewrite app_length; cbn [List.length]; lia).
    rewrite get_u8_app. cbn [obind].
    replace ((pre ++ [opcode_to_byte o]) ++ a :: b :: post) with ((pre ++ [opcode_to_byte o; a]) ++ b :: post) by (rewrite <- !app_assoc; reflexivity).
    replace (Z.of_nat (List.length (pre ++ [opcode_to_byte o])) + 1)%Z with (Z.of_nat (List.length (pre ++ [opcode_to_byte o; a])))
      by (rewrite !app_length; cbn [List.length]; lia).
    rewrite get_u8_app. cbn [obind omap]. do 3 f_equal. rewrite app_length. cbn [List.length]. lia.
  - destruct Hok as [Ho Hz]. rewrite Ho.
    replace (pre ++ opcode_to_byte o :: be16 z ++ post) with ((pre ++ [opcode_to_byte o]) ++ be16 z ++ post) by now rewrite <- app_assoc.
    replace (Z.of_nat (List.length pre) + 1)%Z with (Z.of_nat (List.length (pre ++ [opcode_to_byte o])))
      by (rewrite app_length; cbn [List.length]; lia).
    rewrite read_offset_app by assumption. cbn [obind omap]. do 3 f_equal. rewrite app_length. unfold be16. cbn [List.length]. lia.
  - change (vm_operands OpCreateClosure) with ClosureOperand. cbv iota beta.
    unfold read_u8.
    set (o := opcode_to_byte OpCreateClosure). set (fl := flat_map _ ups).
    replace (pre ++ o :: c :: fl ++ post) with ((pre ++ [o]) ++ c :: fl ++ post) by now rewrite <- app_assoc.
    replace (Z.of_nat (List.length pre) + 1)%Z with (Z.of_nat (List.length (pre ++ [o])))
      by (rewrite app_length; cbn [List.length]; lia).
    rewrite get_u8_app. cbn [obind].
    destruct (nth_error consts c) as [k|]; [|contradiction].
    assert (Hlen : (Z.of_nat (List.length (pre ++ [o])) + 1)%Z = Z.of_nat (List.length (pre ++ [o; c])))
      by (rewrite !app_length; cbn [List.length]; lia).
    destruct k; try (subst ups; cbn [omap]; do 3 f_equal; rewrite app_length; subst fl; cbn [List.length flat_map]; lia).
    rewrite Hok, Hlen.
    replace ((pre ++ [o]) ++ c :: fl ++ post) with ((pre ++ [o; c]) ++ fl ++ post) by (rewrite <- !app_assoc; reflexivity).
    subst fl. rewrite read_pairs_app. cbn [obind omap]. do 3 f_equal. rewrite app_length. cbn [List.length]. lia.
Qed.

Lemma with_positions_reads consts : forall l pre,
  Forall (instr_ok consts) l ->
  vm_reads consts (pre ++ encode l) (Z.of_nat (List.length pre)) (with_positions (Z.of_nat (List.length pre)) l).
Proof.
  induction l as [|i l IH]; intros pre H.
  - cbn. apply vr_end. apply fetch_end. rewrite app_nil_r. lia.
  - inversion H as [|? ? Hi Hl]; subst. cbn [with_positions encode flat_map].
    eapply vr_step.
    + apply fetch_encoded. assumption.
    + specialize (IH (pre ++ encode_instr i) Hl).
      rewrite <- app_assoc in IH. rewrite app_length in IH.
      replace (Z.of_nat (List.length pre) + Z.of_nat (List.length (encode_instr i)))%Z
        with (Z.of_nat (List.length pre + List.length (encode_instr i))) by lia.
      exact IH.
Qed.

Lemma vm_reads_functional consts code p l1 l2 :
  vm_reads consts code p l1 -> vm_reads consts code p l2 -> l1 = l2.
Proof.
  intros H; revert l2. induction H as [p H|p i p' l H _ IH]; intros l2 H2; inversion H2; subst; try congruence.
  rewrite H in *. match goal with E : Ok _ = Ok _ |- _ => injection E as <- <- end.
  f_equal. now apply IH.
Qed.

Lemma tables_agree o : vm_operands o = disasm_operands o.
Proof. destruct o; reflexivity. Qed.

Lemma fetch_tables_agree consts code p : fetch vm_operands consts code p = fetch disasm_operands consts code p.
Proof.
  unfold fetch. destruct (read_instruction code p) as [[[o p1]|]|e| |]; try reflexivity.
Qed.

Lemma get_u8_progress code p b p' : get_u8 code p = Ok (b, p') -> (p' = p + 1)%Z /\ (p < Z.of_nat (List.length code))%Z.
Proof.
  unfold get_u8, has_remaining. destruct (Z.ltb_spec p (Z.of_nat (List.length code))); [|discriminate].
  destruct (nth_error _ _); [|discriminate]. intros [= <- <-]. lia.
Qed.

Lemma read_pairs_progress code n : forall p l p', read_pairs code n p = Ok (l, p') -> (p <= p')%Z.
Proof.
  induction n as [|n IH]; intros p l p'; cbn [read_pairs].
  - intros [= <- <-]. lia.
  - unfold read_u8. destruct (get_u8 code p) as [[a p1]| | |] eqn:E1; cbn [obind]; try discriminate.
    destruct (get_u8 code p1) as [[b p2]| | |] eqn:E2; cbn [obind]; try discriminate.
    destruct (read_pairs code n p2) as [[l' p3]| | |] eqn:E3; cbn [obind]; try discriminate.
    intros [= <- <-]. apply get_u8_progress in E1, E2. apply IH in E3. lia.
Qed.

Lemma read_operands_progress tbl consts code o p i p' :
  read_operands tbl consts code o p = Ok (i, p') -> (p <= p')%Z.
Proof.
  unfold read_operands, read_u8, read_offset.
  destruct (tbl o).
  - intros [= <- <-]; lia.
  - destruct (get_u8 code p) as [[a p1]| | |] eqn:E1; cbn [obind]; try discriminate.
    intros [= <- <-]. apply get_u8_progress in E1; lia.
  - destruct (get_u8 code p) as [[a p1]| | |] eqn:E1; cbn [obind]; try discriminate.
    destruct (get_u8 code p1) as [[b p2]| | |] eqn:E2; cbn [obind]; try discriminate.
    intros [= <- <-]. apply get_u8_progress in E1, E2; lia.
  - destruct (get_u8 code p) as [[a p1]| | |] eqn:E1; cbn [obind]; try discriminate.
    destruct (get_u8 code p1) as [[b p2]| | |] eqn:E2; cbn [obind]; try discriminate.
    intros [= <- <-]. apply get_u8_progress in E1, E2; lia.
  - destruct (get_u8 code p) as [[a p1]| | |] eqn:E1; cbn [obind]; try discriminate.
    apply get_u8_progress in E1.
    destruct (nth_error consts a) as [[]|]; try discriminate; try (intros [= <- <-]; lia).
    destruct (read_pairs _ _ p1) as [[l p2]| | |] eqn:E2; cbn [obind]; try discriminate.
    intros [= <- <-]. apply read_pairs_progress in E2. lia.
Qed.

Lemma fetch_progress tbl consts code p i p' :
  fetch tbl consts code p = Ok (Some (i, p')) -> (p < p')%Z /\ (p < Z.of_nat (List.length code))%Z.
Proof.
  unfold fetch, read_instruction.
  destruct (has_remaining code p) eqn:R; [|discriminate].
  destruct (get_u8 code p) as [[b p1]| | |] eqn:E1; try discriminate.
  destruct (opcode_of_byte b) as [o|]; [|discriminate].
  destruct (read_operands tbl consts code o p1) as [[i' p2]| | |] eqn:E2; cbn [omap]; try discriminate.
  intros [= <- <-]. apply get_u8_progress in E1. apply read_operands_progress in E2. lia.
Qed.

(** The disassembler, with enough fuel, lists exactly what the VM would fetch, on any code. *)
Lemma disassemble_reads consts code : forall fuel p l,
  disassemble fuel consts code p = Ok l -> vm_reads consts code p l.
Proof.
  induction fuel as [|fuel IH]; intros p l; cbn [disassemble]; [discriminate|].
  rewrite <- fetch_tables_agree.
  destruct (fetch vm_operands consts code p) as [[[i p']|]| | |] eqn:E; try discriminate.
  - destruct (disassemble fuel consts code p') eqn:E2; cbn [omap]; try discriminate.
    intros [= <-]. eapply vr_step; eauto.
  - intros [= <-]. now apply vr_end.
Qed.

Lemma reads_disassemble consts code p l :
  vm_reads consts code p l ->
  forall fuel, Z.to_nat (Z.of_nat (List.length code) - p) < fuel -> disassemble fuel consts code p = Ok l.
Proof.
  induction 1 as [p H|p i p' l H _ IH]; intros fuel Hf; (destruct fuel as [|fuel]; [lia|]); cbn [disassemble];
    rewrite <- fetch_tables_agree, H.
  - reflexivity.
  - apply fetch_progress in H. rewrite IH by lia. reflexivity.
Qed.
