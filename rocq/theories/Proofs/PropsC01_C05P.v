From Verif.Model Require Import Assembler.
From Verif.Spec Require Import Encoding ConstPool.
From Verif.Proofs Require Import CodecP AssemblerP PoolP.
Ltac Zify.zify_post_hook ::= Z.div_mod_to_equations.

Lemma read_instruction_spec : forall pre b post,
  (exists o, opcode_to_byte o = b /\
     read_instruction (pre ++ b :: post) (Z.of_nat (List.length pre)) = Ok (Some (o, (Z.of_nat (List.length pre) + 1)%Z)))
  \/ ((forall o, opcode_to_byte o <> b) /\
     read_instruction (pre ++ b :: post) (Z.of_nat (List.length pre)) = Panic).
Proof.
  intros pre b post. unfold read_instruction.
  assert (H : has_remaining (pre ++ b :: post) (Z.of_nat (List.length pre)) = true).
  { unfold has_remaining. apply Z.ltb_lt. rewrite app_length. cbn [List.length]. lia. }
  rewrite H, get_u8_app. destruct (opcode_of_byte b) as [o|] eqn:E.
  - left. exists o. split; [now apply opcode_of_byte_sound|reflexivity].
  - right. split; [|reflexivity]. intros o <-. rewrite opcode_roundtrip in E. discriminate.
Qed.

Lemma put_read_offset : forall a post z, (-32768 <= z <= 32767)%Z ->
  read_offset (asm_data (put_i16 z a) ++ post) (Z.of_nat (List.length (asm_data a)))
  = Ok (z, Z.of_nat (List.length (asm_data (put_i16 z a)))).
Proof.
  intros a post z H. unfold put_i16. cbn [asm_data]. rewrite <- be16_i16_bytes, <- app_assoc.
  rewrite read_offset_app by assumption. f_equal. f_equal. rewrite app_length. unfold be16. cbn [List.length]. lia.
Qed.

Lemma decode_encode : forall consts l,
  Forall (instr_ok consts) l ->
  forall l', vm_reads consts (encode l) 0%Z l' <-> l' = with_positions 0%Z l.
Proof.
  intros consts l H l'. pose proof (with_positions_reads consts l [] H) as R. cbn [List.length app Z.of_nat] in R.
  split; [|now intros ->]. intros R'. eapply vm_reads_functional; eauto.
Qed.

Lemma disassembler_agrees : forall consts code l,
  vm_reads consts code 0%Z l <-> disassemble (S (List.length code)) consts code 0%Z = Ok l.
Proof.
  intros. split.
  - intros H. apply (reads_disassemble _ _ _ _ H). lia.
  - apply disassemble_reads.
Qed.

Lemma emitters_encode :
  (forall o a, asm_data (emit0 o a) = asm_data a ++ encode_instr (INone o)) /\
  (forall o b a, asm_data (emit1 o b a) = asm_data a ++ encode_instr (IByte o b)) /\
  (forall o c a a', emit_const o c a = Ok a' -> exists b, asm_data a' = asm_data a ++ encode_instr (IByte o b)) /\
  (forall f s a a', emit_load_field_to_local f s a = Ok a' ->
     exists b, asm_data a' = asm_data a ++ encode_instr (ITwo OpLoadFieldToLocal b s)) /\
  (forall c ups a a', emit_closure c ups a = Ok a' ->
     exists b, asm_data a' = asm_data a ++
       encode_instr (IClosure b (map (fun d => (if fst (upvalue_description d) then 1 else 0, u8_of (snd (upvalue_description d)))) ups))) /\
  (forall o a, asm_data (snd (emit_jump o a)) = asm_data a ++ encode_instr (IOffset o 0)).
Proof.
  split; [exact emit0_data|]. split; [exact emit1_data|]. split; [|split; [|split]].
  - intros o c a a'. unfold emit_const. destruct (make_constant c a) as [[b a1]| | |] eqn:E; cbn [obind]; try discriminate.
    intros [= <-]. exists b. rewrite emit1_data. apply make_constant_inv in E as (-> & _). reflexivity.
  - intros f s a a'. unfold emit_load_field_to_local. destruct (make_constant _ a) as [[b a1]| | |] eqn:E; cbn [obind]; try discriminate.
    intros [= <-]. exists b. apply make_constant_inv in E as (E & _). unfold put_u8. cbn [asm_data]. rewrite E.
    rewrite <- !app_assoc. reflexivity.
  - intros c ups a a'. unfold emit_closure. destruct (make_constant c _) as [[b a1]| | |] eqn:E; cbn [obind]; try discriminate.
    destruct (255 <? _); [discriminate|]. intros [= <-]. exists b. apply make_constant_inv in E as (E & _).
    unfold put_u8 in *. cbn [asm_data] in *. rewrite E. rewrite <- !app_assoc. cbn [app encode_instr].
    do 3 f_equal. clear. induction ups as [|d ups IH]; [reflexivity|]. cbn [flat_map map]. rewrite IH.
    unfold upvalue_bytes. destruct (upvalue_description d) as [[] n]; reflexivity.
  - intros o a. rewrite emit_jump_spec. reflexivity.
Qed.

Lemma history_separate : forall h a c1 i1 c2 i2,
  pool_history asm_new h a -> In (c1, i1) h -> In (c2, i2) h -> i1 = i2 ->
  c1 = c2 \/ const_eqb c1 c2 = true.
Proof.
  intros h a c1 i1 c2 i2 H H1 H2 <-.
  apply (history_index _ _ _ H) in H1 as (_ & x & N1 & E1).
  apply (history_index _ _ _ H) in H2 as (_ & y & N2 & E2).
  rewrite N1 in N2. injection N2 as <-.
  destruct E1 as [->|E1], E2 as [->|E2]; auto.
  - right. now apply const_eqb_sym.
  - right. eapply const_eqb_trans; [apply const_eqb_sym; eassumption|assumption].
Qed.

Lemma pool_limit : forall h a c,
  pool_history asm_new h a ->
  List.length (asm_consts a) <= 256 /\
  ((exists i a', make_constant c a = Ok (i, a')) \/ make_constant c a = Err TOO_MANY_CONSTANTS) /\
  (make_constant c a = Err TOO_MANY_CONSTANTS <->
     List.length (asm_consts a) = 256 /\ Forall (fun x => const_eqb x c = false) (asm_consts a)).
Proof.
  intros h a c H.
  assert (B : List.length (asm_consts a) <= 256) by (apply (history_bound _ _ _ H); cbn; lia).
  split; [assumption|]. split; [now apply make_constant_result|].
  rewrite make_constant_error by assumption. intuition.
Qed.

Lemma at_most_256_distinct : forall h a,
  pool_history asm_new h a ->
  (forall k1 k2 c1 i1 c2 i2, k1 <> k2 -> nth_error h k1 = Some (c1, i1) -> nth_error h k2 = Some (c2, i2) ->
     const_eqb c1 c2 = false) ->
  asm_consts a = map fst h /\ List.length h <= 256.
Proof.
  intros h a H D. pose proof (history_distinct _ _ H D) as E. split; [auto|].
  rewrite <- (map_length fst), E. apply (history_bound _ _ _ H). cbn. lia.
Qed.

Lemma pool_history_example : exists a,
  pool_history asm_new [(CInt 5, 0); (CSymbol "x", 1); (CInt 5, 0)] a /\ asm_consts a = [CInt 5; CSymbol "x"].
Proof.
  eexists. split.
  - eapply (ph_add _ [(CInt 5, 0); (CSymbol "x", 1)]).
    + eapply (ph_add _ [(CInt 5, 0)]).
      * eapply (ph_add _ []); [apply ph_start|vm_compute; reflexivity].
      * vm_compute; reflexivity.
    + vm_compute; reflexivity.
  - reflexivity.
Qed.

Lemma firstn_app_exact {A} (l r : list A) : firstn (List.length l) (l ++ r) = l.
Proof. rewrite firstn_app, Nat.sub_diag, firstn_all, firstn_O. apply app_nil_r. Qed.

Lemma skipn_app_exact {A} (l r : list A) n : n = List.length l -> skipn n (l ++ r) = r.
Proof. intros ->. rewrite skipn_app, skipn_all, Nat.sub_diag. reflexivity. Qed.

Lemma forward_jump : forall o a mid,
  vm_operands o = OffsetOperand -> (Z.of_nat (List.length mid) <= 32767)%Z ->
  let (p, a1) := emit_jump o a in
  let a2 := MkAsm (asm_consts a1) (asm_data a1 ++ mid) in
  exists a3 off after,
    patch_jump p a2 = Ok a3 /\
    fetch vm_operands (asm_consts a3) (asm_data a3) (Z.of_nat (List.length (asm_data a))) = Ok (Some (IOffset o off, after)) /\
    (after + off = Z.of_nat (List.length (asm_data a2)))%Z /\
    asm_consts a3 = asm_consts a /\
    firstn (List.length (asm_data a)) (asm_data a3) = asm_data a /\
    skipn (List.length (asm_data a) + 3) (asm_data a3) = mid.
Proof.
  intros o a mid Ho Hm. rewrite emit_jump_spec. cbn [asm_consts asm_data]. rewrite <- app_assoc.
  rewrite patch_jump_spec by assumption. do 3 eexists. split; [reflexivity|]. cbn [asm_consts asm_data].
  split; [apply fetch_encoded; cbn [instr_ok]; split; [assumption|lia]|].
  split; [rewrite !app_length; cbn [encode_instr be16 List.length]; lia|].
  split; [reflexivity|]. split; [apply firstn_app_exact|].
  rewrite app_assoc. apply skipn_app_exact. rewrite app_length. reflexivity.
Qed.

Lemma backward_jump : forall a position rest,
  position <= List.length (asm_data a) ->
  (Z.of_nat (List.length (asm_data a) + 3 - position) <= 32768)%Z ->
  let a1 := emit_jump_back position a in
  exists off after,
    fetch vm_operands (asm_consts a1) (asm_data a1 ++ rest) (Z.of_nat (List.length (asm_data a))) = Ok (Some (IOffset OpJump off, after)) /\
    (after + off = Z.of_nat position)%Z /\
    firstn (List.length (asm_data a)) (asm_data a1) = asm_data a /\ asm_consts a1 = asm_consts a.
Proof.
  intros a position rest H1 H2. rewrite emit_jump_back_spec by lia. cbn [asm_consts asm_data].
  rewrite <- app_assoc. do 2 eexists.
  split; [apply fetch_encoded; cbn [instr_ok]; split; [reflexivity|lia]|].
  split; [cbn [encode_instr be16 List.length]; lia|]. split; [apply firstn_app_exact|reflexivity].
Qed.

Lemma forward_jump_far : forall o a mid,
  vm_operands o = OffsetOperand -> (32767 < Z.of_nat (List.length mid))%Z ->
  let (p, a1) := emit_jump o a in
  let a2 := MkAsm (asm_consts a1) (asm_data a1 ++ mid) in
  exists a3 off after,
    patch_jump p a2 = Ok a3 /\
    fetch vm_operands (asm_consts a3) (asm_data a3) (Z.of_nat (List.length (asm_data a))) = Ok (Some (IOffset o off, after)) /\
    (after + off <> Z.of_nat (List.length (asm_data a2)))%Z.
Proof.
  intros o a mid Ho Hm. rewrite emit_jump_spec. cbn [asm_consts asm_data]. rewrite <- app_assoc.
  rewrite patch_jump_general. do 3 eexists. split; [reflexivity|]. cbn [asm_consts asm_data].
  pose proof (i16_of_range (Z.of_nat (List.length mid))) as R.
  split; [apply fetch_encoded; cbn [instr_ok]; split; [assumption|lia]|].
  rewrite !app_length; cbn [encode_instr be16 List.length]. lia.
Qed.
