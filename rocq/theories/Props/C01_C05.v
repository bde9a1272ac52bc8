(** Properties C01-C05: bytecode format, constant pool, jumps. *)
From Verif.Model Require Import Assembler.
From Verif.Spec Require Import Encoding ConstPool.
From Verif.Proofs Require Import CodecP AssemblerP PoolP PropsC01_C05P.

(** C01. *)
Theorem C01_opcode_roundtrip : forall o, opcode_of_byte (opcode_to_byte o) = Some o.
Proof. exact opcode_roundtrip. Qed.
Print Assumptions C01_opcode_roundtrip.

Theorem C01_opcode_injective : forall o1 o2, opcode_to_byte o1 = opcode_to_byte o2 -> o1 = o2.
Proof. exact opcode_to_byte_inj. Qed.
Print Assumptions C01_opcode_injective.

(** Reading a byte that is no instruction's code panics; reading an instruction's code gives it. *)
Theorem C01_read_instruction_spec : forall pre b post,
  (exists o, opcode_to_byte o = b /\
     read_instruction (pre ++ b :: post) (Z.of_nat (List.length pre)) = Ok (Some (o, (Z.of_nat (List.length pre) + 1)%Z)))
  \/ ((forall o, opcode_to_byte o <> b) /\
     read_instruction (pre ++ b :: post) (Z.of_nat (List.length pre)) = Panic).
Proof. exact read_instruction_spec. Qed.
Print Assumptions C01_read_instruction_spec.
Example C01_nonvacuous : (forall o, opcode_to_byte o <> 62) /\ opcode_to_byte OpSwap = 11.
Proof. split; [intros []; discriminate | reflexivity]. Qed.

(** C02. *)
Theorem C02_offset_roundtrip : forall a post z, (-32768 <= z <= 32767)%Z ->
  read_offset (asm_data (put_i16 z a) ++ post) (Z.of_nat (List.length (asm_data a)))
  = Ok (z, Z.of_nat (List.length (asm_data (put_i16 z a)))).
Proof. exact put_read_offset. Qed.
Print Assumptions C02_offset_roundtrip.

Theorem C02_offset_moves_cursor : forall p z,
  (0 <= p < 2 ^ 64)%Z -> (0 <= p + z < 2 ^ 64)%Z -> offset_position p z = (p + z)%Z.
Proof. exact offset_position_exact. Qed.
Print Assumptions C02_offset_moves_cursor.
Example C02_nonvacuous :
  read_offset (asm_data (put_i16 (-300) (MkAsm [] [7])) ++ [9]) 1%Z = Ok ((-300)%Z, 3%Z)
  /\ offset_position 500%Z (-300)%Z = 200%Z.
Proof. vm_compute. auto. Qed.

(** C03. *)
Theorem C03_decode_encode : forall consts l,
  Forall (instr_ok consts) l ->
  forall l', vm_reads consts (encode l) 0%Z l' <-> l' = with_positions 0%Z l.
Proof. exact decode_encode. Qed.
Print Assumptions C03_decode_encode.

(** The disassembler lists, on arbitrary bytes, exactly the instructions the VM would fetch. *)
Theorem C03_disassembler_agrees : forall consts code l,
  vm_reads consts code 0%Z l <-> disassemble (S (List.length code)) consts code 0%Z = Ok l.
Proof. exact disassembler_agrees. Qed.
Print Assumptions C03_disassembler_agrees.

(** What the assembler's emitters append is the encoding of one instruction. *)
Theorem C03_emitters_encode :
  (forall o a, asm_data (emit0 o a) = asm_data a ++ encode_instr (INone o)) /\
  (forall o b a, asm_data (emit1 o b a) = asm_data a ++ encode_instr (IByte o b)) /\
  (forall o c a a', emit_const o c a = Ok a' -> exists b, asm_data a' = asm_data a ++ encode_instr (IByte o b)) /\
  (forall f s a a', emit_load_field_to_local f s a = Ok a' ->
     exists b, asm_data a' = asm_data a ++ encode_instr (ITwo OpLoadFieldToLocal b s)) /\
  (forall c ups a a', emit_closure c ups a = Ok a' ->
     exists b, asm_data a' = asm_data a ++
       encode_instr (IClosure b (map (fun d => (if fst (upvalue_description d) then 1 else 0, u8_of (snd (upvalue_description d)))) ups))) /\
  (forall o a, asm_data (snd (emit_jump o a)) = asm_data a ++ encode_instr (IOffset o 0)).
Proof. exact emitters_encode. Qed.
Print Assumptions C03_emitters_encode.

Example C03_nonvacuous :
  let f := CFunction (MkFn 0 "f" (MkBytecode [] 1 2 [])) in
  Forall (instr_ok [f]) [INone OpPushNull; IClosure 0 [(1, 3); (0, 1)]; IOffset OpJump (-4); ITwo OpLoadFieldToLocal 0 1; IByte OpCall 2].
Proof. cbn. repeat constructor; cbn; lia. Qed.

(** C04. *)
Theorem C04_index_refers_to_equal_constant : forall h a,
  pool_history asm_new h a -> forall c i, In (c, i) h ->
  i <= 255 /\ exists c', nth_error (asm_consts a) i = Some c' /\ (c' = c \/ const_eqb c' c = true).
Proof. exact (history_index asm_new). Qed.
Print Assumptions C04_index_refers_to_equal_constant.

Theorem C04_equal_constants_share_index : forall h a c1 i1 c2 i2,
  pool_history asm_new h a -> In (c1, i1) h -> In (c2, i2) h -> const_eqb c1 c2 = true -> i1 = i2.
Proof. exact (history_share asm_new). Qed.
Print Assumptions C04_equal_constants_share_index.

(** Different constants never share an index. *)
Theorem C04_different_constants_differ : forall h a c1 i1 c2 i2,
  pool_history asm_new h a -> In (c1, i1) h -> In (c2, i2) h -> i1 = i2 ->
  c1 = c2 \/ const_eqb c1 c2 = true.
Proof. exact history_separate. Qed.
Print Assumptions C04_different_constants_differ.

Theorem C04_limit : forall h a c,
  pool_history asm_new h a ->
  List.length (asm_consts a) <= 256 /\
  ((exists i a', make_constant c a = Ok (i, a')) \/ make_constant c a = Err TOO_MANY_CONSTANTS) /\
  (make_constant c a = Err TOO_MANY_CONSTANTS <->
     List.length (asm_consts a) = 256 /\ Forall (fun x => const_eqb x c = false) (asm_consts a)).
Proof. exact pool_limit. Qed.
Print Assumptions C04_limit.

(** Pairwise different constants: at most 256 can be added, and the pool is exactly their list. *)
Theorem C04_at_most_256_distinct : forall h a,
  pool_history asm_new h a ->
  (forall k1 k2 c1 i1 c2 i2, k1 <> k2 -> nth_error h k1 = Some (c1, i1) -> nth_error h k2 = Some (c2, i2) ->
     const_eqb c1 c2 = false) ->
  asm_consts a = map fst h /\ List.length h <= 256.
Proof. exact at_most_256_distinct. Qed.
Print Assumptions C04_at_most_256_distinct.

Example C04_nonvacuous : exists a,
  pool_history asm_new [(CInt 5, 0); (CSymbol "x", 1); (CInt 5, 0)] a /\ asm_consts a = [CInt 5; CSymbol "x"].
Proof. exact pool_history_example. Qed.

(** C05.  A forward jump emitted on [a], more code [mid] appended, then patched: the instruction
    read back at the jump sends the cursor to the end of the code present at patch time; nothing else
    changes. *)
Theorem C05_forward_jump : forall o a mid,
  vm_operands o = OffsetOperand -> (Z.of_nat (List.length mid) <= 32767)%Z ->
  let (p, a1) := emit_jump o a in
  let a2 := MkAsm (asm_consts a1) (asm_data a1 ++ mid) in
  exists a3 off after,
    patch_jump p a2 = Ok a3 /\
    fetch vm_operands (asm_consts a3) (asm_data a3) (Z.of_nat (List.length (asm_data a))) = Ok (Some (IOffset o off, after)) /\
    (after + off = Z.of_nat (List.length (asm_data a2)))%Z /\
    asm_consts a3 = asm_consts a /\
    firstn (List.length (asm_data a)) (asm_data a3) = asm_data a /\
    skipn (List.length (asm_data a) + 3) (asm_data a3) = mid.
Proof. exact forward_jump. Qed.
Print Assumptions C05_forward_jump.

Theorem C05_backward_jump : forall a position rest,
  position <= List.length (asm_data a) ->
  (Z.of_nat (List.length (asm_data a) + 3 - position) <= 32768)%Z ->
  let a1 := emit_jump_back position a in
  exists off after,
    fetch vm_operands (asm_consts a1) (asm_data a1 ++ rest) (Z.of_nat (List.length (asm_data a))) = Ok (Some (IOffset OpJump off, after)) /\
    (after + off = Z.of_nat position)%Z /\
    firstn (List.length (asm_data a)) (asm_data a1) = asm_data a /\ asm_consts a1 = asm_consts a.
Proof. exact backward_jump. Qed.
Print Assumptions C05_backward_jump.
Example C05_nonvacuous : exists a3, patch_jump 2 (MkAsm [] [9; 51; 0; 0; 1; 9]) = Ok a3 /\ asm_data a3 = [9; 51; 0; 2; 1; 9].
Proof. vm_compute. eauto. Qed.

(** Finding: for every longer distance the patched jump does not reach the patch position. *)
Theorem C05_forward_jump_far_refuted : forall o a mid,
  vm_operands o = OffsetOperand -> (32767 < Z.of_nat (List.length mid))%Z ->
  let (p, a1) := emit_jump o a in
  let a2 := MkAsm (asm_consts a1) (asm_data a1 ++ mid) in
  exists a3 off after,
    patch_jump p a2 = Ok a3 /\
    fetch vm_operands (asm_consts a3) (asm_data a3) (Z.of_nat (List.length (asm_data a))) = Ok (Some (IOffset o off, after)) /\
    (after + off <> Z.of_nat (List.length (asm_data a2)))%Z.
Proof. exact forward_jump_far. Qed.
Print Assumptions C05_forward_jump_far_refuted.
