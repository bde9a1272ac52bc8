(** Specification of the byte layout of instructions and of what it means to read a code sequence,
    independent of how the assembler and the cursor are written. *)
From Verif.Model Require Export Cursor.

(** Big-endian two's complement of a 16-bit offset. *)
Definition be16 (z : Z) : list byte :=
  [Z.to_nat ((z mod 65536) / 256)%Z; Z.to_nat ((z mod 65536) mod 256)%Z].

Definition encode_instr (i : instr) : list byte :=
  match i with
  | INone o => [opcode_to_byte o]
  | IByte o b => [opcode_to_byte o; b]
  | ITwo o a b => [opcode_to_byte o; a; b]
  | IOffset o z => opcode_to_byte o :: be16 z
  | IClosure c ups =>
      opcode_to_byte OpCreateClosure :: c :: flat_map (fun '(a, b) => [a; b]) ups
  end.

Definition encode (l : list instr) : list byte := flat_map encode_instr l.

(** An instruction that can be written down: the operand shape is the one of its opcode, offsets
    fit 16 bits, and a closure carries one pair per upvalue of its function constant. *)
Definition instr_ok (consts : list const) (i : instr) : Prop :=
  match i with
  | INone o => vm_operands o = NoOperand
  | IByte o b => vm_operands o = ByteOperand
  | ITwo o a b => vm_operands o = TwoByteOperand
  | IOffset o z => vm_operands o = OffsetOperand /\ (-32768 <= z <= 32767)%Z
  | IClosure c ups =>
      match nth_error consts c with
      | Some (CFunction f) => bc_upvalue_count (fn_code f) = List.length ups
      | Some _ => ups = []
      | None => False
      end
  end.

(** Positions at which the instructions of a sequence start, when the first starts at [p]. *)
Fixpoint with_positions (p : Z) (l : list instr) : list (pos * instr) :=
  match l with
  | [] => []
  | i :: t => (p, i) :: with_positions (p + Z.of_nat (List.length (encode_instr i)))%Z t
  end.

(** [vm_reads consts code p l]: fetching instructions one after the other as the VM does, from
    position [p] up to the end of the code, gives the instructions [l] at their positions. *)
Inductive vm_reads (consts : list const) (code : list byte) : pos -> list (pos * instr) -> Prop :=
| vr_end p : fetch vm_operands consts code p = Ok None -> vm_reads consts code p []
| vr_step p i p' l :
    fetch vm_operands consts code p = Ok (Some (i, p')) ->
    vm_reads consts code p' l ->
    vm_reads consts code p ((p, i) :: l).
