(** Reading bytecode: dice-bytecode/src/cursor.rs, and the disassembler of lib.rs. *)
From Verif.Model Require Export Instr Bytecode.

(** BytecodeCursor, cursor.rs:5-16: the data and a u64 position (as Z, always in [0, 2^64)). *)
Definition pos := Z.

(** has_remaining of std::io::Cursor (bytes::Buf): position < len. *)
Definition has_remaining (code : list byte) (p : pos) : bool := (p <? Z.of_nat (List.length code))%Z.

(** get_u8: the byte at the position, advancing by one; panics without a remaining byte. *)
Definition get_u8 (code : list byte) (p : pos) : outcome (byte * pos) :=
  if has_remaining code p then
    match nth_error code (Z.to_nat p) with
    | Some b => Ok (b, (p + 1)%Z)
    | None => Panic
    end
  else Panic.

(** read_u8: cursor.rs:35-37. *)
Definition read_u8 := get_u8.

(** read_instruction: cursor.rs:24-32; [Ok None] is end of code, [Panic] an invalid byte
    (instruction.rs:83-87). *)
Definition read_instruction (code : list byte) (p : pos) : outcome (option (opcode * pos)) :=
  if has_remaining code p then
    match get_u8 code p with
    | Ok (b, p') => match opcode_of_byte b with Some o => Ok (Some (o, p')) | None => Panic end
    | _ => Panic
    end
  else Ok None.

(** read_offset: cursor.rs:40-42, get_i16 = big-endian two's complement; panics if fewer than
    two bytes remain. *)
Definition i16_of_bytes (hi lo : byte) : Z := i16_of (Z.of_nat hi * 256 + Z.of_nat lo).

Definition read_offset (code : list byte) (p : pos) : outcome (Z * pos) :=
  match get_u8 code p with
  | Ok (hi, p1) =>
      match get_u8 code p1 with
      | Ok (lo, p2) => Ok (i16_of_bytes hi lo, p2)
      | _ => Panic
      end
  | _ => Panic
  end.

(** offset_position: cursor.rs:45-47: u64 wrapping_add of the sign-extended offset. *)
Definition offset_position (p : pos) (offset : Z) : pos := u64_wrap (p + u64_wrap offset).

(** Instructions with their operands, as read by the VM. *)
Inductive instr : Type :=
| INone (o : opcode)
| IByte (o : opcode) (b : byte)
| ITwo (o : opcode) (a b : byte)
| IOffset (o : opcode) (off : Z)
| IClosure (c : byte) (ups : list (byte * byte)).

(** Reading [n] pairs of bytes: the loop of create_closure, interpreter/mod.rs:786-788 and of the
    disassembler, lib.rs:155-160. *)
Fixpoint read_pairs (code : list byte) (n : nat) (p : pos) : outcome (list (byte * byte) * pos) :=
  match n with
  | O => Ok ([], p)
  | S n' =>
      obind (read_u8 code p) (fun '(a, p1) =>
      obind (read_u8 code p1) (fun '(b, p2) =>
      obind (read_pairs code n' p2) (fun '(l, p3) => Ok ((a, b) :: l, p3))))
  end.

(** One iteration's worth of cursor reads, parameterised by the operand table (VM or disassembler).
    For CreateClosure the number of pairs is the upvalue count of the function constant; when the
    constant is not a function the VM raises an error and the disassembler prints NOT A FUNCTION!
    without reading more (lib.rs:165): both read no pairs.  Indexing constants out of range panics. *)
Definition read_operands (tbl : opcode -> operands) (consts : list const) (code : list byte)
    (o : opcode) (p : pos) : outcome (instr * pos) :=
  match tbl o with
  | NoOperand => Ok (INone o, p)
  | ByteOperand => obind (read_u8 code p) (fun '(b, p1) => Ok (IByte o b, p1))
  | TwoByteOperand =>
      obind (read_u8 code p) (fun '(a, p1) =>
      obind (read_u8 code p1) (fun '(b, p2) => Ok (ITwo o a b, p2)))
  | OffsetOperand => obind (read_offset code p) (fun '(z, p1) => Ok (IOffset o z, p1))
  | ClosureOperand =>
      obind (read_u8 code p) (fun '(c, p1) =>
      match nth_error consts c with
      | None => Panic
      | Some (CFunction f) =>
          obind (read_pairs code (bc_upvalue_count (fn_code f)) p1) (fun '(l, p2) =>
          Ok (IClosure c l, p2))
      | Some _ => Ok (IClosure c [], p1)
      end)
  end.

(** Fetch one instruction with its operands. *)
Definition fetch (tbl : opcode -> operands) (consts : list const) (code : list byte) (p : pos)
    : outcome (option (instr * pos)) :=
  match read_instruction code p with
  | Ok (Some (o, p1)) => omap Some (read_operands tbl consts code o p1)
  | Ok None => Ok None
  | Err e => Err e
  | Panic => Panic
  | NoFuel => NoFuel
  end.

(** Display for Bytecode, lib.rs:108-174 (the loop over one function's code): the list of
    (position printed, instruction).  Fuel bounds the number of instructions. *)
Fixpoint disassemble (fuel : nat) (consts : list const) (code : list byte) (p : pos)
    : outcome (list (pos * instr)) :=
  match fuel with
  | O => NoFuel
  | S fuel' =>
      match fetch disasm_operands consts code p with
      | Ok None => Ok []
      | Ok (Some (i, p')) => omap (cons (p, i)) (disassemble fuel' consts code p')
      | Err e => Err e
      | Panic => Panic
      | NoFuel => NoFuel
      end
  end.
