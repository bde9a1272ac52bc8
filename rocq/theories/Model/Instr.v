(** Instruction set: dice-bytecode/src/instruction.rs. *)
From Verif.Model Require Export Common.

(** dice-bytecode/src/instruction.rs:6-81, enum Instruction (same order). *)
Inductive opcode : Type :=
| OpPushNull
| OpPushUnit
| OpPushFalse
| OpPushTrue
| OpPushI0
| OpPushI1
| OpPushF0
| OpPushF1
| OpPushConst
| OpPop
| OpDup
| OpSwap
| OpCreateArray
| OpCreateObject
| OpCreateClosure
| OpInheritClass
| OpLoadModule
| OpLoadGlobal
| OpStoreGlobal
| OpLoadLocal
| OpStoreLocal
| OpAssignLocal
| OpLoadField
| OpStoreField
| OpAssignField
| OpLoadIndex
| OpStoreIndex
| OpAssignIndex
| OpLoadUpvalue
| OpStoreUpvalue
| OpAssignUpvalue
| OpCloseUpvalue
| OpLoadFieldToLocal
| OpLoadMethod
| OpStoreMethod
| OpNegate
| OpNot
| OpMultiply
| OpDivide
| OpRemainder
| OpAdd
| OpSubtract
| OpGreaterThan
| OpGreaterThanOrEqual
| OpLessThan
| OpLessThanOrEqual
| OpEqual
| OpNotEqual
| OpIs
| OpRangeInclusive
| OpRangeExclusive
| OpJump
| OpJumpIfFalse
| OpJumpIfTrue
| OpCall
| OpCallSuper
| OpReturn
| OpAssertBool
| OpAssertTypeForLocal
| OpAssertTypeOrNullForLocal
| OpAssertTypeAndReturn
| OpAssertTypeOrNullAndReturn.

(** Into<u8> for Instruction, instruction.rs:89-93: the derived ToPrimitive gives the declaration index. *)
Definition opcode_to_byte (o : opcode) : byte :=
  match o with
  | OpPushNull => 0
  | OpPushUnit => 1
  | OpPushFalse => 2
  | OpPushTrue => 3
  | OpPushI0 => 4
  | OpPushI1 => 5
  | OpPushF0 => 6
  | OpPushF1 => 7
  | OpPushConst => 8
  | OpPop => 9
  | OpDup => 10
  | OpSwap => 11
  | OpCreateArray => 12
  | OpCreateObject => 13
  | OpCreateClosure => 14
  | OpInheritClass => 15
  | OpLoadModule => 16
  | OpLoadGlobal => 17
  | OpStoreGlobal => 18
  | OpLoadLocal => 19
  | OpStoreLocal => 20
  | OpAssignLocal => 21
  | OpLoadField => 22
  | OpStoreField => 23
  | OpAssignField => 24
  | OpLoadIndex => 25
  | OpStoreIndex => 26
  | OpAssignIndex => 27
  | OpLoadUpvalue => 28
  | OpStoreUpvalue => 29
  | OpAssignUpvalue => 30
  | OpCloseUpvalue => 31
  | OpLoadFieldToLocal => 32
  | OpLoadMethod => 33
  | OpStoreMethod => 34
  | OpNegate => 35
  | OpNot => 36
  | OpMultiply => 37
  | OpDivide => 38
  | OpRemainder => 39
  | OpAdd => 40
  | OpSubtract => 41
  | OpGreaterThan => 42
  | OpGreaterThanOrEqual => 43
  | OpLessThan => 44
  | OpLessThanOrEqual => 45
  | OpEqual => 46
  | OpNotEqual => 47
  | OpIs => 48
  | OpRangeInclusive => 49
  | OpRangeExclusive => 50
  | OpJump => 51
  | OpJumpIfFalse => 52
  | OpJumpIfTrue => 53
  | OpCall => 54
  | OpCallSuper => 55
  | OpReturn => 56
  | OpAssertBool => 57
  | OpAssertTypeForLocal => 58
  | OpAssertTypeOrNullForLocal => 59
  | OpAssertTypeAndReturn => 60
  | OpAssertTypeOrNullAndReturn => 61
  end.

(** FromPrimitive::from_u8, instruction.rs:83-87; [None] is the panic of [expect]. *)
Definition opcode_of_byte (b : byte) : option opcode :=
  match b with
  | 0 => Some OpPushNull
  | 1 => Some OpPushUnit
  | 2 => Some OpPushFalse
  | 3 => Some OpPushTrue
  | 4 => Some OpPushI0
  | 5 => Some OpPushI1
  | 6 => Some OpPushF0
  | 7 => Some OpPushF1
  | 8 => Some OpPushConst
  | 9 => Some OpPop
  | 10 => Some OpDup
  | 11 => Some OpSwap
  | 12 => Some OpCreateArray
  | 13 => Some OpCreateObject
  | 14 => Some OpCreateClosure
  | 15 => Some OpInheritClass
  | 16 => Some OpLoadModule
  | 17 => Some OpLoadGlobal
  | 18 => Some OpStoreGlobal
  | 19 => Some OpLoadLocal
  | 20 => Some OpStoreLocal
  | 21 => Some OpAssignLocal
  | 22 => Some OpLoadField
  | 23 => Some OpStoreField
  | 24 => Some OpAssignField
  | 25 => Some OpLoadIndex
  | 26 => Some OpStoreIndex
  | 27 => Some OpAssignIndex
  | 28 => Some OpLoadUpvalue
  | 29 => Some OpStoreUpvalue
  | 30 => Some OpAssignUpvalue
  | 31 => Some OpCloseUpvalue
  | 32 => Some OpLoadFieldToLocal
  | 33 => Some OpLoadMethod
  | 34 => Some OpStoreMethod
  | 35 => Some OpNegate
  | 36 => Some OpNot
  | 37 => Some OpMultiply
  | 38 => Some OpDivide
  | 39 => Some OpRemainder
  | 40 => Some OpAdd
  | 41 => Some OpSubtract
  | 42 => Some OpGreaterThan
  | 43 => Some OpGreaterThanOrEqual
  | 44 => Some OpLessThan
  | 45 => Some OpLessThanOrEqual
  | 46 => Some OpEqual
  | 47 => Some OpNotEqual
  | 48 => Some OpIs
  | 49 => Some OpRangeInclusive
  | 50 => Some OpRangeExclusive
  | 51 => Some OpJump
  | 52 => Some OpJumpIfFalse
  | 53 => Some OpJumpIfTrue
  | 54 => Some OpCall
  | 55 => Some OpCallSuper
  | 56 => Some OpReturn
  | 57 => Some OpAssertBool
  | 58 => Some OpAssertTypeForLocal
  | 59 => Some OpAssertTypeOrNullForLocal
  | 60 => Some OpAssertTypeAndReturn
  | 61 => Some OpAssertTypeOrNullAndReturn
  | _ => None
  end.

Definition opcode_eqb (a b : opcode) : bool := Nat.eqb (opcode_to_byte a) (opcode_to_byte b).

(** How many operand bytes follow an opcode; read off the VM, dice-runtime/src/interpreter/mod.rs:47-118
    and the per-opcode functions below it (which cursor reads each of them performs). *)
Inductive operands : Type :=
| NoOperand            (* nothing *)
| ByteOperand          (* one read_u8 *)
| TwoByteOperand       (* two read_u8: load_field_to_local, mod.rs:754-770 *)
| OffsetOperand        (* one read_offset: jump, jump_if_*, mod.rs:135-140, 456-476 *)
| ClosureOperand.      (* read_u8, then 2 read_u8 per upvalue of the function constant: create_closure, mod.rs:772-816 *)

Definition vm_operands (o : opcode) : operands :=
  match o with
  | OpPushConst                                           (* mod.rs:450-454 *)
  | OpDup                                                 (* mod.rs:142-145 *)
  | OpCreateArray                                         (* mod.rs:415-420 *)
  | OpInheritClass                                        (* mod.rs:428-448 *)
  | OpLoadModule                                          (* mod.rs:834-851 *)
  | OpLoadGlobal | OpStoreGlobal                          (* mod.rs:585-617 *)
  | OpLoadLocal | OpStoreLocal | OpAssignLocal            (* mod.rs:478-505 *)
  | OpLoadField | OpStoreField | OpAssignField            (* mod.rs:619-655 *)
  | OpLoadUpvalue | OpStoreUpvalue | OpAssignUpvalue      (* mod.rs:507-568 *)
  | OpCloseUpvalue                                        (* mod.rs:570-583 *)
  | OpLoadMethod | OpStoreMethod                          (* mod.rs:726-752 *)
  | OpCall | OpCallSuper                                  (* mod.rs:818-832 *)
  | OpAssertTypeForLocal | OpAssertTypeOrNullForLocal     (* mod.rs:155-181 *)
    => ByteOperand
  | OpLoadFieldToLocal => TwoByteOperand
  | OpJump | OpJumpIfFalse | OpJumpIfTrue => OffsetOperand
  | OpCreateClosure => ClosureOperand
  | _ => NoOperand
  end.

(** The same information as used by the disassembler, dice-bytecode/src/lib.rs:119-169. *)
Definition disasm_operands (o : opcode) : operands :=
  match o with
  | OpJump | OpJumpIfFalse | OpJumpIfTrue => OffsetOperand
  | OpPushConst | OpDup | OpLoadModule | OpLoadGlobal | OpLoadLocal | OpLoadField | OpLoadMethod
  | OpLoadUpvalue | OpStoreGlobal | OpStoreLocal | OpStoreField | OpStoreMethod | OpStoreUpvalue
  | OpAssignLocal | OpAssignField | OpAssignUpvalue | OpCloseUpvalue | OpCall | OpCallSuper
  | OpCreateArray | OpInheritClass | OpAssertTypeForLocal | OpAssertTypeOrNullForLocal => ByteOperand
  | OpLoadFieldToLocal => TwoByteOperand
  | OpCreateClosure => ClosureOperand
  | _ => NoOperand
  end.
