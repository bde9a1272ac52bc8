(** Bytecode emission: dice-compiler/src/assembler.rs.
    Spans and the source map (assembler.rs:20, dropped by [generate], 33-42) are not modelled. *)
From Verif.Model Require Export Cursor.

(** UpvalueDescriptor: dice-compiler/src/upvalue.rs:1-20. *)
Inductive upvalue_desc : Type :=
| ParentLocal (slot : nat) (is_mutable : bool)
| Outer (upvalue_index : nat) (is_mutable : bool).

Definition upvalue_is_mutable (d : upvalue_desc) : bool :=      (* upvalue.rs:8-12 *)
  match d with ParentLocal _ m => m | Outer _ m => m end.

Definition upvalue_description (d : upvalue_desc) : bool * nat :=   (* upvalue.rs:14-19 *)
  match d with ParentLocal s _ => (true, s) | Outer i _ => (false, i) end.

Definition upvalue_desc_eqb (a b : upvalue_desc) : bool :=   (* derived PartialEq, upvalue.rs:1 *)
  match a, b with
  | ParentLocal s m, ParentLocal s' m' => Nat.eqb s s' && Bool.eqb m m'
  | Outer s m, Outer s' m' => Nat.eqb s s' && Bool.eqb m m'
  | _, _ => false
  end.

(** struct Assembler, assembler.rs:18-31. *)
Record assembler := MkAsm { asm_consts : list const; asm_data : list byte }.
Definition asm_new : assembler := MkAsm [] [].

(** generate: assembler.rs:33-42. *)
Definition generate (a : assembler) (slots upvalues : nat) : bytecode :=
  MkBytecode (asm_data a) slots upvalues (asm_consts a).

(** data.put_u8 *)
Definition put_u8 (b : byte) (a : assembler) : assembler :=
  MkAsm (asm_consts a) (asm_data a ++ [b]).

(** data.put_i16: big-endian two's complement. *)
Definition i16_bytes (z : Z) : list byte :=
  [Z.to_nat (((z mod 65536) / 256)%Z); Z.to_nat ((z mod 256)%Z)].
Definition put_i16 (z : Z) (a : assembler) : assembler :=
  MkAsm (asm_consts a) (asm_data a ++ i16_bytes z).

(** current_position: assembler.rs:274-276. *)
Definition current_position (a : assembler) : nat := List.length (asm_data a).

(** make_constant: assembler.rs:478-492. *)
Definition make_constant (c : const) (a : assembler) : outcome (byte * assembler) :=
  match position (fun current => const_eqb current c) (asm_consts a) with
  | Some p => if 255 <? p then Err TOO_MANY_CONSTANTS else Ok (u8_of p, a)
  | None =>
      let a' := MkAsm (asm_consts a ++ [c]) (asm_data a) in
      let p := List.length (asm_consts a') - 1 in
      if 255 <? p then Err TOO_MANY_CONSTANTS else Ok (u8_of p, a')
  end.

(** Emitters without operands: push_null 44, push_unit 49, push_bool 54, push_i0 65, push_i1 70,
    push_f0 75, push_f1 80, pop 116, swap 127, create_object 138, the operators 152-230,
    load_index 408, store_index 414, assign_index 419, ret 446, assert_bool 451,
    assert_type_and_return 468, assert_type_or_null_and_return 473.  All have the body
    [self.data.put_u8(Instruction::X.into())]. *)
Definition emit0 (o : opcode) (a : assembler) : assembler := put_u8 (opcode_to_byte o) a.

(** Emitters with one byte operand given by the caller: dup 121, create_list 132, store_local 278,
    assign_local 284, load_local 290, store_upvalue 297, assign_upvalue 303, load_upvalue 309,
    close_upvalue 315, call 434, call_super 440, assert_type_for_local 456,
    assert_type_or_null_for_local 462. *)
Definition emit1 (o : opcode) (b : byte) (a : assembler) : assembler :=
  put_u8 b (put_u8 (opcode_to_byte o) a).

(** Emitters with a constant operand: store_field 321, assign_field 330, load_method 339,
    store_method 348, load_field 357, store_global 366, load_global 380, load_module 394: the
    constant is made first. push_const 85-94 and inherit_class 143-150 put the opcode first and make
    the constant afterwards; the order is not observable because an error ends the compilation. *)
Definition emit_const (o : opcode) (c : const) (a : assembler) : outcome assembler :=
  obind (make_constant c a) (fun '(slot, a') => Ok (emit1 o slot a')).

(** load_field_to_local: assembler.rs:424-432. *)
Definition emit_load_field_to_local (field : string) (slot : byte) (a : assembler) : outcome assembler :=
  obind (make_constant (CSymbol field) a) (fun '(c, a') =>
  Ok (put_u8 slot (put_u8 c (put_u8 (opcode_to_byte OpLoadFieldToLocal) a')))).

(** closure: assembler.rs:96-114. *)
Definition upvalue_bytes (d : upvalue_desc) : list byte :=
  let '(is_parent_local, index) := upvalue_description d in
  [if is_parent_local then 1 else 0; u8_of index].

Definition emit_closure (c : const) (upvalues : list upvalue_desc) (a : assembler) : outcome assembler :=
  obind (make_constant c (put_u8 (opcode_to_byte OpCreateClosure) a)) (fun '(fn_pos, a1) =>
  let a2 := put_u8 fn_pos a1 in
  if 255 <? List.length upvalues then Err TOO_MANY_UPVALUES
  else Ok (MkAsm (asm_consts a2) (asm_data a2 ++ flat_map upvalue_bytes upvalues))).

(** jump 233-240, jump_if_false 243-250, jump_if_true 253-260: the patch position is returned. *)
Definition emit_jump (o : opcode) (a : assembler) : nat * assembler :=
  let a1 := put_u8 (opcode_to_byte o) a in
  (List.length (asm_data a1), put_i16 0 a1).

(** patch_jump: assembler.rs:262-265.  The subtraction is on u64 and cannot underflow for the
    positions the compiler passes; an underflow or an out-of-range slice is a panic. *)
Definition patch_jump (jump_position : nat) (a : assembler) : outcome assembler :=
  if current_position a <? jump_position + 2 then Panic
  else
    let offset := i16_of (Z.of_nat (current_position a - jump_position - 2)) in
    match i16_bytes offset with
    | [hi; lo] => Ok (MkAsm (asm_consts a) (set_nth (set_nth (asm_data a) jump_position hi) (S jump_position) lo))
    | _ => Panic
    end.

(** jump_back: assembler.rs:267-272 (current_position is taken after the opcode byte; the negation
    of an i16 wraps, a debug build panics for -32768). *)
Definition emit_jump_back (position : nat) (a : assembler) : assembler :=
  let a1 := put_u8 (opcode_to_byte OpJump) a in
  put_i16 (i16_of (- i16_of (Z.of_nat (current_position a1) - Z.of_nat position + 2))) a1.
