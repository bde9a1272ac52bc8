(** What it means for bytecode to be well formed, independent of how the compiler produces it. *)
From Verif.Model Require Export Cursor.
From Verif.Spec Require Export Encoding.

(** Positions between instructions, including the start and the end of the code. *)
Definition boundary (l : list instr) (p : nat) : Prop :=
  exists before after, l = before ++ after /\ p = List.length (encode before).

(** Positions the jumps of a code sequence that starts at [p] go to. *)
Fixpoint targets (p : nat) (l : list instr) : list Z :=
  match l with
  | [] => []
  | IOffset o z :: r => (Z.of_nat p + 3 + z)%Z :: targets (p + 3) r
  | i :: r => targets (p + List.length (encode_instr i)) r
  end.

(** Every jump goes to an instruction of the same code or to its end. *)
Definition jumps_ok (l : list instr) : Prop :=
  Forall (fun t => exists p, t = Z.of_nat p /\ boundary l p) (targets 0 l).

Definition is_symbol (consts : list const) (c : byte) : Prop := exists s, nth_error consts c = Some (CSymbol s).
(** A constant that can be pushed: an int, a float, a string or a function that captures nothing. *)
Definition is_pushable (consts : list const) (c : byte) : Prop :=
  match nth_error consts c with
  | Some (CFunction f) => bc_upvalue_count (fn_code f) = 0
  | Some (CSymbol _) | None => False
  | Some _ => True
  end.

(** The operands of an instruction make sense in a function with the given constants, number of local
    slots and number of captured variables. *)
Definition operand_ok (consts : list const) (slots upvalues : nat) (i : instr) : Prop :=
  match i with
  | INone _ => True
  | IOffset _ _ => True
  | IByte o b =>
      b < 256 /\
      match o with
      | OpPushConst => is_pushable consts b
      | OpInheritClass | OpLoadModule | OpLoadGlobal | OpStoreGlobal
      | OpLoadField | OpStoreField | OpAssignField | OpLoadMethod | OpStoreMethod => is_symbol consts b
      | OpLoadLocal | OpStoreLocal | OpAssignLocal | OpCloseUpvalue
      | OpAssertTypeForLocal | OpAssertTypeOrNullForLocal => b < slots
      | OpLoadUpvalue | OpStoreUpvalue | OpAssignUpvalue => b < upvalues
      | _ => True
      end
  | ITwo _ c b => c < 256 /\ b < 256 /\ is_symbol consts c /\ b < slots
  | IClosure c ups =>
      c < 256 /\
      (exists f, nth_error consts c = Some (CFunction f) /\ List.length ups = bc_upvalue_count (fn_code f)) /\
      Forall (fun '(is_parent_local, i) =>
                (is_parent_local = 1 /\ i < 256 /\ i < slots) \/
                (is_parent_local = 0 /\ i < 256 /\ i < upvalues)) ups
  end.

(** The code of one function: it is a sequence of instructions with sensible operands, and if it is at
    most 32767 bytes long all its jumps stay inside it. *)
Definition wf_code (b : bytecode) : Prop :=
  exists l, bc_data b = encode l /\
    Forall (instr_ok (bc_constants b)) l /\
    Forall (operand_ok (bc_constants b) (bc_slot_count b) (bc_upvalue_count b)) l /\
    ((Z.of_nat (List.length (bc_data b)) <= 32767)%Z -> jumps_ok l).

(** A function and all functions nested in its constants. *)
Inductive wf_bytecode : bytecode -> Prop :=
| wf_bytecode_intro b :
    wf_code b ->
    List.length (bc_constants b) <= 256 ->
    (forall f, In (CFunction f) (bc_constants b) -> wf_bytecode (fn_code f)) ->
    wf_bytecode b.
