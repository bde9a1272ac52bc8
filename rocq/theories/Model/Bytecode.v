(** Bytecode container: dice-bytecode/src/lib.rs. *)
From Coq Require Export Floats.SpecFloat.
From Verif.Model Require Export Common.

(** f64 is IEEE binary64, modelled by Coq's specification floats (all NaNs are identified;
    NaN payloads are not observable in Dice). *)
Definition f64 := spec_float.
Definition prec64 : Z := 53%Z.
Definition emax64 : Z := 1024%Z.

(** ConstantValue, FunctionBytecode and Bytecode: lib.rs:11-53.
    A uuid is modelled by a natural number that the compiler draws from a counter
    (uuid v4 collisions are ignored). *)
Inductive const : Type :=
| CInt (z : Z)
| CFloat (f : f64)
| CString (s : string)
| CSymbol (s : string)
| CFunction (fn : fn_bytecode)
with fn_bytecode : Type :=
| MkFn (fn_id : nat) (fn_name : string) (fn_code : bytecode)
with bytecode : Type :=
| MkBytecode (data : list byte) (slot_count : nat) (upvalue_count : nat) (constants : list const).

(** Accessors: lib.rs:91-106. *)
Definition bc_data (b : bytecode) : list byte := let '(MkBytecode d _ _ _) := b in d.
Definition bc_slot_count (b : bytecode) : nat := let '(MkBytecode _ s _ _) := b in s.
Definition bc_upvalue_count (b : bytecode) : nat := let '(MkBytecode _ _ u _) := b in u.
Definition bc_constants (b : bytecode) : list const := let '(MkBytecode _ _ _ c) := b in c.
Definition fn_id (f : fn_bytecode) : nat := let '(MkFn i _ _) := f in i.
Definition fn_name (f : fn_bytecode) : string := let '(MkFn _ n _) := f in n.
Definition fn_code (f : fn_bytecode) : bytecode := let '(MkFn _ _ c) := f in c.

(** f64 ==: IEEE equality, false on NaN, +0 == -0. *)
Definition f64_eqb (a b : f64) : bool := SFeqb a b.

(** PartialEq for ConstantValue: derived, lib.rs:27; functions compare by id, lib.rs:55-59. *)
Definition const_eqb (a b : const) : bool :=
  match a, b with
  | CInt x, CInt y => Z.eqb x y
  | CFloat x, CFloat y => f64_eqb x y
  | CString x, CString y => String.eqb x y
  | CSymbol x, CSymbol y => String.eqb x y
  | CFunction f, CFunction g => Nat.eqb (fn_id f) (fn_id g)
  | _, _ => false
  end.
