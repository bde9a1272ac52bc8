(** Shared vocabulary of the model: outcomes, error codes, machine integers. *)
From Coq Require Export List Arith ZArith Lia String Bool.
From Coq Require Export ZifyBool ZifyNat.
Export ListNotations.
#[global] Open Scope list_scope.
#[global] Open Scope nat_scope.

(** Error codes: dice-core/src/error/codes.rs:3-76.  One constructor per static;
    the strings are in Messages.v (GLOBAL_ALREADY_EXISTS, line 76, and INVALID_SCRIPT_LOCATION,
    line 74, share the string "E4002"). *)
Inductive errcode : Type :=
| UNEXPECTED_TOKEN | INVALID_ESCAPE_SEQUENCE | UNTERMINATED_STRING | UNRECOGNIZED_INPUT
| RESERVED_KEYWORD | FUNCTION_HAS_TOO_MANY_ARGUMENTS | OPERATOR_HAS_INCORRECT_ARGUMENT_COUNT
| INVALID_INTEGER_VALUE | INVALID_FLOAT_VALUE | UNTERMINATED_BACKSLASH_ARG
| INTERNAL_COMPILER_ERROR | TOO_MANY_UPVALUES | TOO_MANY_CONSTANTS
| NEW_METHOD_CANNOT_HAVE_RETURN_TYPE | NEW_METHOD_MUST_HAVE_RECEIVER | OPERATOR_MUST_HAVE_RECEIVER
| NEW_MUST_CALL_SUPER_FROM_SUBCLASS | NEW_RETURN_CANNOT_HAVE_EXPRESSION | INVALID_SUPER_CALL
| METHOD_RECEIVER_CANNOT_HAVE_TYPE | FUNCTION_CANNOT_HAVE_DUPLICATE_ARGS
| CLASS_ALREADY_DECLARED | FUNCTION_ALREADY_DECLARED
| INVALID_ASSIGNMENT_TARGET | VARIABLE_NOT_DECLARED | VARIABLE_NOT_INITIALIZED
| CANNOT_REASSIGN_IMMUTABLE_VARIABLE
| INVALID_RETURN_USAGE | INVALID_BREAK_USAGE | INVALID_CONTINUE_USAGE
| INVALID_ERROR_PROPAGATE_USAGE | INVALID_EXPORT_USAGE | INVALID_IMPORT_USAGE
| INVALID_BOOL_CONVERSION | INVALID_INT_CONVERSION | INVALID_FLOAT_CONVERSION
| INVALID_ARRAY_CONVERSION | INVALID_STRING_CONVERSION | INVALID_SYMBOL_CONVERSION
| INVALID_OBJECT_CONVERSION | INVALID_CLASS_CONVERSION
| TYPE_ASSERTION_FAILURE | TYPE_ASSERTION_NULLABILITY_FAILURE | TYPE_ASSERTION_BOOL_FAILURE
| TYPE_ASSERTION_NUMBER_FAILURE | TYPE_ASSERTION_FUNCTION_FAILURE | TYPE_ASSERTION_SUPER_FAILURE
| DIVIDE_BY_ZERO
| GLOBAL_VARIABLE_ALREADY_DEFINED | GLOBAL_VARIABLE_UNDEFINED | GLOBAL_OPERATOR_UNDEFINED
| NEW_FUNCTION_CANNOT_BE_ACCESS_DIRECTLY | CLASS_MUST_HAVE_NEW_IF_SUPER_HAS_NEW
| CLASS_CANNOT_INHERIT_VALUE_TYPE
| PANIC | IO_ERROR | INVALID_SCRIPT_LOCATION | MODULE_ALREADY_EXISTS | GLOBAL_ALREADY_EXISTS.

(** Outcome of a Rust function returning [Result<A, Error>]: a value, an error, a panic, or the
    model's own fuel exhaustion (never produced by the code). *)
Inductive outcome (A : Type) : Type :=
| Ok (a : A)
| Err (e : errcode)
| Panic
| NoFuel.
Arguments Ok {A}. Arguments Err {A}. Arguments Panic {A}. Arguments NoFuel {A}.

Definition obind {A B} (m : outcome A) (f : A -> outcome B) : outcome B :=
  match m with Ok a => f a | Err e => Err e | Panic => Panic | NoFuel => NoFuel end.

Definition omap {A B} (f : A -> B) (m : outcome A) : outcome B :=
  match m with Ok a => Ok (f a) | Err e => Err e | Panic => Panic | NoFuel => NoFuel end.

(** Bytes are natural numbers below 256; [u8_of n] is Rust's [n as u8]. *)
Definition byte := nat.
Definition u8_of (n : nat) : byte := n mod 256.

(** i16 as Z: [i16_of z] is Rust's [z as i16] (truncation to 16 bits, two's complement). *)
Definition i16_of (z : Z) : Z := ((z + 32768) mod 65536 - 32768)%Z.

(** i64 as Z: two's complement truncation, used for wrapping arithmetic. *)
Definition i64_min : Z := (- 2 ^ 63)%Z.
Definition i64_max : Z := (2 ^ 63 - 1)%Z.
Definition i64_wrap (z : Z) : Z := ((z + 2 ^ 63) mod 2 ^ 64 - 2 ^ 63)%Z.
Definition in_i64 (z : Z) : bool := ((i64_min <=? z) && (z <=? i64_max))%Z.

(** u64 positions. *)
Definition u64_wrap (z : Z) : Z := (z mod 2 ^ 64)%Z.

(** Overwrite position [i] of a list; out of range leaves the list unchanged (callers check). *)
Fixpoint set_nth {A} (l : list A) (i : nat) (x : A) : list A :=
  match l, i with
  | [], _ => []
  | _ :: t, O => x :: t
  | h :: t, S i' => h :: set_nth t i' x
  end.

(** Index of the first element satisfying [p]: Rust's [iter().position(p)]. *)
Fixpoint position {A} (p : A -> bool) (l : list A) : option nat :=
  match l with
  | [] => None
  | x :: t => if p x then Some 0 else option_map S (position p t)
  end.

(** Association lists with string keys model the HashMaps; insertion replaces. *)
Fixpoint assoc_get {V} (k : string) (m : list (string * V)) : option V :=
  match m with
  | [] => None
  | (k', v) :: t => if String.eqb k k' then Some v else assoc_get k t
  end.

Fixpoint assoc_set {V} (k : string) (v : V) (m : list (string * V)) : list (string * V) :=
  match m with
  | [] => [(k, v)]
  | (k', v') :: t => if String.eqb k k' then (k, v) :: t else (k', v') :: assoc_set k v t
  end.
