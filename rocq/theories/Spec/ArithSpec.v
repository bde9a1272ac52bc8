(** Vocabulary for the arithmetic and comparison properties. *)
From Verif.Spec Require Export VmSpec.

(** The instruction [o] applied to the operands [x] (left) and [y] (right) on top of any stack does [k]:
    gives a value in their place, fails with an error, or panics. *)
Inductive op_result : Type := Gives (v : value) | Fails (e : errcode) | Panics.

Definition binary_does (dbg : bool) (o : opcode) (x y : value) (k : op_result) : Prop :=
  forall w r bc fr ups p below temps s,
    w_dbg w = dbg ->
    fits below temps 2 ->
    step w r bc fr ups (INone o) p (with_stack below (y :: x :: temps) s)
    = match k with
      | Gives v => ROk (Continue p) (with_stack below (v :: temps) s)
      | Fails e => RErr e (with_stack below (x :: temps) s)
      | Panics => RPanic
      end.

Definition unary_does (dbg : bool) (o : opcode) (x : value) (k : op_result) : Prop :=
  forall w r bc fr ups p below temps s,
    w_dbg w = dbg ->
    fits below temps 1 ->
    step w r bc fr ups (INone o) p (with_stack below (x :: temps) s)
    = match k with
      | Gives v => ROk (Continue p) (with_stack below (v :: temps) s)
      | Fails e => RErr e (with_stack below (x :: temps) s)
      | Panics => RPanic
      end.

(** 64-bit signed integers. *)
Definition i64 (z : Z) : Prop := (- 2 ^ 63 <= z < 2 ^ 63)%Z.

(** The mathematical meaning of +, - and *. *)
Definition math (o : opcode) (a b : Z) : option Z :=
  match o with
  | OpAdd => Some (a + b)%Z
  | OpSubtract => Some (a - b)%Z
  | OpMultiply => Some (a * b)%Z
  | _ => None
  end.

(** The comparison [o] of [x] and [y] yields the bool [c], in every build. *)
Definition compares (o : opcode) (x y : value) (c : bool) : Prop :=
  forall dbg, binary_does dbg o x y (Gives (VBool c)).

(** The six comparisons of [x] and [y] and how they must hang together when [lt], [eq] and [gt] say
    how the operands are ordered. *)
Definition coherent (x y : value) (lt eq gt : Prop) : Prop :=
  exists l e g le ge ne,
    compares OpLessThan x y l /\ compares OpEqual x y e /\ compares OpGreaterThan x y g /\
    compares OpLessThanOrEqual x y le /\ compares OpGreaterThanOrEqual x y ge /\ compares OpNotEqual x y ne /\
    (l = true <-> lt) /\ (e = true <-> eq) /\ (g = true <-> gt) /\
    (le = true <-> lt \/ eq) /\ (ge = true <-> gt \/ eq) /\ (ne = true <-> ~ eq).

Definition exactly_one (p q r : Prop) : Prop :=
  (p /\ ~ q /\ ~ r) \/ (~ p /\ q /\ ~ r) \/ (~ p /\ ~ q /\ r).

(** The order IEEE-754 puts on floats.  [scaled] is the exact value of a finite float in units of
    2^-1074, the smallest positive float. *)
Definition scaled (x : f64) : Z :=
  match x with
  | S754_finite sign m e => ((if sign then -1 else 1) * Zpos m * 2 ^ (e + 1074))%Z
  | _ => 0%Z
  end.
Definition ieee_lt (x y : f64) : Prop :=
  match x, y with
  | S754_nan, _ | _, S754_nan => False
  | S754_infinity true, S754_infinity true => False
  | S754_infinity true, _ => True
  | S754_infinity false, _ => False
  | _, S754_infinity negative => negative = false
  | _, _ => (scaled x < scaled y)%Z
  end.
Definition ieee_eq (x y : f64) : Prop :=
  match x, y with
  | S754_nan, _ | _, S754_nan => False
  | S754_infinity s, S754_infinity s' => s = s'
  | S754_infinity _, _ | _, S754_infinity _ => False
  | _, _ => scaled x = scaled y
  end.
(** A float that can be stored in 64 bits. *)
Definition f64_ok (x : f64) : Prop := valid_binary prec64 emax64 x = true.
