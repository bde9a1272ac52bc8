(** f64 arithmetic as used by the interpreter, on Coq's specification floats.
    Rust's f64 is IEEE binary64 with round-to-nearest-even; NaN payloads are not modelled. *)
From Verif.Model Require Export Bytecode.

Definition f64_zero : f64 := S754_zero false.
Definition f64_one : f64 := S754_finite false 4503599627370496 (-52).

(** The operators *lhs op= rhs of interpreter/mod.rs:257, 273, 299, 353 and unary minus, line 245. *)
Definition f64_mul (a b : f64) : f64 := SFmul prec64 emax64 a b.
Definition f64_div (a b : f64) : f64 := SFdiv prec64 emax64 a b.
Definition f64_add (a b : f64) : f64 := SFadd prec64 emax64 a b.
Definition f64_sub (a b : f64) : f64 := SFsub prec64 emax64 a b.
Definition f64_opp (a : f64) : f64 := SFopp a.

(** Rust's float %, interpreter/mod.rs:289: C's fmod.  x - y*trunc(x/y), computed exactly, with the
    sign of x; NaN for an infinite x or a zero y; x itself for an infinite y or a zero x. *)
Definition f64_rem (x y : f64) : f64 :=
  match x, y with
  | S754_nan, _ | _, S754_nan => S754_nan
  | S754_infinity _, _ => S754_nan
  | _, S754_zero _ => S754_nan
  | S754_zero _, _ => x
  | S754_finite _ _ _, S754_infinity _ => x
  | S754_finite sx mx ex, S754_finite _ my ey =>
      let e := Z.min ex ey in
      let a := (Zpos mx * 2 ^ (ex - e))%Z in
      let b := (Zpos my * 2 ^ (ey - e))%Z in
      let r := (a mod b)%Z in
      if (r =? 0)%Z then S754_zero sx
      else binary_normalize prec64 emax64 (if sx then (- r)%Z else r) e sx
  end.

(** >, >=, <, <= of interpreter/mod.rs:310, 321, 332, 343. *)
Definition f64_ltb (a b : f64) : bool := SFltb a b.
Definition f64_leb (a b : f64) : bool := SFleb a b.
