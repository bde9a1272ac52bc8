(** Texts of values and conversions between Int, Float and String, as the native constructors and methods of
    classes/any.rs, classes/int.rs, classes/float.rs and classes/string.rs use them. *)
From Coq Require Import Ascii DecimalString.
From Verif.Model Require Export Value.

(** Display for i64 (Rust's standard library), value.rs:191: decimal digits after an optional minus sign. *)
Definition i64_text (z : Z) : string := NilZero.string_of_int (Z.to_int z).

(** str::parse::<i64> (Rust's standard library), classes/int.rs:48: an optional sign and at least one decimal
    digit; each step of the accumulation is checked for overflow. *)
Definition text_digit (c : Ascii.ascii) : option Z :=
  let n := Z.of_N (Ascii.N_of_ascii c) in if ((48 <=? n) && (n <=? 57))%Z then Some (n - 48)%Z else None.
Fixpoint text_digits (negative : bool) (acc : Z) (s : string) : option Z :=
  match s with
  | EmptyString => Some acc
  | String c r =>
      match text_digit c with
      | None => None
      | Some d =>
          let m := (acc * 10)%Z in
          let x := (if negative then m - d else m + d)%Z in
          if in_i64 m && in_i64 x then text_digits negative x r else None
      end
  end.
Definition i64_of_text (s : string) : option Z :=
  match s with
  | EmptyString => None
  | String c r =>
      if Ascii.eqb c "-"%char then match r with EmptyString => None | _ => text_digits true 0 r end
      else if Ascii.eqb c "+"%char then match r with EmptyString => None | _ => text_digits false 0 r end
      else text_digits false 0 s
  end.

(** [value as i64], classes/int.rs:47: toward zero, saturating, 0 for NaN. *)
Definition f64_to_i64 (f : f64) : Z :=
  match f with
  | S754_nan | S754_zero _ => 0%Z
  | S754_infinity s => if s then i64_min else i64_max
  | S754_finite s m e =>
      let a := (if 0 <=? e then Zpos m * 2 ^ e else Zpos m / 2 ^ (- e))%Z in
      let z := (if s then - a else a)%Z in
      if (z <? i64_min)%Z then i64_min else if (i64_max <? z)%Z then i64_max else z
  end.
(** [value as f64], classes/float.rs:73: the nearest f64, ties to even. *)
Definition f64_of_i64 (z : Z) : f64 := binary_normalize prec64 emax64 z 0 false.

(** The float methods that can be computed exactly, classes/float.rs:19-24, 45-53: f64::abs, floor, ceil,
    round (half away from zero), sqrt, min, max (a NaN operand is ignored; which zero is the smaller is
    not specified) and the classifications. *)
Definition f64_whole (s : bool) (a : Z) : f64 :=
  if (a =? 0)%Z then S754_zero s else binary_normalize prec64 emax64 (if s then - a else a)%Z 0 s.
Definition f64_integral (round : bool -> Z -> Z -> Z) (f : f64) : f64 :=
  match f with
  | S754_finite s m e => if (0 <=? e)%Z then f else f64_whole s (round s (Zpos m) (2 ^ (- e))%Z)
  | _ => f
  end.
Definition up_if (b : bool) (n d : Z) : Z := (n / d + (if b && negb (n mod d =? 0)%Z then 1 else 0))%Z.
Definition f64_floor : f64 -> f64 := f64_integral up_if.
Definition f64_ceil : f64 -> f64 := f64_integral (fun s => up_if (negb s)).
Definition f64_round : f64 -> f64 := f64_integral (fun _ n d => ((2 * n + d) / (2 * d))%Z).
Definition f64_min (a b : f64) : f64 :=
  match a, b with S754_nan, _ => b | _, S754_nan => a | _, _ => if f64_ltb b a then b else a end.
Definition f64_max (a b : f64) : f64 :=
  match a, b with S754_nan, _ => b | _, S754_nan => a | _, _ => if f64_ltb a b then b else a end.
Definition f64_is_normal (f : f64) : bool :=
  match f with S754_finite _ m _ => (Zpos (digits2_pos m) =? prec64)%Z | _ => false end.

Definition float_call (f : float_fn) (args : list value) : value :=
  match f, args with
  | FAbs, VFloat x :: _ => VFloat (SFabs x)
  | FSqrt, VFloat x :: _ => VFloat (SFsqrt prec64 emax64 x)
  | FFloor, VFloat x :: _ => VFloat (f64_floor x)
  | FCeil, VFloat x :: _ => VFloat (f64_ceil x)
  | FRound, VFloat x :: _ => VFloat (f64_round x)
  | FMin, VFloat x :: VFloat y :: _ => VFloat (f64_min x y)
  | FMax, VFloat x :: VFloat y :: _ => VFloat (f64_max x y)
  | FIsFinite, VFloat x :: _ => VBool (match x with S754_zero _ | S754_finite _ _ _ => true | _ => false end)
  | FIsInfinite, VFloat x :: _ => VBool (match x with S754_infinity _ => true | _ => false end)
  | FIsNan, VFloat x :: _ => VBool (match x with S754_nan => true | _ => false end)
  | FIsNormal, VFloat x :: _ => VBool (f64_is_normal x)
  | _, _ => VNull
  end.

(** Display for Value and its parts: value.rs:185-204, array.rs:49-62, object.rs:84-98 (also for classes, through
    Deref, class.rs:132-138), fn_script.rs, fn_closure.rs, fn_native.rs, fn_bound.rs (commented text).
    [closure_name]: the name of the function of a closure; [float_text]: Display for f64, external.
    [nested] displays the values inside arrays and objects. *)
Fixpoint texts (f : value -> outcome string) (vs : list value) : outcome (list string) :=
  match vs with
  | [] => Ok []
  | v :: r => obind (f v) (fun t => omap (fun ts => t :: ts) (texts f r))
  end.
Fixpoint join (ts : list string) : string :=
  match ts with
  | [] => ""
  | [t] => t
  | t :: r => t ++ ", " ++ join r
  end%string.
Fixpoint field_texts (f : value -> outcome string) (m : value_map) : outcome string :=
  match m with
  | [] => Ok ""%string
  | (k, v) :: r => obind (f v) (fun t => omap (fun ts => (k ++ ": " ++ t ++ ", " ++ ts)%string) (field_texts f r))
  end.
Definition object_map (o : nat) (h : heap) : outcome value_map :=
  match nth_error (h_objects h) o with
  | Some ob => match nth_error (h_fields h) (ob_fields ob) with Some m => Ok m | None => Panic end
  | None => Panic
  end.

Section Display.
Variable closure_name : nat -> outcome string.
Variable float_text : f64 -> string.
Variable h : heap.

Definition object_text (nested : value -> outcome string) (o : nat) : outcome string :=
  obind (object_class o h) (fun c =>
  obind (match c with
         | Some c => omap (fun k => ("<" ++ cl_name k ++ ">")%string) (class_get c h)
         | None => Ok ""%string
         end) (fun class =>
  obind (object_map o h) (fun m =>
  omap (fun fields => ("Object" ++ class ++ " { " ++ fields ++ "}")%string) (field_texts nested m)))).
Fixpoint text_with (nested : value -> outcome string) (v : value) : outcome string :=
  match v with
  | VNull => Ok "null"%string
  | VUnit => Ok "Unit"%string
  | VBool b => Ok (if b then "true" else "false")%string
  | VInt z => Ok (i64_text z)
  | VFloat f => Ok (float_text f)
  | VFnScript f => Ok (fn_name f)
  | VFnClosure a => omap (fun n => ("closure{" ++ n ++ "}")%string) (closure_name a)
  | VFnNative _ => Ok "native_fn"%string
  | VFnBound _ f => omap (fun t => ("FnBound{" ++ t ++ "}")%string) (text_with nested f)
  | VArray a =>
      obind (array_elements a h) (fun vs => omap (fun ts => ("[" ++ join ts ++ "]")%string) (texts nested vs))
  | VString s | VSymbol s => Ok s
  | VObject o => object_text nested o
  | VClass c => obind (class_get c h) (fun k => object_text nested (cl_object k))
  end.
(** Arrays and objects inside one another more often than there are of them: the value contains itself and
    the recursion overflows the native stack.  (Deep nesting without a cycle may overflow it too; that is not
    modelled.) *)
Fixpoint text_at (depth : nat) (v : value) : outcome string :=
  match depth with
  | O => text_with (fun _ => Panic) v
  | S n => text_with (text_at n) v
  end.
Definition value_text : value -> outcome string := text_at (List.length (h_arrays h) + List.length (h_objects h)).
End Display.
