(** Vocabulary for the functions of the runtime: texts of values, conversions, methods of numbers. *)
From Coq Require Import Ascii.
From Verif.Spec Require Export ArraySpec CallSpec ArithSpec.
#[local] Open Scope string_scope.
#[local] Open Scope list_scope.
#[local] Open Scope nat_scope.

(** A call of function [n] of the runtime as a method of [this]: it answers [v] and changes nothing. *)
Definition replies (w : world) (n : native) (this : value) (args : list value) (s : vm) (v : value) : Prop :=
  forall k below temps, fits below temps (S (List.length args)) -> answers w (S k) below temps (VFnBound this (VFnNative n)) args s v s.
(** It panics. *)
Definition call_panics (w : world) (n : native) (this : value) (args : list value) (s : vm) : Prop :=
  forall k below temps, fits below temps (S (List.length args)) ->
    r_call (machine w (S k)) (List.length args) (with_stack below (rev args ++ VFnBound this (VFnNative n) :: temps) s) = RPanic.
(** Calling a class whose constructor is function [n] of the runtime, with argument [x]: it answers [v]; one
    object more exists afterwards, and nothing else has changed. *)
Definition converts (w : world) (n : native) (x : value) (s : vm) (v : value) : Prop :=
  forall k below temps c, fits below temps 2 -> method (vm_heap s) c "new" = Some (VFnNative n) ->
  exists o s', one_more_object s c o s' /\ answers w (S (S k)) below temps (VClass c) [x] s v s'.

(** A call whose result is the integer [z] in mathematics.  If [z] has more than 64 bits the call panics in a debug
    build, and answers the integer of 64 bits that is congruent to [z] in a release build. *)
Definition computes (w : world) (n : native) (this : value) (args : list value) (s : vm) (z : Z) : Prop :=
  (i64 z -> replies w n this args s (VInt z)) /\
  (~ i64 z -> w_dbg w = true -> call_panics w n this args s) /\
  (~ i64 z -> w_dbg w = false -> exists r, i64 r /\ (exists k, r = z + k * 2 ^ 64)%Z /\ replies w n this args s (VInt r)).
(** A call that answers a new array of strings, the [names], in some order, and changes nothing else. *)
Definition lists (w : world) (n : native) (this : value) (s : vm) (names : string -> Prop) : Prop :=
  exists ns, (forall x, In x ns <-> names x) /\
  forall k below temps, fits below temps 1 -> exists v s',
    answers w (S k) below temps (VFnBound this (VFnNative n)) [] s v s' /\ new_array_of (map VString ns) s v s'.

(** The class of a value; Any for a value that has none (null, an object without class). *)
Definition class_or_any (s : vm) (v : value) (c : nat) : Prop := has_class s v c \/ (forall d, ~ has_class s v d) /\ c = vm_any s.

(** ** Decimal numbers *)
Inductive digit : ascii -> Z -> Prop :=
| dg c n : N_of_ascii c = (48 + n)%N -> (n <= 9)%N -> digit c (Z.of_N n).
(** One digit or more, with its value. *)
Inductive numeral : string -> Z -> Prop :=
| nm_one c d : digit c d -> numeral (String c "") d
| nm_more t n c d : numeral t n -> digit c d -> numeral (t ++ String c "")%string (10 * n + d)%Z.
(** An optional sign and a number. *)
Inductive signed : string -> Z -> Prop :=
| sg_none t n : numeral t n -> signed t n
| sg_plus t n : numeral t n -> signed (String "+" t) n
| sg_minus t n : numeral t n -> signed (String "-" t) (- n)%Z.
(** The usual way to write a number: no plus sign, no superfluous zeros. *)
Definition usual (t : string) (z : Z) : Prop :=
  exists ds, numeral ds (Z.abs z) /\ (ds = "0" \/ forall r, ds <> String "0" r) /\ t = (if (z <? 0)%Z then String "-" ds else ds).

(** ** Floats as numbers
    [scaled x] (ArithSpec.v) is the finite float [x] as a multiple of the smallest positive float; one is
    2^1074 of these. *)
Definition one : Z := (2 ^ 1074)%Z.
Definition is_number (x : f64) : Prop := f64_ok x /\ match x with S754_zero _ | S754_finite _ _ _ => True | _ => False end.
(** Float [x] is the integer [z]. *)
Definition equals_int (x : f64) (z : Z) : Prop := is_number x /\ scaled x = (z * one)%Z.
(** [z] limited to the range of integers. *)
Definition clamp (z : Z) : Z := Z.max i64_min (Z.min i64_max z).
(** The integers next to [x]: the greatest below, the least above, the nearest (halves away from zero). *)
Definition floor_of (x : f64) (z : Z) : Prop := (z * one <= scaled x < (z + 1) * one)%Z.
Definition ceiling_of (x : f64) (z : Z) : Prop := ((z - 1) * one < scaled x <= z * one)%Z.
Definition nearest_of (x : f64) (z : Z) : Prop :=
  (0 <= scaled x -> (2 * z - 1) * one <= 2 * scaled x < (2 * z + 1) * one)%Z /\
  (scaled x <= 0 -> (2 * z - 1) * one < 2 * scaled x <= (2 * z + 1) * one)%Z.
(** Without what comes after the point. *)
Definition whole_part (x : f64) (z : Z) : Prop :=
  (0 <= scaled x -> floor_of x z)%Z /\ (scaled x <= 0 -> ceiling_of x z)%Z.

(** ** Texts of values *)
Definition field_text (name text : string) : string := (name ++ ": " ++ text ++ ", ")%string.
Definition object_line (label : string) (names texts : list string) : string :=
  ("Object" ++ label ++ " { " ++ String.concat "" (map (fun p => field_text (fst p) (snd p)) (combine names texts)) ++ "}")%string.
Definition label_of (h : heap) (class : option nat) (label : string) : Prop :=
  match class with
  | None => label = ""
  | Some c => exists k, nth_error (h_classes h) c = Some k /\ label = ("<" ++ cl_name k ++ ">")%string
  end.
(** [shows h v t]: the text of value [v] is [t].  A value that contains itself has none.  The text of a float
    is that of the host language. *)
Inductive shows (w : world) (h : heap) : value -> string -> Prop :=
| sh_null : shows w h VNull "null"
| sh_unit : shows w h VUnit "Unit"
| sh_true : shows w h (VBool true) "true"
| sh_false : shows w h (VBool false) "false"
| sh_int z t : usual t z -> shows w h (VInt z) t
| sh_float x : shows w h (VFloat x) (float_text w x)
| sh_string t : shows w h (VString t) t
| sh_symbol t : shows w h (VSymbol t) t
| sh_function f : shows w h (VFnScript f) (fn_name f)
| sh_closure a c : nth_error (h_closures h) a = Some c -> shows w h (VFnClosure a) ("closure{" ++ fn_name (fc_script c) ++ "}")%string
| sh_native n : shows w h (VFnNative n) "native_fn"
| sh_bound r f t : shows w h f t -> shows w h (VFnBound r f) ("FnBound{" ++ t ++ "}")%string
| sh_array a vs ts : elements h a = Some vs -> Forall2 (shows w h) vs ts -> shows w h (VArray a) ("[" ++ String.concat ", " ts ++ "]")%string
| sh_object o ob label m ts :
    nth_error (h_objects h) o = Some ob -> label_of h (ob_class ob) label -> nth_error (h_fields h) (ob_fields ob) = Some m ->
    Forall2 (shows w h) (map snd m) ts -> shows w h (VObject o) (object_line label (map fst m) ts)
| sh_class c k t : nth_error (h_classes h) c = Some k -> shows w h (VObject (cl_object k)) t -> shows w h (VClass c) t.

(** [u] is directly inside [v]: an element of an array, or the value of a field. *)
Inductive holds (h : heap) : value -> value -> Prop :=
| ho_array a vs u : elements h a = Some vs -> In u vs -> holds h (VArray a) u
| ho_object o ob m name u :
    nth_error (h_objects h) o = Some ob -> nth_error (h_fields h) (ob_fields ob) = Some m -> In (name, u) m -> holds h (VObject o) u
| ho_class c k u : nth_error (h_classes h) c = Some k -> holds h (VObject (cl_object k)) u -> holds h (VClass c) u
| ho_bound r f u : holds h f u -> holds h (VFnBound r f) u.
Inductive contains (h : heap) : value -> value -> Prop :=
| co_one v u : holds h v u -> contains h v u
| co_more v x u : holds h v x -> contains h x u -> contains h v u.
(** [u] is [v], the function of a bound method [v], or somewhere inside these. *)
Inductive within (h : heap) : value -> value -> Prop :=
| wi_self v : within h v v
| wi_bound r f u : within h f u -> within h (VFnBound r f) u
| wi_held v x u : holds h v x -> within h x u -> within h v u.
