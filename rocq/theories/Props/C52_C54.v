(** Properties C52-C54: methods of every value, of Int and of Float. *)
From Verif.Spec Require Import HostSpec NamesSpec.
From Verif.Proofs Require Import FloatP MethodP FlowSampleP HostSampleP NamesP DefinitionSampleP.
#[local] Open Scope string_scope.
#[local] Open Scope list_scope.
#[local] Open Scope nat_scope.

(** * C52: reflection
    [lists w n v s names]: the call answers a new array of exactly these names.  v.fields() are the names of the fields
    of [v] ... *)
Theorem C52_fields : forall w v o s, reachable w s -> live (vm_heap s) v -> carrier (vm_heap s) v = Some o ->
  lists w NFields v s (fun x => own_field (vm_heap s) v x <> None).
Proof. exact fields_listed. Qed.
Print Assumptions C52_fields.
(** ... null for values that cannot have fields. *)
Theorem C52_no_fields : forall w v s, carrier (vm_heap s) v = None -> match v with VArray _ | VClass _ => False | _ => True end ->
  replies w NFields v [] s VNull.
Proof. exact no_fields_listed. Qed.
Print Assumptions C52_no_fields.
Theorem C52_methods : forall w v c s, reachable w s -> live (vm_heap s) v -> class_or_any s v c ->
  lists w NMethods v s (fun x => method (vm_heap s) c x <> None).
Proof. exact methods_listed. Qed.
Print Assumptions C52_methods.
Theorem C52_class_of : forall w v c s, reachable w s -> live (vm_heap s) v -> class_or_any s v c -> replies w NClassOf v [] s (VClass c).
Proof. exact class_reply. Qed.
Print Assumptions C52_class_of.
Theorem C52_class : forall w c k s, nth_error (h_classes (vm_heap s)) c = Some k ->
  replies w NClassName (VClass c) [] s (VString (cl_name k)) /\
  replies w NClassBase (VClass c) [] s (match base_of (vm_heap s) c with Some b => VClass b | None => VNull end).
Proof. exact class_facts. Qed.
Print Assumptions C52_class.
(** The methods of values of the built-in classes: each name of the list in NamesSpec.v means the method given there,
    in every reachable state, unless the value has a field of this name or the method has been redefined
    (C26_no_other_change says what that takes). *)
Theorem C52_standard_methods : forall w s v c name n, reachable w s -> live (vm_heap s) v -> standard_method (kind v) name n ->
  own_field (vm_heap s) v name = None -> has_class s v c -> not_redefined c name s ->
  get_field name v s = ROk (VFnBound v (VFnNative n)) s.
Proof. exact standard_found. Qed.
Print Assumptions C52_standard_methods.
Example C52_standard_nonvacuous : reachable sample_world new_vm /\ live (vm_heap new_vm) (VInt 1) /\ standard_method (kind (VInt 1)) "abs" NIntAbs /\
  own_field (vm_heap new_vm) (VInt 1) "abs" = None /\ has_class new_vm (VInt 1) 7 /\ not_redefined 7 "abs" new_vm.
Proof. exact abs_sample. Qed.
(** The names of these methods and of those below; a script using them; a value with a class and fields. *)
Example C52_nonvacuous :
  map (fun p => value_of (get_field (snd (fst p)) (fst (fst p)) new_vm)) methods_named =
    map (fun p => Some (VFnBound (fst (fst p)) (VFnNative (snd p)))) methods_named /\
  (reachable sample_world new_vm /\ live (vm_heap new_vm) (VClass 7) /\ (exists o, carrier (vm_heap new_vm) (VClass 7) = Some o) /\
   own_field (vm_heap new_vm) (VClass 7) "MAX" = Some (VInt (2 ^ 63 - 1)) /\ class_or_any new_vm (VClass 7) 4 /\ class_or_any new_vm VNull 0) /\
  value_of (run_of sample_world nested) = Some (VString "Object<Point> { x: 1, y: [null, true, a], }[x, y]Pointnull[to_string, fields, methods, class_of, new]").
Proof. exact (conj methods_named_ok (conj int_class_facts nested_ok)). Qed.

(** * C53: methods of Int
    [computes w n x args s z]: answers [z] if it has 64 bits; otherwise panics in a debug build and answers [z] modulo 2^64
    in a release build. *)
Theorem C53_abs : forall w z s, computes w NIntAbs (VInt z) [] s (Z.abs z).
Proof. exact int_abs. Qed.
Print Assumptions C53_abs.
Theorem C53_pow : forall w z e s, (0 <= e < 2 ^ 32)%Z -> computes w NIntPow (VInt z) [VInt e] s (z ^ e).
Proof. exact int_power_small. Qed.
Print Assumptions C53_pow.
(** A negative exponent is not refused: it is taken modulo 2^32. *)
Theorem C53_negative_exponent_refuted : forall w z e s, (- 2 ^ 32 <= e < 0)%Z -> computes w NIntPow (VInt z) [VInt e] s (z ^ (2 ^ 32 + e)).
Proof. exact int_power_negative. Qed.
Print Assumptions C53_negative_exponent_refuted.
Theorem C53_min_max : forall w a b s,
  replies w NIntMin (VInt a) [VInt b] s (VInt (Z.min a b)) /\ replies w NIntMax (VInt a) [VInt b] s (VInt (Z.max a b)).
Proof. exact int_order. Qed.
Print Assumptions C53_min_max.
Theorem C53_signs : forall w a s, exists p n,
  replies w NIntIsPositive (VInt a) [] s (VBool p) /\ replies w NIntIsNegative (VInt a) [] s (VBool n) /\
  (p = true <-> 0 < a)%Z /\ (n = true <-> a < 0)%Z.
Proof. exact int_signs. Qed.
Print Assumptions C53_signs.
Example C53_nonvacuous :
  value_of (run_of sample_world int_methods) = Some (VString "[3, 1024, -9223372036854775808, 2, 3, false, true]") /\
  panics (run_of sample_world smallest_abs) = true /\ value_of (run_of release_world smallest_abs) = Some (VInt (- 2 ^ 63)).
Proof. exact (conj int_methods_ok smallest_abs_ok). Qed.

(** * C54: methods of Float
    [is_number x]: not NaN and not infinite.  floor, ceil and round answer the integer that their name says. *)
Theorem C54_floor : forall w x s, is_number x -> exists y z, replies w (NFloatFn FFloor) (VFloat x) [] s (VFloat y) /\ floor_of x z /\ equals_int y z.
Proof. exact float_floor. Qed.
Print Assumptions C54_floor.
Theorem C54_ceil : forall w x s, is_number x -> exists y z, replies w (NFloatFn FCeil) (VFloat x) [] s (VFloat y) /\ ceiling_of x z /\ equals_int y z.
Proof. exact float_ceil. Qed.
Print Assumptions C54_ceil.
Theorem C54_round : forall w x s, is_number x -> exists y z, replies w (NFloatFn FRound) (VFloat x) [] s (VFloat y) /\ nearest_of x z /\ equals_int y z.
Proof. exact float_round. Qed.
Print Assumptions C54_round.
Theorem C54_round_other : forall w x s f, In f [FFloor; FCeil; FRound] -> match x with S754_nan | S754_infinity _ => True | _ => False end ->
  replies w (NFloatFn f) (VFloat x) [] s (VFloat x).
Proof. exact float_round_other. Qed.
Print Assumptions C54_round_other.
Theorem C54_abs : forall w x s, f64_ok x -> exists y, replies w (NFloatFn FAbs) (VFloat x) [] s (VFloat y) /\ f64_ok y /\
  (is_number x -> is_number y /\ scaled y = Z.abs (scaled x)) /\ (x = S754_nan -> y = S754_nan) /\ (forall b, x = S754_infinity b -> y = S754_infinity false).
Proof. exact float_abs. Qed.
Print Assumptions C54_abs.
(** The smaller and the greater of two; NaN only if both are. *)
Theorem C54_min : forall w x y s, f64_ok x -> f64_ok y -> exists z, replies w (NFloatFn FMin) (VFloat x) [VFloat y] s (VFloat z) /\
  (x = S754_nan -> z = y) /\ (y = S754_nan -> z = x) /\ (z = x \/ z = y) /\ ~ ieee_lt x z /\ ~ ieee_lt y z.
Proof. exact float_min. Qed.
Print Assumptions C54_min.
Theorem C54_max : forall w x y s, f64_ok x -> f64_ok y -> exists z, replies w (NFloatFn FMax) (VFloat x) [VFloat y] s (VFloat z) /\
  (x = S754_nan -> z = y) /\ (y = S754_nan -> z = x) /\ (z = x \/ z = y) /\ ~ ieee_lt z x /\ ~ ieee_lt z y.
Proof. exact float_max. Qed.
Print Assumptions C54_max.
Theorem C54_kinds : forall w x s, f64_ok x -> exists finite infinite nan normal,
  replies w (NFloatFn FIsFinite) (VFloat x) [] s (VBool finite) /\ replies w (NFloatFn FIsInfinite) (VFloat x) [] s (VBool infinite) /\
  replies w (NFloatFn FIsNan) (VFloat x) [] s (VBool nan) /\ replies w (NFloatFn FIsNormal) (VFloat x) [] s (VBool normal) /\
  (finite = true <-> is_number x) /\ (infinite = true <-> exists b, x = S754_infinity b) /\ (nan = true <-> x = S754_nan) /\
  (normal = true <-> is_number x /\ (2 ^ 52 <= Z.abs (scaled x))%Z).
Proof. exact float_kinds. Qed.
Print Assumptions C54_kinds.
Example C54_nonvacuous : is_number two_and_half /\ (floor_of two_and_half 2 /\ ceiling_of two_and_half 3 /\ nearest_of two_and_half 3 /\ whole_part two_and_half 2) /\
  value_of (run_of sample_world float_methods) = Some (VString "[2, 3, 3, 3, 3, false, true]").
Proof. exact (conj two_and_half_number (conj two_and_half_between float_methods_ok)). Qed.
