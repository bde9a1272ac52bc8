(** Properties C49-C51: texts of values and conversions. *)
From Verif.Spec Require Import HostSpec.
From Verif.Proofs Require Import HeapInvP HostFnP FloatP MethodP TextP FlowSampleP HostSampleP.
#[local] Open Scope string_scope.
#[local] Open Scope list_scope.
#[local] Open Scope nat_scope.

(** * C49: integers and texts
    [converts w n x s v]: calling a class whose constructor is [n] with [x] answers [v], adds one object and changes
    nothing else.  String(z) and z.to_string() are the integer written in the usual way. *)
Theorem C49_text_of_int : forall w z s, exists t, usual t z /\
  converts w NStringNew (VInt z) s (VString t) /\ replies w NToString (VInt z) [] s (VString t).
Proof. exact text_of_int. Qed.
Print Assumptions C49_text_of_int.
(** Int(t) for a sign and digits, leading zeros included ... *)
Theorem C49_int_of_text : forall w t z s, signed t z -> i64 z -> converts w NIntNew (VString t) s (VInt z).
Proof. intros w t z s H R. apply int_of_text; [exact H|now apply i64_in]. Qed.
Print Assumptions C49_int_of_text.
(** ... and null for every other text, or when the number has more than 64 bits. *)
Theorem C49_no_int_of_text : forall w t s, (forall z, signed t z -> ~ i64 z) -> converts w NIntNew (VString t) s VNull.
Proof. intros w t s H. apply no_int_of_text. intros z S. specialize (H z S). destruct (in_i64 z) eqn:E; [apply i64_in in E; contradiction|reflexivity]. Qed.
Print Assumptions C49_no_int_of_text.
(** Int(String(z)) == z. *)
Theorem C49_round_trip : forall w z s s', i64 z -> exists t, converts w NStringNew (VInt z) s (VString t) /\ converts w NIntNew (VString t) s' (VInt z).
Proof. intros w z s s' R. apply int_round_trip. now apply i64_in. Qed.
Print Assumptions C49_round_trip.
Example C49_nonvacuous : usual "-70" (-70) /\ signed "+07" 7 /\ (forall z, ~ signed "-" z) /\
  map (fun name => match assoc_get name (vm_globals new_vm) with
    | Some (VClass c) => method (vm_heap new_vm) c "new" | _ => None end) ["String"; "Int"; "Float"] =
    [Some (VFnNative NStringNew); Some (VFnNative NIntNew); Some (VFnNative NFloatNew)] /\
  value_of (run_of sample_world integers) = Some (VString "[-9223372036854775808, null, 5, null, null, null, -70]").
Proof. exact (conj usual_sample (conj signed_sample (conj unsigned_sample (conj classes_named_ok integers_ok)))). Qed.

(** * C50: Int and Float
    Int(x) is [x] without what comes after the point, limited to 64 bits. *)
Theorem C50_float_to_int : forall w x s, is_number x -> exists z, whole_part x z /\ converts w NIntNew (VFloat x) s (VInt (clamp z)).
Proof. exact float_to_int. Qed.
Print Assumptions C50_float_to_int.
Theorem C50_other_to_int : forall w s, converts w NIntNew (VFloat S754_nan) s (VInt 0) /\
  converts w NIntNew (VFloat (S754_infinity false)) s (VInt (2 ^ 63 - 1)) /\ converts w NIntNew (VFloat (S754_infinity true)) s (VInt (- 2 ^ 63)).
Proof. exact other_to_int. Qed.
Print Assumptions C50_other_to_int.
(** Float(z) is exactly [z] up to 2^53, so that Int(Float(z)) == z ... *)
Theorem C50_int_to_float : forall w z s, (Z.abs z <= 2 ^ 53)%Z -> exists x, equals_int x z /\ converts w NFloatNew (VInt z) s (VFloat x).
Proof. exact int_to_float. Qed.
Print Assumptions C50_int_to_float.
Theorem C50_round_trip : forall w z s s', (Z.abs z <= 2 ^ 53)%Z -> exists x, converts w NFloatNew (VInt z) s (VFloat x) /\ converts w NIntNew (VFloat x) s' (VInt z).
Proof. exact int_float_int. Qed.
Print Assumptions C50_round_trip.
(** ... but not beyond: Int(Float(2^53 + 1)) is 2^53. *)
Theorem C50_round_trip_refuted : forall w s s', exists x,
  converts w NFloatNew (VInt (2 ^ 53 + 1)) s (VFloat x) /\ converts w NIntNew (VFloat x) s' (VInt (2 ^ 53)).
Proof. exact int_float_int_lost. Qed.
Print Assumptions C50_round_trip_refuted.
Example C50_nonvacuous : is_number two_and_half /\ whole_part two_and_half 2 /\
  value_of (run_of sample_world conversions) = Some (VString "[2, -2, 0, 9223372036854775807, 9007199254740992, 9007199254740992, -8]").
Proof. exact (conj two_and_half_number (conj (proj2 (proj2 (proj2 two_and_half_between))) conversions_ok)). Qed.

(** * C51: texts of values
    [shows w h v t]: the text of [v] is [t].  v.to_string() and String(v) answer it. *)
Theorem C51_to_string : forall w v t s, shows w (vm_heap s) v t -> replies w NToString v [] s (VString t).
Proof. exact to_string_replies. Qed.
Print Assumptions C51_to_string.
Theorem C51_string : forall w v t s, shows w (vm_heap s) v t -> converts w NStringNew v s (VString t).
Proof. exact string_converts. Qed.
Print Assumptions C51_string.
Theorem C51_one_text : forall w h v t t', shows w h v t -> shows w h v t' -> t = t'.
Proof. exact shows_one. Qed.
Print Assumptions C51_one_text.
(** Values whose parts exist have a text unless something in them contains itself. *)
Theorem C51_has_text : forall w v s, reachable w s -> (forall u, within (vm_heap s) v u -> live (vm_heap s) u) ->
  (forall u, within (vm_heap s) v u -> ~ contains (vm_heap s) u u) -> exists t, shows w (vm_heap s) v t.
Proof. intros w v s R. exact (has_text w (vm_heap s) (reachable_inv w s R) v). Qed.
Print Assumptions C51_has_text.
(** Every value has a text: false of arrays and objects that contain themselves; asking for it overflows the stack. *)
Theorem C51_has_text_refuted : forall w v s, contains (vm_heap s) v v ->
  (forall t, ~ shows w (vm_heap s) v t) /\ call_panics w NToString v [] s.
Proof. intros w v s H. split; [exact (cyclic_no_text w (vm_heap s) v H)|exact (cyclic_to_string w v s H)]. Qed.
Print Assumptions C51_has_text_refuted.
Example C51_nonvacuous : contains (vm_heap loop_vm) (VArray 0) (VArray 0) /\
  ((forall u, within (vm_heap flat_vm) (VArray 0) u -> live (vm_heap flat_vm) u) /\
   (forall u, within (vm_heap flat_vm) (VArray 0) u -> ~ contains (vm_heap flat_vm) u u)) /\
  value_of (run_of sample_world nested) = Some (VString "Object<Point> { x: 1, y: [null, true, a], }[x, y]Pointnull[to_string, fields, methods, class_of, new]") /\
  panics (run_of sample_world cyclic) = true.
Proof. exact (conj loop_contains (conj flat_facts (conj nested_ok cyclic_panics))). Qed.
