(** Properties C17-C19: integer arithmetic, comparison operators, value equality. *)
From Verif.Spec Require Import ArithSpec EqualSpec.
From Verif.Proofs Require Import ArithP CompareP EqualP.

(** C17.  [binary_does dbg o x y k]: executing operator [o] on [x] and [y], in a debug or release build,
    on any stack and in any state of the runtime, does [k]. *)
Theorem C17_exact_when_representable : forall dbg o a b z, math o a b = Some z -> i64 z ->
  binary_does dbg o (VInt a) (VInt b) (Gives (VInt z)).
Proof. exact arith_exact. Qed.
Print Assumptions C17_exact_when_representable.
Example C17_exact_nonvacuous :
  math OpMultiply (-3037000500) 3037000499 = Some (-9223372033963249500)%Z /\ i64 (-9223372033963249500).
Proof. split; [reflexivity|]. unfold i64. lia. Qed.

Theorem C17_overflow_panics_in_debug : forall o a b z, math o a b = Some z -> ~ i64 z ->
  binary_does true o (VInt a) (VInt b) Panics.
Proof. exact arith_overflow_debug. Qed.
Print Assumptions C17_overflow_panics_in_debug.
Example C17_overflow_nonvacuous : math OpAdd (2 ^ 63 - 1) 1 = Some (2 ^ 63)%Z /\ ~ i64 (2 ^ 63).
Proof. split; [reflexivity|]. unfold i64. lia. Qed.

(** In release builds the result is the representable number congruent to the exact one modulo 2^64. *)
Theorem C17_overflow_wraps_in_release : forall o a b z, math o a b = Some z -> ~ i64 z ->
  exists z', i64 z' /\ (exists k, z' = z + k * 2 ^ 64)%Z /\
    binary_does false o (VInt a) (VInt b) (Gives (VInt z')).
Proof. exact arith_overflow_release. Qed.
Print Assumptions C17_overflow_wraps_in_release.

Theorem C17_division : forall a b, b <> 0%Z -> (a <> - 2 ^ 63 \/ b <> -1)%Z -> forall dbg, exists q r,
  binary_does dbg OpDivide (VInt a) (VInt b) (Gives (VInt q)) /\
  binary_does dbg OpRemainder (VInt a) (VInt b) (Gives (VInt r)) /\
  (a = b * q + r)%Z /\ (Z.abs r < Z.abs b)%Z /\ (0 <= a * r)%Z /\ (Z.abs (b * q) <= Z.abs a)%Z /\
  (i64 a -> i64 b -> i64 q /\ i64 r).
Proof. exact division_spec. Qed.
Print Assumptions C17_division.
Example C17_division_nonvacuous : (-7)%Z = (2 * -3 + -1)%Z /\ (0 <= -7 * -1)%Z /\ (-7 <> - 2 ^ 63 \/ 2 <> -1)%Z.
Proof. lia. Qed.

Theorem C17_zero_divisor : forall dbg a,
  binary_does dbg OpDivide (VInt a) (VInt 0) (Fails DIVIDE_BY_ZERO) /\
  binary_does dbg OpRemainder (VInt a) (VInt 0) (Fails DIVIDE_BY_ZERO).
Proof. exact divide_by_zero. Qed.
Print Assumptions C17_zero_divisor.

Theorem C17_negate : forall dbg a, i64 (- a) -> unary_does dbg OpNegate (VInt a) (Gives (VInt (- a))).
Proof. exact negate_exact. Qed.
Print Assumptions C17_negate.

Theorem C17_negate_overflow :
  unary_does true OpNegate (VInt (- 2 ^ 63)) Panics /\
  unary_does false OpNegate (VInt (- 2 ^ 63)) (Gives (VInt (- 2 ^ 63))).
Proof. exact negate_overflow. Qed.
Print Assumptions C17_negate_overflow.

(** "Never a panic" is false of division by -1: the smallest integer divided by -1 panics in every build. *)
Theorem C17_division_never_panics_refuted : forall dbg,
  binary_does dbg OpDivide (VInt (- 2 ^ 63)) (VInt (-1)) Panics /\
  binary_does dbg OpRemainder (VInt (- 2 ^ 63)) (VInt (-1)) Panics.
Proof. exact division_overflow. Qed.
Print Assumptions C17_division_never_panics_refuted.

(** C18.  [coherent x y lt eq gt]: the six comparison operators on [x] and [y] answer according to
    [lt], [eq], [gt]. *)
Theorem C18_ints : forall a b, coherent (VInt a) (VInt b) (a < b)%Z (a = b)%Z (b < a)%Z.
Proof. exact ints_coherent. Qed.
Print Assumptions C18_ints.
Theorem C18_bools : forall a b,
  coherent (VBool a) (VBool b) (a = false /\ b = true) (a = b) (a = true /\ b = false).
Proof. exact bools_coherent. Qed.
Print Assumptions C18_bools.
Theorem C18_floats : forall x y, f64_ok x -> f64_ok y ->
  coherent (VFloat x) (VFloat y) (ieee_lt x y) (ieee_eq x y) (ieee_lt y x).
Proof. exact floats_coherent. Qed.
Print Assumptions C18_floats.
Theorem C18_floats_trichotomy : forall x y, f64_ok x -> f64_ok y -> x <> S754_nan -> y <> S754_nan ->
  exactly_one (ieee_lt x y) (ieee_eq x y) (ieee_lt y x).
Proof. exact floats_trichotomy. Qed.
Print Assumptions C18_floats_trichotomy.
Theorem C18_nan : forall x, ~ ieee_lt S754_nan x /\ ~ ieee_eq S754_nan x /\ ~ ieee_lt x S754_nan.
Proof. exact nan_unordered. Qed.
Print Assumptions C18_nan.
(** 1.5 and 2.0 are 64-bit floats, and 1.5 < 2.0. *)
Example C18_nonvacuous :
  let x := S754_finite false 6755399441055744 (-52) in
  let y := S754_finite false 4503599627370496 (-51) in
  f64_ok x /\ f64_ok y /\ ieee_lt x y.
Proof. cbv zeta. unfold f64_ok. repeat split. Qed.

(** C19. *)
Theorem C19_symmetric : forall h a b, equal h a b -> equal h b a.
Proof. exact equal_sym. Qed.
Print Assumptions C19_symmetric.
Theorem C19_transitive : forall h a b c, equal h a b -> equal h b c -> equal h a c.
Proof. exact equal_trans. Qed.
Print Assumptions C19_transitive.
Theorem C19_same_kind : forall h a b, equal h a b -> kind a = kind b.
Proof. exact equal_kind. Qed.
Print Assumptions C19_same_kind.
Theorem C19_reflexive_exactly_on_comparable : forall h v, equal h v v <-> comparable h v.
Proof. exact equal_refl. Qed.
Print Assumptions C19_reflexive_exactly_on_comparable.
(** Two different arrays [1, "a"] are equal; [1, NaN] is not equal to itself. *)
Example C19_nonvacuous :
  let h := hset_arrays [MkArray [VInt 1; VString "a"] 0 0; MkArray [VInt 1; VString "a"] 0 0; MkArray [VInt 1; VFloat S754_nan] 0 0] heap_empty in
  equal h (VArray 0) (VArray 1) /\ ~ equal h (VArray 2) (VArray 2).
Proof.
  cbv zeta. split.
  - exists 5. vm_compute. reflexivity.
  - intros H. apply equal_refl in H. inversion H as [| | | | | | |a ar E A| | | |]; subst. cbn in E. injection E as <-.
    specialize (A (VFloat S754_nan) (or_intror (or_introl eq_refl))). inversion A. congruence.
Qed.
