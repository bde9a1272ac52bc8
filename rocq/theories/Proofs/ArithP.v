(** Lemmas for the arithmetic and comparison properties. *)
From Verif.Spec Require Export ArithSpec.
From Verif.Proofs Require Export VmPrimP.

Ltac fit := unfold fits in *; cbn [List.length] in *; lia.

(** The built-in case of a binary operator. *)
Lemma binary_builtin w r o x y k below temps s :
  builtin_binary (w_dbg w) o x y = Some k -> fits below temps 2 ->
  binary w r o (with_stack below (y :: x :: temps) s)
  = match k with
    | Ok v => ROk tt (with_stack below (v :: temps) s)
    | Err e => RErr e (with_stack below (x :: temps) s)
    | Panic => RPanic
    | NoFuel => RNoFuel
    end.
Proof.
  intros E F. unfold binary, rbind at 1. rewrite pop_ws by fit.
  unfold rbind at 1. rewrite (peek_ws 0 below (x :: temps) x) by reflexivity.
  rewrite E. unfold rbind. destruct k as [v|e| |]; cbn [lift]; try reflexivity.
  rewrite poke_ws by fit. reflexivity.
Qed.

Definition is_binary (o : opcode) : Prop :=
  In o [OpMultiply; OpDivide; OpRemainder; OpAdd; OpSubtract; OpGreaterThan; OpGreaterThanOrEqual;
        OpLessThan; OpLessThanOrEqual; OpEqual; OpNotEqual].

Lemma step_binary w r bc fr ups o p s : is_binary o ->
  step w r bc fr ups (INone o) p s = (binary w r o >>> rret (Continue p)) s.
Proof. intros H. unfold is_binary in H. cbn in H. repeat destruct H as [<-|H]; try reflexivity; contradiction. Qed.

Lemma binary_does_builtin dbg o x y k : is_binary o ->
  builtin_binary dbg o x y = Some (match k with Gives v => Ok v | Fails e => Err e | Panics => Panic end) ->
  binary_does dbg o x y k.
Proof.
  intros Ho E w r bc fr ups p below temps s <- F. rewrite step_binary by assumption.
  unfold rbind. rewrite (binary_builtin w r o x y _ below temps s E F).
  destruct k; reflexivity.
Qed.

Ltac isb := unfold is_binary; cbn; tauto.

Lemma int_result_in dbg z : i64 z -> int_result dbg z = Ok z.
Proof. intros H. unfold int_result, in_i64, i64_min, i64_max, i64 in *. destruct (_ && _)%bool eqn:E; [reflexivity|lia]. Qed.
Lemma int_result_out dbg z : ~ i64 z -> int_result dbg z = if dbg then Panic else Ok (i64_wrap z).
Proof. intros H. unfold int_result, in_i64, i64_min, i64_max, i64 in *. destruct (_ && _)%bool eqn:E; [lia|reflexivity]. Qed.
Lemma i64_wrap_spec z : i64 (i64_wrap z) /\ exists k, i64_wrap z = (z + k * 2 ^ 64)%Z.
Proof.
  unfold i64, i64_wrap. pose proof (Z.mod_pos_bound (z + 2 ^ 63) (2 ^ 64)). split; [lia|].
  exists (- ((z + 2 ^ 63) / 2 ^ 64))%Z. pose proof (Z.div_mod (z + 2 ^ 63) (2 ^ 64)). lia.
Qed.

Lemma arith_exact dbg o a b z : math o a b = Some z -> i64 z ->
  binary_does dbg o (VInt a) (VInt b) (Gives (VInt z)).
Proof.
  intros E H. destruct o; try discriminate; cbn [math] in E; injection E as <-;
    (apply binary_does_builtin; [isb|]; cbn [builtin_binary]; rewrite int_result_in by assumption; reflexivity).
Qed.

Lemma arith_overflow_debug o a b z : math o a b = Some z -> ~ i64 z ->
  binary_does true o (VInt a) (VInt b) Panics.
Proof.
  intros E H. destruct o; try discriminate; cbn [math] in E; injection E as <-;
    (apply binary_does_builtin; [isb|]; cbn [builtin_binary]; rewrite int_result_out by assumption; reflexivity).
Qed.

Lemma arith_overflow_release o a b z : math o a b = Some z -> ~ i64 z ->
  exists z', i64 z' /\ (exists k, z' = z + k * 2 ^ 64)%Z /\
    binary_does false o (VInt a) (VInt b) (Gives (VInt z')).
Proof.
  intros E H. destruct (i64_wrap_spec z) as [H1 H2]. exists (i64_wrap z). repeat split; try apply H1; try exact H2.
  destruct o; try discriminate; cbn [math] in E; injection E as <-;
    (apply binary_does_builtin; [isb|]; cbn [builtin_binary]; rewrite int_result_out by assumption; reflexivity).
Qed.

Lemma unary_negate dbg x k :
  match x with VInt z => omap VInt (int_result dbg (- z)%Z)
             | VFloat f => Ok (VFloat (f64_opp f)) | _ => Err TYPE_ASSERTION_NUMBER_FAILURE end
  = match k with Gives v => Ok v | Fails e => Err e | Panics => Panic end ->
  unary_does dbg OpNegate x k.
Proof.
  intros E w r bc fr ups p below temps s <- F. cbn [step]. unfold rbind.
  rewrite (peek_ws 0 below (x :: temps) x) by reflexivity.
  destruct x; cbn [omap] in E;
    try (destruct k; try discriminate; injection E as <-; reflexivity).
  - destruct (int_result (w_dbg w) (- z)) as [i|e| |] eqn:Ei; cbn [omap lift] in *;
      destruct k; try discriminate; try reflexivity.
    + injection E as <-. rewrite poke_ws by fit. reflexivity.
    + now injection E as <-.
  - destruct k; try discriminate. injection E as <-. rewrite poke_ws by fit. reflexivity.
Qed.

Lemma division_spec a b : b <> 0%Z -> (a <> - 2 ^ 63 \/ b <> -1)%Z -> forall dbg, exists q r,
  binary_does dbg OpDivide (VInt a) (VInt b) (Gives (VInt q)) /\
  binary_does dbg OpRemainder (VInt a) (VInt b) (Gives (VInt r)) /\
  (a = b * q + r)%Z /\ (Z.abs r < Z.abs b)%Z /\ (0 <= a * r)%Z /\ (Z.abs (b * q) <= Z.abs a)%Z /\ (i64 a -> i64 b -> i64 q /\ i64 r).
Proof.
  intros Hb Ho dbg. exists (Z.quot a b), (Z.rem a b).
  assert (Ec : (b =? 0)%Z = false) by lia.
  assert (Ed : ((a =? i64_min)%Z && (b =? -1)%Z)%bool = false) by (unfold i64_min; lia).
  assert (Q : (a = b * Z.quot a b + Z.rem a b)%Z) by (apply Z.quot_rem'; lia).
  assert (R : (Z.abs (Z.rem a b) < Z.abs b)%Z) by (apply Z.rem_bound_abs; lia).
  assert (S : (0 <= a * Z.rem a b)%Z) by (rewrite Z.mul_comm; apply Z.rem_sign_mul; lia).
  assert (T : (Z.abs (b * Z.quot a b) <= Z.abs a)%Z).
  { destruct (Z.le_ge_cases 0 a) as [Ha|Ha].
    - pose proof (Z.mul_quot_le a b Ha Hb) as K. clear - K Ha. lia.
    - pose proof (Z.mul_quot_ge a b Ha Hb) as K. clear - K Ha. lia. }
  assert (I : i64 a -> i64 b -> i64 (Z.quot a b) /\ i64 (Z.rem a b)).
  { unfold i64. intros Ia Ib. split; [|clear - R Ib; lia].
    destruct (Z.eq_dec b 1) as [->|N1]; [rewrite Z.quot_1_r; exact Ia|].
    destruct (Z.eq_dec b (-1)) as [->|N2].
    - replace (Z.quot a (-1)) with (- a)%Z; [clear - Ia Ho; lia|]. change (-1)%Z with (- (1))%Z. rewrite Z.quot_opp_r, Z.quot_1_r by discriminate. reflexivity.
    - rewrite Z.abs_mul in T. assert (2 * Z.abs (Z.quot a b) <= Z.abs b * Z.abs (Z.quot a b))%Z by (apply Z.mul_le_mono_nonneg_r; lia).
      clear - T H Ia. lia. }
  repeat split; try assumption.
  - apply binary_does_builtin; [isb|]. cbn [builtin_binary]. unfold int_div. rewrite Ec, Ed. reflexivity.
  - apply binary_does_builtin; [isb|]. cbn [builtin_binary]. unfold int_rem. rewrite Ec, Ed. reflexivity.
  - apply I; assumption.
  - apply I; assumption.
  - apply I; assumption.
  - apply I; assumption.
Qed.

Lemma divide_by_zero dbg a :
  binary_does dbg OpDivide (VInt a) (VInt 0) (Fails DIVIDE_BY_ZERO) /\
  binary_does dbg OpRemainder (VInt a) (VInt 0) (Fails DIVIDE_BY_ZERO).
Proof. split; (apply binary_does_builtin; [isb|reflexivity]). Qed.

Lemma division_overflow dbg :
  binary_does dbg OpDivide (VInt (- 2 ^ 63)) (VInt (-1)) Panics /\
  binary_does dbg OpRemainder (VInt (- 2 ^ 63)) (VInt (-1)) Panics.
Proof. split; (apply binary_does_builtin; [isb|reflexivity]). Qed.

Lemma negate_exact dbg a : i64 (- a) -> unary_does dbg OpNegate (VInt a) (Gives (VInt (- a))).
Proof. intros H. apply unary_negate. rewrite int_result_in by assumption. reflexivity. Qed.
Lemma negate_overflow :
  unary_does true OpNegate (VInt (- 2 ^ 63)) Panics /\
  unary_does false OpNegate (VInt (- 2 ^ 63)) (Gives (VInt (- 2 ^ 63))).
Proof. split; apply unary_negate; reflexivity. Qed.
