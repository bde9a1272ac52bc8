(** Lemmas for the comparison property. *)
From Verif.Proofs Require Export ArithP.

Lemma compares_builtin o x y c : is_binary o ->
  (forall dbg, builtin_binary dbg o x y = Some (Ok (VBool c))) -> compares o x y c.
Proof. intros Ho H dbg. apply binary_does_builtin; [assumption|]. apply H. Qed.

Ltac cmp := apply compares_builtin; [isb|reflexivity].

Lemma ints_coherent a b : coherent (VInt a) (VInt b) (a < b)%Z (a = b)%Z (b < a)%Z.
Proof.
  exists (a <? b)%Z, (a =? b)%Z, (b <? a)%Z, (a <=? b)%Z, (b <=? a)%Z, (negb (a =? b)%Z).
  repeat split; try cmp; lia.
Qed.

Lemma bools_coherent a b :
  coherent (VBool a) (VBool b) (a = false /\ b = true) (a = b) (a = true /\ b = false).
Proof.
  exists (bool_lt a b), (Bool.eqb a b), (bool_gt a b), (bool_le a b), (bool_ge a b), (negb (Bool.eqb a b)).
  do 6 (split; [cmp|]).
  destruct a, b; cbn; repeat split; intros; try discriminate; try tauto; intuition discriminate.
Qed.

(** Floats. *)
Lemma digits_bounds m : (2 ^ (Zpos (digits2_pos m) - 1) <= Zpos m < 2 ^ Zpos (digits2_pos m))%Z.
Proof.
  induction m as [m IH|m IH|]; cbn [digits2_pos].
  - rewrite Pos2Z.inj_succ. replace (Z.succ (Zpos (digits2_pos m)) - 1)%Z with (Z.succ (Zpos (digits2_pos m) - 1))%Z by lia.
    rewrite !Z.pow_succ_r by lia. rewrite (Pos2Z.inj_xI m). lia.
  - rewrite Pos2Z.inj_succ. replace (Z.succ (Zpos (digits2_pos m)) - 1)%Z with (Z.succ (Zpos (digits2_pos m) - 1))%Z by lia.
    rewrite !Z.pow_succ_r by lia. rewrite (Pos2Z.inj_xO m). lia.
  - cbn. lia.
Qed.

Lemma ok_finite s m e : f64_ok (S754_finite s m e) ->
  (-1074 <= e)%Z /\ (Zpos m < 2 ^ 53)%Z /\ (e = -1074 \/ 2 ^ 52 <= Zpos m)%Z.
Proof.
  unfold f64_ok. cbn [valid_binary]. unfold bounded, canonical_mantissa. intros H.
  apply andb_prop in H as [H _]. apply Zeq_bool_eq in H. unfold fexp, emin, prec64, emax64 in H.
  pose proof (digits_bounds m) as [D1 D2].
  set (d := Zpos (digits2_pos m)) in *.
  assert (d <= 53)%Z by lia.
  assert (2 ^ d <= 2 ^ 53)%Z by (apply Z.pow_le_mono_r; lia).
  repeat split; try lia.
  destruct (Z.eq_dec e (-1074)) as [|N]; [now left|right].
  assert (d = 53)%Z by lia. rewrite H2 in D1. exact D1.
Qed.

Lemma scaled_exp_lt m1 e1 m2 e2 : (-1074 <= e1)%Z -> (e1 < e2)%Z -> (Zpos m1 < 2 ^ 53)%Z -> (2 ^ 52 <= Zpos m2)%Z ->
  (Zpos m1 * 2 ^ (e1 + 1074) < Zpos m2 * 2 ^ (e2 + 1074))%Z.
Proof.
  intros He Hl H1 H2. set (k := (e1 + 1074)%Z).
  assert (E : (2 ^ (e2 + 1074) = 2 ^ (e2 - e1) * 2 ^ k)%Z).
  { rewrite <- Z.pow_add_r by (unfold k; lia). f_equal. unfold k. lia. }
  rewrite E, Z.mul_assoc. apply Z.mul_lt_mono_pos_r; [apply Z.pow_pos_nonneg; unfold k; lia|].
  assert (2 ^ 1 <= 2 ^ (e2 - e1))%Z by (apply Z.pow_le_mono_r; lia).
  change (2 ^ 1)%Z with 2%Z in *.
  assert (2 ^ 52 * 2 <= Zpos m2 * 2 ^ (e2 - e1))%Z by (apply Z.mul_le_mono_nonneg; lia).
  lia.
Qed.

(** Comparing magnitudes. *)
Lemma magnitude_cmp m1 e1 m2 e2 s1 s2 :
  f64_ok (S754_finite s1 m1 e1) -> f64_ok (S754_finite s2 m2 e2) ->
  match Z.compare e1 e2 with Lt => Lt | Gt => Gt | Eq => Pcompare m1 m2 Eq end
  = Z.compare (Zpos m1 * 2 ^ (e1 + 1074)) (Zpos m2 * 2 ^ (e2 + 1074)).
Proof.
  intros O1 O2. apply ok_finite in O1 as (A1 & B1 & C1), O2 as (A2 & B2 & C2).
  destruct (Z.compare_spec e1 e2) as [->|H|H].
  - assert (P : (0 < 2 ^ (e2 + 1074))%Z) by (apply Z.pow_pos_nonneg; lia).
    change (Pos.compare_cont Eq m1 m2) with (Z.compare (Zpos m1) (Zpos m2)).
    destruct (Z.compare_spec (Zpos m1) (Zpos m2)) as [E|L|L]; symmetry.
    + rewrite E. apply Z.compare_refl.
    + apply Z.compare_lt_iff. now apply Z.mul_lt_mono_pos_r.
    + apply Z.compare_gt_iff. now apply Z.mul_lt_mono_pos_r.
  - symmetry. apply Z.compare_lt_iff. apply scaled_exp_lt; lia.
  - symmetry. apply Z.compare_gt_iff. apply scaled_exp_lt; lia.
Qed.

Lemma scaled_pos m e : (-1074 <= e)%Z -> (0 < Zpos m * 2 ^ (e + 1074))%Z.
Proof. intros. apply Z.mul_pos_pos; [lia|]. apply Z.pow_pos_nonneg; lia. Qed.

(** SFcompare is the IEEE order. *)
Lemma SFcompare_spec x y : f64_ok x -> f64_ok y ->
  match SFcompare x y with
  | Some Lt => ieee_lt x y /\ ~ ieee_eq x y /\ ~ ieee_lt y x
  | Some Eq => ~ ieee_lt x y /\ ieee_eq x y /\ ~ ieee_lt y x
  | Some Gt => ~ ieee_lt x y /\ ~ ieee_eq x y /\ ieee_lt y x
  | None => ~ ieee_lt x y /\ ~ ieee_eq x y /\ ~ ieee_lt y x
  end.
Proof.
  intros Hx Hy.
  destruct x as [sx|sx| |sx mx ex], y as [sy|sy| |sy my ey]; cbn [SFcompare ieee_lt ieee_eq scaled];
    try (destruct sx); try (destruct sy); cbn [ieee_lt ieee_eq scaled];
    try (repeat split; intuition (try discriminate; lia)).
  all: try (pose proof (ok_finite _ _ _ Hx) as (X & _)); try (pose proof (ok_finite _ _ _ Hy) as (Y & _)).
  all: try (pose proof (scaled_pos mx ex X) as PX); try (pose proof (scaled_pos my ey Y) as PY).
  all: try (repeat split; lia).
  - rewrite <- (Z.compare_antisym ex ey) || idtac.
    pose proof (magnitude_cmp _ _ _ _ _ _ Hx Hy) as M.
    destruct (ex ?= ey)%Z; try (destruct (Pos.compare_cont Eq mx my)); cbn [CompOpp];
      symmetry in M; rewrite ?Z.compare_lt_iff, ?Z.compare_gt_iff, ?Z.compare_eq_iff in M; repeat split; lia.
  - pose proof (magnitude_cmp _ _ _ _ _ _ Hx Hy) as M.
    destruct (ex ?= ey)%Z; try (destruct (Pos.compare_cont Eq mx my)); cbn [CompOpp];
      symmetry in M; rewrite ?Z.compare_lt_iff, ?Z.compare_gt_iff, ?Z.compare_eq_iff in M; repeat split; lia.
Qed.

Lemma SFcompare_swap x y : SFcompare y x = option_map CompOpp (SFcompare x y).
Proof.
  destruct x as [sx|sx| |sx mx ex], y as [sy|sy| |sy my ey]; cbn [SFcompare option_map];
    try (destruct sx); try (destruct sy); try reflexivity;
    pose proof (Pos.compare_cont_antisym mx my Eq) as A; cbn [CompOpp] in A;
    rewrite (Z.compare_antisym ex ey), <- A;
    destruct (ex ?= ey)%Z; cbn [CompOpp option_map]; try reflexivity;
    destruct (Pos.compare_cont Eq mx my); reflexivity.
Qed.

Lemma floats_coherent x y : f64_ok x -> f64_ok y ->
  coherent (VFloat x) (VFloat y) (ieee_lt x y) (ieee_eq x y) (ieee_lt y x).
Proof.
  intros Hx Hy. pose proof (SFcompare_spec x y Hx Hy) as S. pose proof (SFcompare_swap x y) as W.
  exists (f64_ltb x y), (f64_eqb x y), (f64_ltb y x), (f64_leb x y), (f64_leb y x), (negb (f64_eqb x y)).
  do 6 (split; [cmp|]).
  unfold f64_ltb, f64_eqb, f64_leb, SFltb, SFeqb, SFleb. rewrite W.
  destruct (SFcompare x y) as [[]|]; cbn; intuition discriminate.
Qed.

Lemma floats_trichotomy x y : f64_ok x -> f64_ok y -> x <> S754_nan -> y <> S754_nan ->
  exactly_one (ieee_lt x y) (ieee_eq x y) (ieee_lt y x).
Proof.
  intros Hx Hy Nx Ny. pose proof (SFcompare_spec x y Hx Hy) as S. unfold exactly_one.
  destruct (SFcompare x y) as [[]|] eqn:E; try tauto.
  exfalso. destruct x as [sx|sx| |sx mx ex], y as [sy|sy| |sy my ey]; try congruence; cbn in E;
    try (destruct sx); try (destruct sy); try discriminate; destruct (ex ?= ey)%Z; discriminate.
Qed.

Lemma nan_unordered x : ~ ieee_lt S754_nan x /\ ~ ieee_eq S754_nan x /\ ~ ieee_lt x S754_nan.
Proof. destruct x as [[]|[]| |[] m e]; cbn; tauto. Qed.
