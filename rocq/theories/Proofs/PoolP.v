From Verif.Model Require Import Assembler.
From Verif.Spec Require Import ConstPool.
From Verif.Proofs Require Import AssemblerP.

Lemma SFcompare_eq x y : SFcompare x y = Some Eq ->
  x = y \/ (exists s s', x = S754_zero s /\ y = S754_zero s').
Proof.
  destruct x as [s|s| |s m e], y as [s'|s'| |s' m' e']; cbn; try discriminate; eauto 6;
    try (destruct s; discriminate); try (destruct s'; discriminate).
  - destruct s, s'; try discriminate; auto.
  - destruct s, s'; try discriminate.
    + destruct (Z.compare_spec e e'); try discriminate. subst.
      change (Pcompare m m' Eq) with (m ?= m')%positive.
      destruct (Pos.compare_spec m m'); try discriminate. subst; auto.
    + destruct (Z.compare_spec e e'); try discriminate. subst.
      change (Pcompare m m' Eq) with (m ?= m')%positive.
      destruct (Pos.compare_spec m m'); try discriminate. subst; auto.
Qed.

Lemma SFeqb_eq x y : SFeqb x y = true -> x = y \/ (exists s s', x = S754_zero s /\ y = S754_zero s').
Proof.
  unfold SFeqb. destruct (SFcompare x y) as [[]|] eqn:E; try discriminate. intros _. now apply SFcompare_eq.
Qed.

Lemma SFeqb_cong_r x y z : SFeqb x y = true -> SFeqb z x = SFeqb z y.
Proof.
  intros H. apply SFeqb_eq in H as [->|(s & s' & -> & ->)]; [reflexivity|].
  unfold SFeqb. destruct z as [| | |[] ? ?]; reflexivity.
Qed.

Lemma SFeqb_refl_l x y : SFeqb x y = true -> SFeqb x x = true.
Proof.
  intros H. unfold SFeqb, SFcompare in *. destruct x as [s|s| |s m e]; auto.
  - destruct s; reflexivity.
  - destruct s; rewrite Z.compare_refl; change (Pcompare m m Eq) with (m ?= m)%positive; rewrite Pos.compare_refl; reflexivity.
Qed.

Lemma SFeqb_sym x y : SFeqb x y = true -> SFeqb y x = true.
Proof.
  intros H. pose proof (SFeqb_cong_r _ _ y H) as E.
  pose proof (SFeqb_eq _ _ H) as [->|(s & s' & -> & ->)]; [assumption|reflexivity].
Qed.

Lemma const_eqb_cong_r a b x : const_eqb a b = true -> const_eqb x a = const_eqb x b.
Proof.
  destruct a, b; cbn [const_eqb]; try discriminate; intros H; destruct x; cbn [const_eqb]; auto.
  - apply Z.eqb_eq in H; now subst.
  - unfold f64_eqb in *. now apply SFeqb_cong_r.
  - apply String.eqb_eq in H; now subst.
  - apply String.eqb_eq in H; now subst.
  - apply Nat.eqb_eq in H. now rewrite H.
Qed.

Lemma const_eqb_refl_l a b : const_eqb a b = true -> const_eqb a a = true.
Proof.
  destruct a, b; cbn [const_eqb]; try discriminate; intros H;
    auto using Z.eqb_refl, String.eqb_refl, Nat.eqb_refl.
  unfold f64_eqb in *. eapply SFeqb_refl_l; eauto.
Qed.

Lemma const_eqb_sym a b : const_eqb a b = true -> const_eqb b a = true.
Proof.
  destruct a, b; cbn [const_eqb]; try discriminate; intros H;
    rewrite ?Z.eqb_eq, ?String.eqb_eq, ?Nat.eqb_eq in *; auto.
  now apply SFeqb_sym.
Qed.

Lemma const_eqb_trans a b c : const_eqb a b = true -> const_eqb b c = true -> const_eqb a c = true.
Proof. intros H1 H2. now rewrite <- (const_eqb_cong_r b c a H2). Qed.

Lemma position_ext {A} (p q : A -> bool) l : (forall x, p x = q x) -> position p l = position q l.
Proof. intros H. induction l as [|x l IH]; cbn [position]; [reflexivity|]. now rewrite H, IH. Qed.

Lemma history_extends a h a' : pool_history a h a' -> exists r, asm_consts a' = asm_consts a ++ r.
Proof.
  induction 1 as [a|a h a1 a2 _ [r IH] E|a h a1 c i a2 _ [r IH] M].
  - exists []. now rewrite app_nil_r.
  - exists r. congruence.
  - apply make_constant_extends in M as [r' E]. exists (r ++ r'). rewrite E, IH. now rewrite app_assoc.
Qed.

Lemma history_index a h a' : pool_history a h a' -> forall c i, In (c, i) h ->
  i <= 255 /\ exists c', nth_error (asm_consts a') i = Some c' /\ (c' = c \/ const_eqb c' c = true).
Proof.
  induction 1 as [a|a h a1 a2 _ IH E|a h a1 c0 i0 a2 _ IH M]; intros c i Hin.
  - contradiction.
  - rewrite E. now apply IH.
  - apply in_app_or in Hin as [Hin|[[= <- <-]|[]]].
    + apply IH in Hin as (Hi & c' & Hn & Hc). split; [assumption|]. exists c'. split; [|assumption].
      apply make_constant_extends in M as [r ->].
      rewrite nth_error_app1; [assumption|]. apply nth_error_Some. congruence.
    + split; [now apply make_constant_inv in M|]. now apply make_constant_entry in M.
Qed.

(** Once [c] was added with index [i], the first equal entry stays at [i]. *)
Lemma history_first a h a' : pool_history a h a' -> forall c i, In (c, i) h -> const_eqb c c = true ->
  position (fun x => const_eqb x c) (asm_consts a') = Some i.
Proof.
  induction 1 as [a|a h a1 a2 _ IH E|a h a1 c0 i0 a2 _ IH M]; intros c i Hin Hr.
  - contradiction.
  - rewrite E. now apply IH.
  - apply in_app_or in Hin as [Hin|[[= <- <-]|[]]].
    + apply make_constant_extends in M as [r ->]. apply position_app_some. now apply IH.
    + apply make_constant_inv in M as (_ & _ & [[Hp ->]|(Hp & -> & ->)]); [assumption|].
      clear - Hp Hr. induction (asm_consts a1) as [|x l IHl]; cbn [position app List.length].
      * now rewrite Hr.
      * cbn [position] in Hp. destruct (const_eqb x c0); [discriminate|].
        destruct (position _ l); [discriminate|]. now rewrite IHl.
Qed.

Lemma history_share a h a' c1 i1 c2 i2 : pool_history a h a' ->
  In (c1, i1) h -> In (c2, i2) h -> const_eqb c1 c2 = true -> i1 = i2.
Proof.
  intros H H1 H2 E.
  assert (R1 := const_eqb_refl_l _ _ E). assert (R2 := const_eqb_refl_l _ _ (const_eqb_sym _ _ E)).
  apply (history_first _ _ _ H _ _ H1) in R1. apply (history_first _ _ _ H _ _ H2) in R2.
  rewrite (position_ext _ (fun x => const_eqb x c2)) in R1 by (intros; now apply const_eqb_cong_r).
  congruence.
Qed.

Lemma history_bound a h a' : pool_history a h a' -> List.length (asm_consts a) <= 256 ->
  List.length (asm_consts a') <= 256.
Proof.
  induction 1 as [a|a h a1 a2 _ IH E|a h a1 c0 i0 a2 _ IH M]; intros H0.
  - assumption.
  - rewrite E; auto.
  - apply make_constant_inv in M as (_ & Hi & [[_ ->]|(_ & -> & ->)]); auto.
    rewrite app_length. cbn. lia.
Qed.

Lemma make_constant_result c a : List.length (asm_consts a) <= 256 ->
  (exists i a', make_constant c a = Ok (i, a')) \/ make_constant c a = Err TOO_MANY_CONSTANTS.
Proof.
  intros _. unfold make_constant. destruct (position _ _); destruct (255 <? _); eauto.
Qed.

Lemma make_constant_error c a : List.length (asm_consts a) <= 256 ->
  forall e, make_constant c a = Err e <->
  (e = TOO_MANY_CONSTANTS /\ List.length (asm_consts a) = 256 /\ Forall (fun x => const_eqb x c = false) (asm_consts a)).
Proof.
  intros Hl e. unfold make_constant. destruct (position _ _) as [p|] eqn:E.
  - pose proof (position_lt _ _ _ E). destruct (Nat.ltb_spec 255 p); [lia|]. split; [discriminate|].
    intros (_ & _ & F). apply position_none_iff in F. congruence.
  - apply position_none_iff in E. cbn [asm_consts]. rewrite app_length. cbn [List.length].
    destruct (Nat.ltb_spec 255 (List.length (asm_consts a) + 1 - 1)).
    + split; [intros [= <-]; repeat split; auto; lia|]. intros (-> & _); reflexivity.
    + split; [discriminate|]. lia.
Qed.

(** Adding constants no two of which are equal uses one entry each. *)
Lemma history_distinct h a' : pool_history asm_new h a' ->
  (forall k1 k2 c1 i1 c2 i2, k1 <> k2 -> nth_error h k1 = Some (c1, i1) -> nth_error h k2 = Some (c2, i2) ->
     const_eqb c1 c2 = false) ->
  map fst h = asm_consts a'.
Proof.
  remember asm_new as a0. intros H. revert Heqa0.
  induction H as [a|a h a1 a2 H IH E|a h a1 c0 i0 a2 H IH M]; intros -> D.
  - reflexivity.
  - rewrite E; auto.
  - assert (IH' : map fst h = asm_consts a1).
    { apply IH; [reflexivity|]. intros k1 k2 c1 i1 c2 i2 Hk H1 H2. apply (D k1 k2 c1 i1 c2 i2 Hk).
      - rewrite nth_error_app1; [assumption|]. apply nth_error_Some. congruence.
      - rewrite nth_error_app1; [assumption|]. apply nth_error_Some. congruence. }
    apply make_constant_inv in M as (_ & _ & [[Hp Ha]|(_ & _ & ->)]).
    + exfalso. apply position_spec in Hp as (x & Hx & Hp). rewrite <- IH' in Hx.
      rewrite nth_error_map in Hx. destruct (nth_error h i0) as [[c1 i1]|] eqn:En; [|discriminate].
      cbn in Hx. injection Hx as <-.
      assert (const_eqb c1 c0 = false); [|congruence].
      assert (i0 < List.length h) by (apply nth_error_Some; congruence).
      eapply (D i0 (List.length h)).
      * lia.
      * rewrite nth_error_app1; [exact En|lia].
      * rewrite nth_error_app2, Nat.sub_diag by lia. reflexivity.
    + rewrite map_app, IH'. reflexivity.
Qed.
