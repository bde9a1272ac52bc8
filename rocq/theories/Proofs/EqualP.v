(** Lemmas for the equality property. *)
From Verif.Spec Require Export EqualSpec.
From Verif.Proofs Require Import CompareP.

Lemma list_eqb_sym eq l : forall l',
  (forall a b, eq a b = eq b a) -> list_eqb_with eq l l' = list_eqb_with eq l' l.
Proof.
  induction l as [|x l IH]; intros [|y l'] H; cbn [list_eqb_with]; try reflexivity.
  rewrite H. destruct (eq y x) as [[]|e| |]; cbn [obind]; try reflexivity. now apply IH.
Qed.

Lemma SFeqb_sym x y : SFeqb x y = SFeqb y x.
Proof. unfold SFeqb. rewrite (SFcompare_swap x y). destruct (SFcompare x y) as [[]|]; reflexivity. Qed.

Lemma value_eqb_sym fuel h : forall a b, value_eqb fuel h a b = value_eqb fuel h b a.
Proof.
  induction fuel as [|fuel IH]; intros a b; [reflexivity|].
  destruct a, b; cbn [value_eqb]; try reflexivity.
  - f_equal. destruct b0, b; reflexivity.
  - f_equal. apply Z.eqb_sym.
  - f_equal. apply SFeqb_sym.
  - f_equal. apply Nat.eqb_sym.
  - unfold closure_eqb. destruct (nth_error (h_closures h) addr) as [x|], (nth_error (h_closures h) addr0) as [y|]; try reflexivity.
    f_equal. rewrite (Nat.eqb_sym (fn_id (fc_script x))), (Nat.eqb_sym addr). f_equal. f_equal. apply andb_comm.
  - destruct (nth_error (h_arrays h) addr) as [x|], (nth_error (h_arrays h) addr0) as [y|]; try reflexivity.
    rewrite (Nat.eqb_sym (List.length (ar_elements x))). rewrite (list_eqb_sym _ _ _ IH).
    destruct (Nat.eqb _ _); cbn [obind]; [|now rewrite Nat.eqb_sym].
    destruct (list_eqb_with _ _ _); cbn [obind]; try reflexivity. now rewrite (Nat.eqb_sym (ar_object x)).
  - f_equal. apply String.eqb_sym.
  - f_equal. apply String.eqb_sym.
  - f_equal. apply Nat.eqb_sym.
  - unfold class_eqb, class_get. destruct (nth_error (h_classes h) addr) as [x|], (nth_error (h_classes h) addr0) as [y|]; try reflexivity.
    cbn [obind]. rewrite String.eqb_sym, Nat.eqb_sym. reflexivity.
Qed.

Lemma list_eqb_mono (eq eq' : value -> value -> outcome bool) l : forall l' b,
  (forall x y b, eq x y = Ok b -> eq' x y = Ok b) ->
  list_eqb_with eq l l' = Ok b -> list_eqb_with eq' l l' = Ok b.
Proof.
  induction l as [|x l IH]; intros [|y l'] b H; cbn [list_eqb_with]; auto.
  destruct (eq x y) as [c|e| |] eqn:E; try discriminate. rewrite (H _ _ _ E). cbn [obind].
  destruct c; auto.
Qed.

Lemma value_eqb_mono h : forall n m a b c, n <= m -> value_eqb n h a b = Ok c -> value_eqb m h a b = Ok c.
Proof.
  induction n as [|n IH]; intros m a b c Hm E; [discriminate|]. destruct m as [|m]; [lia|].
  destruct a, b; cbn [value_eqb] in *; auto.
  destruct (nth_error (h_arrays h) addr) as [x|], (nth_error (h_arrays h) addr0) as [y|]; try discriminate.
  destruct (Nat.eqb _ _); cbn [obind] in *; [|assumption].
  destruct (list_eqb_with (value_eqb n h) _ _) as [d|e| |] eqn:E1; try discriminate.
  rewrite (list_eqb_mono (value_eqb n h) (value_eqb m h) _ _ d); [assumption| |assumption].
  intros x0 y0 b0 Hx. apply IH; [lia|assumption].
Qed.

Lemma SFeqb_trans x y z : SFeqb x y = true -> SFeqb y z = true -> SFeqb x z = true.
Proof.
  unfold SFeqb. destruct x as [sx|sx| |sx mx ex], y as [sy|sy| |sy my ey], z as [sz|sz| |sz mz ez]; cbn [SFcompare];
    try (destruct sx); try (destruct sy); try (destruct sz); try discriminate; try reflexivity; try (intros; discriminate).
  all: destruct (Z.compare_spec ex ey) as [->|?|?]; try discriminate; intros A.
  all: destruct (Z.compare_spec ey ez) as [->|?|?]; try discriminate; intros B.
  all: rewrite ?Z.compare_refl in *.
  all: destruct (Pos.compare_cont Eq mx my) eqn:E1; cbn in A; try discriminate.
  all: destruct (Pos.compare_cont Eq my mz) eqn:E2; cbn in B; try discriminate.
  all: apply Pos.compare_eq in E1, E2; subst; now rewrite Pos.compare_cont_refl.
Qed.

Lemma list_eqb_trans (eq : value -> value -> outcome bool) l : forall l' l'',
  (forall x y z, eq x y = Ok true -> eq y z = Ok true -> eq x z = Ok true) ->
  list_eqb_with eq l l' = Ok true -> list_eqb_with eq l' l'' = Ok true -> list_eqb_with eq l l'' = Ok true.
Proof.
  induction l as [|x l IH]; intros [|y l'] [|z l''] H; cbn [list_eqb_with]; try discriminate; auto.
  destruct (eq x y) as [[]|e| |] eqn:E1; try discriminate.
  destruct (eq y z) as [[]|e| |] eqn:E2; try discriminate.
  rewrite (H _ _ _ E1 E2). cbn [obind]. eauto.
Qed.

Lemma value_eqb_trans h : forall n a b c,
  value_eqb n h a b = Ok true -> value_eqb n h b c = Ok true -> value_eqb n h a c = Ok true.
Proof.
  induction n as [|n IH]; intros a b c; [discriminate|].
  destruct a, b; cbn [value_eqb]; try discriminate; destruct c; cbn [value_eqb]; try discriminate; auto.
  - destruct b0, b, b1; cbn; congruence.
  - intros A B. injection A as A. injection B as B. f_equal. lia.
  - intros A B. injection A as A. injection B as B. f_equal. eapply SFeqb_trans; eauto.
  - intros A B. injection A as A. injection B as B. f_equal. lia.
  - unfold closure_eqb.
    destruct (nth_error (h_closures h) addr) as [x|] eqn:Ex, (nth_error (h_closures h) addr0) as [y|] eqn:Ey; try discriminate.
    destruct (nth_error (h_closures h) addr1) as [z|] eqn:Ez; try discriminate.
    intros A B. injection A as A. injection B as B. f_equal.
    apply andb_prop in A as [A1 A2], B as [B1 B2]. apply Nat.eqb_eq in A1, B1.
    apply andb_true_intro. split; [apply Nat.eqb_eq; congruence|].
    apply orb_prop in A2, B2. apply orb_true_intro.
    rewrite !andb_true_iff, !Nat.eqb_eq in *.
    destruct A2 as [<-|A2]; [|destruct B2 as [<-|B2]].
    + rewrite Ex in Ey. injection Ey as <-. exact B2.
    + rewrite Ey in Ez. injection Ez as <-. tauto.
    + tauto.
  - destruct (nth_error (h_arrays h) addr) as [x|] eqn:Ex, (nth_error (h_arrays h) addr0) as [y|] eqn:Ey; try discriminate.
    destruct (nth_error (h_arrays h) addr1) as [z|] eqn:Ez; try discriminate.
    destruct (Nat.eqb_spec (List.length (ar_elements x)) (List.length (ar_elements y))) as [L1|L1]; [|discriminate].
    destruct (Nat.eqb_spec (List.length (ar_elements y)) (List.length (ar_elements z))) as [L2|L2]; [|discriminate].
    rewrite (proj2 (Nat.eqb_eq _ _) (eq_trans L1 L2)).
    destruct (list_eqb_with _ (ar_elements x) (ar_elements y)) as [[]|e| |] eqn:E1; try discriminate; cbn [obind andb].
    destruct (list_eqb_with _ (ar_elements y) (ar_elements z)) as [[]|e| |] eqn:E2; try discriminate; cbn [obind andb].
    rewrite (list_eqb_trans _ _ _ _ IH E1 E2). cbn [obind andb].
    intros A B. injection A as A. injection B as B. f_equal. lia.
  - intros A B. injection A as A. injection B as B. apply String.eqb_eq in A, B. subst. now rewrite String.eqb_refl.
  - intros A B. injection A as A. injection B as B. apply String.eqb_eq in A, B. subst. now rewrite String.eqb_refl.
  - intros A B. injection A as A. injection B as B. f_equal. lia.
  - unfold class_eqb, class_get.
    destruct (nth_error (h_classes h) addr) as [x|]; try discriminate; cbn [obind].
    destruct (nth_error (h_classes h) addr0) as [y|]; try discriminate; cbn [obind].
    destruct (nth_error (h_classes h) addr1) as [z|]; try discriminate; cbn [obind].
    intros A B. injection A as A. injection B as B. apply andb_prop in A as [A1 A2], B as [B1 B2].
    apply String.eqb_eq in A1, B1. apply Nat.eqb_eq in A2, B2. rewrite A1, B1, A2, B2.
    now rewrite String.eqb_refl, Nat.eqb_refl.
Qed.

Lemma equal_sym h a b : equal h a b -> equal h b a.
Proof. intros [n E]. exists n. now rewrite value_eqb_sym. Qed.
Lemma equal_trans h a b c : equal h a b -> equal h b c -> equal h a c.
Proof.
  intros [n A] [m B]. exists (Nat.max n m). apply value_eqb_trans with (b := b); [eapply value_eqb_mono; [|exact A]|eapply value_eqb_mono; [|exact B]]; lia.
Qed.
Lemma equal_kind h a b : equal h a b -> kind a = kind b.
Proof. intros [[|n] E]; [discriminate|]. destruct a, b; cbn in *; congruence. Qed.

Lemma SFeqb_refl x : SFeqb x x = true <-> x <> S754_nan.
Proof.
  unfold SFeqb. destruct x as [[]|[]| |[] m e]; cbn [SFcompare]; rewrite ?Z.compare_refl, ?Pos.compare_cont_refl; cbn;
    split; congruence.
Qed.

Lemma list_eqb_refl_all h l : (forall v, In v l -> exists n, value_eqb n h v v = Ok true) ->
  exists n, list_eqb_with (value_eqb n h) l l = Ok true.
Proof.
  induction l as [|x l IH]; intros H; [now exists 0|].
  destruct (H x (or_introl eq_refl)) as [n A]. destruct IH as [m B]; [intros; apply H; now right|].
  exists (Nat.max n m). cbn [list_eqb_with].
  rewrite (value_eqb_mono h n (Nat.max n m) x x true) by (auto; lia). cbn [obind].
  eapply list_eqb_mono; [|exact B]. intros. eapply value_eqb_mono; [|eassumption]. lia.
Qed.
Lemma list_eqb_refl_inv (eq : value -> value -> outcome bool) l :
  list_eqb_with eq l l = Ok true -> forall v, In v l -> eq v v = Ok true.
Proof.
  induction l as [|x l IH]; intros E v [].
  - subst. cbn [list_eqb_with] in E. destruct (eq v v) as [[]|e| |]; try discriminate. reflexivity.
  - apply IH; [|assumption]. cbn [list_eqb_with] in E. destruct (eq x x) as [[]|e| |]; try discriminate. exact E.
Qed.

Lemma equal_refl h v : equal h v v <-> comparable h v.
Proof.
  split.
  - intros [n E]. revert v E. induction n as [|n IH]; intros v E; [discriminate|].
    destruct v; cbn [value_eqb] in E; try discriminate; try (constructor; fail).
    + constructor. apply SFeqb_refl. now injection E.
    + constructor. unfold closure_eqb in E. destruct (nth_error (h_closures h) addr) eqn:X; [|discriminate].
      apply nth_error_Some. congruence.
    + destruct (nth_error (h_arrays h) addr) as [ar|] eqn:X; [|discriminate].
      rewrite Nat.eqb_refl in E. econstructor; [exact X|].
      destruct (list_eqb_with _ _ _) as [[]|e| |] eqn:L; try discriminate.
      intros v Hv. apply IH. eapply list_eqb_refl_inv; eauto.
    + constructor. unfold class_eqb, class_get in E. destruct (nth_error (h_classes h) addr) eqn:X; [|discriminate].
      apply nth_error_Some. congruence.
  - induction 1 as [| |b|z|f Hf|f|a Ha|a ar Ha Hr IH|x|x|o|c Hc].
    1-2: now exists 1.
    + exists 1. cbn. now destruct b.
    + exists 1. cbn. now rewrite Z.eqb_refl.
    + exists 1. cbn. f_equal. now apply SFeqb_refl.
    + exists 1. cbn. now rewrite Nat.eqb_refl.
    + exists 1. cbn. unfold closure_eqb. destruct (nth_error (h_closures h) a) eqn:X; [|apply nth_error_None in X; lia].
      now rewrite !Nat.eqb_refl.
    + destruct (list_eqb_refl_all h (ar_elements ar) IH) as [n E]. exists (S n). cbn [value_eqb].
      rewrite Ha, !Nat.eqb_refl, E. reflexivity.
    + exists 1. cbn. now rewrite String.eqb_refl.
    + exists 1. cbn. now rewrite String.eqb_refl.
    + exists 1. cbn. now rewrite Nat.eqb_refl.
    + exists 1. cbn. unfold class_eqb, class_get. destruct (nth_error (h_classes h) c) eqn:X; [|apply nth_error_None in X; lia].
      cbn [obind]. now rewrite String.eqb_refl, Nat.eqb_refl.
Qed.
