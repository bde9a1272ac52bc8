(** Lemmas about the VM stack: it behaves as the list of the cells below the pointer. *)
From Verif.Model Require Import Stack.
From Verif.Spec Require Import StackSpec.

Lemma max_stack_pos : 2 < max_stack_size.
Proof. unfold max_stack_size. lia. Qed.
Global Opaque max_stack_size.

Lemma set_nth_app_r {A} (a b : list A) i x : set_nth (a ++ b) (List.length a + i) x = a ++ set_nth b i x.
Proof. induction a as [|y a IH]; [reflexivity|]. cbn [app List.length plus set_nth]. now rewrite IH. Qed.

Lemma set_nth_app_l {A} (a b : list A) i x : i < List.length a -> set_nth (a ++ b) i x = set_nth a i x ++ b.
Proof.
  revert i. induction a as [|y a IH]; intros i Hi; cbn [List.length] in Hi; [lia|].
  destruct i as [|i]; [reflexivity|]. cbn [app set_nth]. rewrite IH by lia. reflexivity.
Qed.

Lemma set_nth_len {A} (a : list A) i x : List.length (set_nth a i x) = List.length a.
Proof. revert i. induction a as [|y a IH]; intros [|i]; cbn; auto. Qed.

Lemma nth_error_set_nth_eq {A} (a : list A) i x : i < List.length a -> nth_error (set_nth a i x) i = Some x.
Proof. revert i. induction a as [|y a IH]; intros [|i] H; cbn in *; auto; try lia. apply IH. lia. Qed.

Lemma nth_error_set_nth_neq {A} (a : list A) i j x : i <> j -> nth_error (set_nth a i x) j = nth_error a j.
Proof. revert i j. induction a as [|y a IH]; intros [|i] [|j] H; cbn; auto; try congruence. Qed.

Lemma combine_app {A B} (a : list A) : forall (b : list B) a' b', List.length a = List.length b ->
  combine (a ++ a') (b ++ b') = combine a b ++ combine a' b'.
Proof.
  induction a as [|x a IH]; intros [|y b] a' b' H; try discriminate; [reflexivity|].
  cbn [app combine]. rewrite IH by (now injection H). reflexivity.
Qed.

Section StackP.
  (** The number of cells is kept abstract: the numeral would be unfolded by conversion. *)
  Context {A : Type} (null : A) (M : nat) (HM : M = max_stack_size).

  (** The stack holding [l] (bottom first). *)
  Definition canon (l : list A) : stack A :=
    MkStack (l ++ repeat null (M - List.length l)) (List.length l).

  Lemma stack_new_canon : stack_new null = canon [].
  Proof. unfold stack_new, canon. rewrite <- HM. cbn [List.length app]. now rewrite Nat.sub_0_r. Qed.

  Lemma canon_len l : List.length l <= M -> List.length (st_vals (canon l)) = M.
  Proof. intros H. cbn. rewrite app_length, repeat_length. lia. Qed.

  Lemma repeat_S_sub n : n < M ->
    repeat null (M - n) = null :: repeat null (M - S n).
  Proof. intros H. replace (M - n) with (S (M - S n)) by lia. reflexivity. Qed.

  Lemma push_canon v l : List.length l < M -> stack_push v (canon l) = Ok (canon (l ++ [v])).
  Proof.
    intros H. unfold stack_push, stack_set. rewrite canon_len by lia. cbn [canon st_ptr st_vals].
    rewrite (proj2 (Nat.ltb_lt _ _) H). cbn [obind st_vals st_ptr]. unfold canon.
    rewrite app_length. cbn [List.length]. rewrite Nat.add_1_r. repeat f_equal.
    rewrite <- (Nat.add_0_r (List.length l)) at 2. rewrite set_nth_app_r, repeat_S_sub by assumption.
    cbn [set_nth]. rewrite <- app_assoc. reflexivity.
  Qed.

  Lemma push_full v l : List.length l = M -> stack_push v (canon l) = Panic.
  Proof.
    intros H. unfold stack_push, stack_set. rewrite canon_len by lia. cbn [canon st_ptr].
    rewrite H, Nat.ltb_irrefl. reflexivity.
  Qed.

  Lemma pop_canon v l : List.length l < M -> stack_pop null (canon (l ++ [v])) = Ok (v, canon l).
  Proof.
    intros H. unfold stack_pop. cbn [canon st_ptr]. rewrite app_length. cbn [List.length]. rewrite Nat.add_1_r.
    unfold stack_get, stack_set. cbn [canon st_vals].
    rewrite <- app_assoc. cbn [app].
    rewrite nth_error_app2 by lia. rewrite Nat.sub_diag. cbn [nth_error obind].
    rewrite app_length. cbn [List.length].
    destruct (Nat.ltb_spec (List.length l) (List.length l + S (List.length (repeat null (M - List.length (l ++ [v])))))); [|lia].
    cbn [omap st_vals]. unfold canon. repeat f_equal.
    rewrite <- (Nat.add_0_r (List.length l)) at 1. rewrite set_nth_app_r. cbn [set_nth].
    rewrite (repeat_S_sub (List.length l)) by assumption. rewrite app_length. cbn [List.length]. rewrite Nat.add_1_r. reflexivity.
  Qed.

  Lemma pop_empty : stack_pop null (canon []) = Panic.
  Proof. reflexivity. Qed.

  Lemma get_canon i l : i < List.length l -> stack_get i (canon l) = match nth_error l i with Some v => Ok v | None => Panic end.
  Proof. intros H. unfold stack_get. cbn [canon st_vals]. now rewrite nth_error_app1. Qed.

  Lemma set_canon i v l : i < List.length l -> List.length l <= M ->
    stack_set i v (canon l) = Ok (canon (set_nth l i v)).
  Proof.
    intros H Hm. unfold stack_set. rewrite canon_len by lia.
    rewrite (proj2 (Nat.ltb_lt i M)) by lia.
    unfold canon; cbn [st_vals st_ptr]. rewrite set_nth_app_l by assumption. now rewrite set_nth_len.
  Qed.

  Lemma peek_canon k l v r : List.length r = k -> stack_peek k (canon (l ++ v :: r)) = Ok v.
  Proof.
    intros <-. unfold stack_peek. cbn [canon st_ptr]. rewrite app_length. cbn [List.length].
    destruct (Nat.ltb_spec (List.length l + S (List.length r)) (S (List.length r))); [lia|].
    replace (List.length l + S (List.length r) - S (List.length r)) with (List.length l) by lia.
    rewrite get_canon by (rewrite app_length; cbn; lia). rewrite nth_error_app2 by lia. now rewrite Nat.sub_diag.
  Qed.

  Lemma peek_short k l : List.length l <= k -> stack_peek k (canon l) = Panic.
  Proof. intros H. unfold stack_peek. cbn [canon st_ptr]. destruct (Nat.ltb_spec (List.length l) (S k)); [reflexivity|lia]. Qed.

  Lemma swap_canon a b l : S (S (List.length l)) <= M ->
    stack_swap (canon (l ++ [a; b])) = Ok (canon (l ++ [b; a])).
  Proof.
    intros H. unfold stack_swap. cbn [canon st_ptr]. rewrite app_length. cbn [List.length].
    destruct (Nat.ltb_spec (List.length l + 2) 2); [lia|].
    replace (List.length l + 2 - 2) with (List.length l) by lia.
    replace (List.length l + 2 - 1) with (List.length l + 1) by lia.
    rewrite !get_canon by (rewrite app_length; cbn; lia).
    rewrite nth_error_app2 by lia. rewrite Nat.sub_diag. cbn [nth_error obind].
    rewrite nth_error_app2 by lia. replace (List.length l + 1 - List.length l) with 1 by lia. cbn [nth_error obind].
    rewrite set_canon by (rewrite app_length; cbn; lia).
    replace (set_nth (l ++ [a; b]) (List.length l) b) with (l ++ [b; b]).
    2:{ rewrite <- (Nat.add_0_r (List.length l)). rewrite set_nth_app_r. reflexivity. }
    cbn [obind]. rewrite set_canon by (rewrite app_length; cbn; lia). now rewrite set_nth_app_r.
  Qed.

  Lemma reserve_canon dbg n l : List.length l + n < M ->
    stack_reserve dbg n (canon l) = Ok (Frame (List.length l) (List.length l + n), canon (l ++ repeat null n)).
  Proof.
    intros H. unfold stack_reserve. rewrite <- HM. cbn [canon st_ptr st_vals].
    rewrite (proj2 (Nat.ltb_lt _ _) H), andb_false_r. unfold canon.
    rewrite app_length, repeat_length, <- app_assoc, <- repeat_app.
    replace (M - List.length l) with (n + (M - (List.length l + n))) by lia. reflexivity.
  Qed.

  Lemma reserve_over n l : M <= List.length l + n -> stack_reserve true n (canon l) = Panic.
  Proof. intros H. unfold stack_reserve. rewrite <- HM. cbn [canon st_ptr]. now rewrite (proj2 (Nat.ltb_ge _ _) H). Qed.

  Lemma clear_canon (l r : list A) n : n = List.length r ->
    stack_clear null (List.length l) (List.length l + n) ((l ++ r) ++ repeat null (M - (List.length l + n)))
    = l ++ repeat null n ++ repeat null (M - (List.length l + n)).
  Proof.
    intros ->. unfold stack_clear. rewrite <- app_assoc, firstn_app, Nat.sub_diag, firstn_all. cbn [firstn]. rewrite app_nil_r.
    replace (List.length l + List.length r - List.length l) with (List.length r) by lia. f_equal. f_equal.
    rewrite app_assoc. rewrite skipn_app. rewrite skipn_all2 by (rewrite app_length; lia).
    rewrite app_length, Nat.sub_diag. reflexivity.
  Qed.

  Lemma pop_count_canon n l r : List.length r = n -> List.length (l ++ r) <= M ->
    stack_pop_count null n (canon (l ++ r)) = Ok (r, canon l).
  Proof.
    intros <- Hm. unfold stack_pop_count. cbn [canon st_ptr st_vals]. rewrite app_length in *.
    destruct (Nat.ltb_spec (List.length l + List.length r) (List.length r)); [lia|].
    replace (List.length l + List.length r - List.length r) with (List.length l) by lia.
    unfold stack_slice. rewrite canon_len by (rewrite app_length; lia).
    destruct (Nat.ltb_spec (List.length l + List.length r) (List.length l)); [lia|].
    destruct (Nat.ltb_spec M (List.length l + List.length r)); [lia|]. cbn [orb omap].
    cbn [canon st_vals]. rewrite app_length. rewrite clear_canon by reflexivity.
    rewrite <- repeat_app.
    replace (List.length r + (M - (List.length l + List.length r))) with (M - List.length l) by lia.
    replace (firstn _ _) with r; [reflexivity|].
    replace (List.length l + List.length r - List.length l) with (List.length r) by lia.
    rewrite <- app_assoc, skipn_app, skipn_all2, Nat.sub_diag by lia. cbn [skipn app].
    rewrite firstn_app, Nat.sub_diag, firstn_all. cbn [firstn]. symmetry. apply app_nil_r.
  Qed.

  Lemma pop_count_short n l : List.length l < n -> stack_pop_count null n (canon l) = Panic.
  Proof. intros H. unfold stack_pop_count. cbn [canon st_ptr]. now rewrite (proj2 (Nat.ltb_lt _ _) H). Qed.

  Lemma release_canon dbg l r : List.length (l ++ r) <= M -> List.length l < M ->
    stack_release null dbg (Frame (List.length l) (List.length (l ++ r))) (canon (l ++ r)) = Ok (canon l).
  Proof.
    intros Hm Hl. unfold stack_release. rewrite <- HM. rewrite canon_len by assumption. unfold frame_length. cbn [fr_start fr_end canon st_ptr st_vals].
    rewrite app_length in *.
    destruct (Nat.ltb_spec (List.length l + List.length r) (List.length l)); [lia|].
    destruct (Nat.ltb_spec M (List.length l + List.length r)); [lia|]. cbn [orb].
    replace (List.length l + List.length r - List.length l) with (List.length r) by lia.
    destruct (Nat.ltb_spec (List.length l + List.length r) (List.length r)); [lia|].
    replace (List.length l + List.length r - List.length r) with (List.length l) by lia.
    rewrite (proj2 (Nat.ltb_lt _ _) Hl), andb_false_r. rewrite clear_canon by reflexivity.
    rewrite <- repeat_app.
    replace (List.length r + (M - (List.length l + List.length r))) with (M - List.length l) by lia.
    reflexivity.
  Qed.

  Lemma set_all_vals ivs : forall (s : stack A),
    (forall i v, In (i, v) ivs -> i < List.length (st_vals s)) ->
    exists s', stack_set_all ivs s = Ok s' /\ st_ptr s' = st_ptr s /\
      st_vals s' = fold_left (fun l '(i, v) => set_nth l i v) ivs (st_vals s).
  Proof.
    induction ivs as [|[i v] ivs IH]; intros s H; cbn [stack_set_all fold_left].
    - eauto.
    - unfold stack_set. rewrite (proj2 (Nat.ltb_lt i _)) by (apply (H i v); now left). cbn [obind].
      destruct (IH (MkStack (set_nth (st_vals s) i v) (st_ptr s))) as (s' & E & Hp & Hv).
      + intros j w Hj. cbn [st_vals]. rewrite set_nth_len. apply (H j w). now right.
      + exists s'. auto.
  Qed.

  Lemma fold_set_rev vs : forall (l r : list A), List.length r = List.length vs -> forall t,
    fold_left (fun l '(i, v) => set_nth l i v) (rev (combine (seq (List.length l) (List.length vs)) vs)) (l ++ r ++ t) = l ++ vs ++ t.
  Proof.
    induction vs as [|v vs IH]; intros l r Hr t; cbn [List.length] in Hr.
    - destruct r; [reflexivity|discriminate].
    - destruct r as [|x r]; [discriminate|]. injection Hr as Hr. cbn [List.length seq combine rev].
      rewrite fold_left_app. cbn [fold_left].
      specialize (IH (l ++ [x]) r Hr t). rewrite app_length in IH. cbn [List.length] in IH.
      rewrite Nat.add_1_r in IH. rewrite <- !app_assoc in IH. cbn [app] in IH. cbn [app]. rewrite IH.
      rewrite <- (Nat.add_0_r (List.length l)) at 1. rewrite set_nth_app_r. reflexivity.
  Qed.

  Lemma push_multiple_canon vs l : List.length l + List.length vs <= M ->
    stack_push_multiple vs (canon l) = Ok (canon (l ++ vs)).
  Proof.
    intros H. unfold stack_push_multiple. cbn [canon st_ptr st_vals].
    destruct (set_all_vals (rev (combine (seq (List.length l) (List.length vs)) vs))
       (MkStack (l ++ repeat null (M - List.length l)) (List.length l + List.length vs))) as (s' & E & Hp & Hv).
    - intros i v Hi. apply in_rev in Hi. apply in_combine_l in Hi. apply in_seq in Hi. cbn [st_vals].
      rewrite app_length, repeat_length. lia.
    - rewrite E. f_equal. destruct s' as [vals p]. cbn [st_vals st_ptr] in *. subst. unfold canon. f_equal; [|now rewrite app_length].
      replace (M - List.length l) with (List.length vs + (M - List.length (l ++ vs)))
        by (rewrite app_length; lia).
      rewrite repeat_app. rewrite fold_set_rev by apply repeat_length. now rewrite app_assoc.
  Qed.

  Lemma push_multiple_over vs l : vs <> [] -> List.length l <= M ->
    M < List.length l + List.length vs -> stack_push_multiple vs (canon l) = Panic.
  Proof.
    intros Hne Hl H. destruct (exists_last Hne) as (vs' & v & ->). unfold stack_push_multiple. cbn [canon st_ptr st_vals].
    rewrite app_length in *. cbn [List.length] in *. rewrite Nat.add_1_r, seq_S.
    rewrite combine_app by (now rewrite seq_length). cbn [combine]. rewrite rev_app_distr. cbn [rev app stack_set_all].
    unfold stack_set. cbn [st_vals]. rewrite app_length, repeat_length.
    destruct (Nat.ltb_spec (List.length l + List.length vs') (List.length l + (M - List.length l))); [lia|]. reflexivity.
  Qed.

  (** One operation. *)
  Lemma stack_op_refines op l : List.length l <= M ->
    match list_op null op l with
    | Some (out, l') => List.length l' <= M /\ vm_stack_op null op (canon (rev l)) = Ok (out, canon (rev l'))
    | None => vm_stack_op null op (canon (rev l)) = Panic
    end.
  Proof.
    intros Hl. pose proof (rev_length l) as HR. destruct op as [v|vs| |n|k| |n|n]; cbn [list_op vm_stack_op]; rewrite <- ?HM.
    - destruct (Nat.ltb_spec (List.length l) M).
      + cbn [List.length rev]. split; [lia|]. rewrite push_canon by lia. reflexivity.
      + rewrite push_full by lia. reflexivity.
    - destruct vs as [|v vs].
      + split; [assumption|]. rewrite push_multiple_canon by (cbn; lia). now rewrite app_nil_r.
      + destruct (Nat.leb_spec (List.length l + List.length (v :: vs)) M).
        * split; [rewrite app_length, rev_length; lia|]. rewrite push_multiple_canon by lia.
          now rewrite rev_app_distr, rev_involutive.
        * rewrite push_multiple_over; [reflexivity|discriminate|lia|lia].
    - destruct l as [|v l]; [reflexivity|]. cbn [List.length rev] in *. split; [lia|].
      rewrite pop_canon by (rewrite rev_length; lia). reflexivity.
    - destruct (Nat.leb_spec n (List.length l)).
      + rewrite skipn_length. split; [lia|].
        replace (rev l) with (rev (skipn n l) ++ rev (firstn n l)) by (now rewrite <- rev_app_distr, firstn_skipn).
        rewrite (pop_count_canon n); [reflexivity| |].
        * rewrite rev_length, firstn_length. lia.
        * rewrite app_length, !rev_length, skipn_length, firstn_length. lia.
      + apply pop_count_short. lia.
    - destruct (nth_error l k) as [v|] eqn:E.
      + split; [assumption|]. apply nth_error_split in E as (a & b & -> & <-).
        rewrite rev_app_distr. cbn [rev]. rewrite <- app_assoc. cbn [app].
        rewrite peek_canon by apply rev_length. reflexivity.
      + apply nth_error_None in E. rewrite peek_short by lia. reflexivity.
    - destruct l as [|a [|b l]]; [reflexivity|reflexivity|]. cbn [List.length rev] in *. split; [lia|].
      rewrite <- !app_assoc. cbn [app]. rewrite swap_canon; [reflexivity|]. rewrite rev_length. lia.
    - destruct (Nat.ltb_spec (List.length l + n) M).
      + split; [rewrite app_length, repeat_length; lia|]. rewrite reserve_canon by lia. cbn [omap].
        rewrite rev_app_distr.
        replace (rev (repeat null n)) with (repeat null n); [reflexivity|].
        clear. induction n as [|n IH]; [reflexivity|]. cbn [repeat rev]. rewrite <- IH. apply repeat_cons.
      + rewrite reserve_over by lia. reflexivity.
    - destruct (Nat.leb_spec n (List.length l)); cbn [andb].
      2:{ cbn [canon st_ptr]. rewrite HR. destruct (Nat.ltb_spec (List.length l) n); [reflexivity|lia]. }
      assert (E : rev l = rev (skipn n l) ++ rev (firstn n l)) by (now rewrite <- rev_app_distr, firstn_skipn).
      cbn [canon st_ptr]. rewrite HR. destruct (Nat.ltb_spec (List.length l) n); [lia|].
      destruct (Nat.ltb_spec (List.length l - n) M) as [Hm|Hm].
      + split; [rewrite skipn_length; lia|].
        assert (L1 : List.length l - n = List.length (rev (skipn n l))) by (rewrite rev_length, skipn_length; reflexivity).
        rewrite L1 in Hm |- *. fold (canon (rev l)).
        replace (MkStack (rev l ++ repeat null (M - List.length l)) (List.length l)) with (canon (rev l))
          by (unfold canon; now rewrite HR).
        rewrite <- HR at 1. rewrite E at 1 2. rewrite release_canon; [reflexivity| |assumption].
        rewrite <- E, HR. assumption.
      + unfold stack_release, frame_length. rewrite <- HM. cbn [fr_start fr_end].
        rewrite canon_len by lia. cbn [canon st_ptr]. rewrite HR.
        destruct (Nat.ltb_spec (List.length l) (List.length l - n)); [lia|].
        destruct (Nat.ltb_spec M (List.length l)); [lia|]. cbn [orb].
        replace (List.length l - (List.length l - n)) with n by lia.
        destruct (Nat.ltb_spec (List.length l) n); [lia|].
        destruct (Nat.ltb_spec (List.length l - n) M); [lia|]. reflexivity.
  Qed.

  Lemma stack_run_refines ops : forall l, List.length l <= M ->
    match list_run null ops l with
    | Some (outs, l') => List.length l' <= M /\ vm_stack_run null ops (canon (rev l)) = Ok (outs, canon (rev l'))
    | None => vm_stack_run null ops (canon (rev l)) = Panic
    end.
  Proof.
    induction ops as [|op ops IH]; intros l Hl; cbn [list_run vm_stack_run]; [auto|].
    pose proof (stack_op_refines op l Hl) as H1.
    destruct (list_op null op l) as [[out l1]|].
    - destruct H1 as [Hl1 ->]. cbn [obind]. specialize (IH l1 Hl1).
      destruct (list_run null ops l1) as [[outs l2]|].
      + destruct IH as [Hl2 ->]. auto.
      + rewrite IH. reflexivity.
    - rewrite H1. reflexivity.
  Qed.

  Lemma holds_canon l : List.length l <= M -> holds null (canon (rev l)) l.
  Proof.
    intros Hl. unfold holds. rewrite <- HM. cbn [canon st_ptr]. rewrite canon_len by (now rewrite rev_length). rewrite rev_length.
    repeat split; auto. intros i Hi. cbn [canon st_vals]. rewrite rev_length.
    destruct (Nat.ltb_spec i (List.length l)).
    - rewrite nth_error_app1 by (rewrite rev_length; lia). apply nth_error_nth'. rewrite rev_length. lia.
    - rewrite nth_error_app2 by (rewrite rev_length; lia). rewrite rev_length.
      rewrite (nth_error_nth' _ null) by (rewrite repeat_length; lia). f_equal. apply nth_repeat.
  Qed.

  Lemma stack_history_at ops :
    match list_run null ops [] with
    | Some (outs, l) => exists s, vm_stack_run null ops (stack_new null) = Ok (outs, s) /\ holds null s l
    | None => vm_stack_run null ops (stack_new null) = Panic
    end.
  Proof.
    rewrite stack_new_canon. pose proof (stack_run_refines ops [] (Nat.le_0_l _)) as H. cbn [rev] in H.
    destruct (list_run null ops []) as [[outs l]|]; [|assumption].
    destruct H as [Hl H]. exists (canon (rev l)). split; [assumption|]. now apply holds_canon.
  Qed.
End StackP.

Lemma stack_history {A} (null : A) ops :
  match list_run null ops [] with
  | Some (outs, l) => exists s, vm_stack_run null ops (stack_new null) = Ok (outs, s) /\ holds null s l
  | None => vm_stack_run null ops (stack_new null) = Panic
  end.
Proof. exact (stack_history_at null max_stack_size eq_refl ops). Qed.
