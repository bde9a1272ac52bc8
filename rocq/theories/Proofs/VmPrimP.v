(** The stack primitives of the interpreter on a stack given by lists. *)
From Verif.Spec Require Export VmSpec.
From Verif.Proofs Require Export StackP.

Lemma stack_with_canon b t : stack_with b t = canon VNull max_stack_size (b ++ rev t).
Proof. reflexivity. Qed.

Lemma ws_ws b t b' t' s : with_stack b t (with_stack b' t' s) = with_stack b t s.
Proof. reflexivity. Qed.
Lemma ws_heap b t s : vm_heap (with_stack b t s) = vm_heap s. Proof. reflexivity. Qed.
Lemma ws_globals b t s : vm_globals (with_stack b t s) = vm_globals s. Proof. reflexivity. Qed.
Lemma set_heap_ws h b t s : set_heap h (with_stack b t s) = with_stack b t (set_heap h s). Proof. reflexivity. Qed.
Lemma set_open_ws h b t s : set_open h (with_stack b t s) = with_stack b t (set_open h s). Proof. reflexivity. Qed.
Lemma set_globals_ws h b t s : set_globals h (with_stack b t s) = with_stack b t (set_globals h s). Proof. reflexivity. Qed.
Lemma ws_id b t s : vm_stack s = stack_with b t -> s = with_stack b t s.
Proof. intros H. destruct s. cbn in *. unfold with_stack, set_stack; cbn. now rewrite <- H. Qed.

Lemma cells_len (b t : list value) : List.length (b ++ rev t) = List.length b + List.length t.
Proof. now rewrite app_length, rev_length. Qed.

Lemma push_ws v b t s : fits b t 1 -> push v (with_stack b t s) = ROk tt (with_stack b (v :: t) s).
Proof.
  unfold fits. intros H. unfold push, on_stack_, on_stack, with_stack, set_stack. cbn [vm_stack].
  rewrite !stack_with_canon, (push_canon VNull max_stack_size) by (rewrite ?cells_len; lia).
  cbn [omap rev]. now rewrite app_assoc.
Qed.

Lemma push_full_ws v b t s : List.length b + List.length t = max_stack_size -> push v (with_stack b t s) = RPanic.
Proof.
  intros H. unfold push, on_stack_, on_stack, with_stack, set_stack. cbn [vm_stack].
  rewrite !stack_with_canon, (push_full VNull max_stack_size) by (rewrite ?cells_len; lia).
  reflexivity.
Qed.

Lemma pop_ws v b t s : fits b t 1 -> pop (with_stack b (v :: t) s) = ROk v (with_stack b t s).
Proof.
  unfold fits. intros H. unfold pop, on_stack, with_stack, set_stack. cbn [vm_stack].
  rewrite !stack_with_canon. cbn [rev]. rewrite app_assoc.
  rewrite (pop_canon VNull max_stack_size) by (rewrite ?cells_len; lia). reflexivity.
Qed.

Lemma peek_ws k b t v s : nth_error t k = Some v -> peek k (with_stack b t s) = ROk v (with_stack b t s).
Proof.
  intros H. unfold peek, with_stack, set_stack. cbn [vm_stack]. rewrite stack_with_canon.
  apply nth_error_split in H as (a & c & -> & Ha).
  rewrite rev_app_distr. cbn [rev]. rewrite <- app_assoc. cbn [app]. rewrite app_assoc.
  rewrite (peek_canon VNull max_stack_size eq_refl k (b ++ rev c) v (rev a)) by (now rewrite rev_length).
  reflexivity.
Qed.

Lemma set_nth_mid {A} (a : list A) x c v : set_nth (a ++ x :: c) (List.length a) v = a ++ v :: c.
Proof. rewrite <- (Nat.add_0_r (List.length a)). now rewrite set_nth_app_r. Qed.

Lemma poke_ws k b t v s : k < List.length t -> fits b t 0 ->
  poke k v (with_stack b t s) = ROk tt (with_stack b (set_nth t k v) s).
Proof.
  unfold fits. intros H F. destruct (nth_error t k) as [x|] eqn:E; [|now apply nth_error_None in E; lia].
  apply nth_error_split in E as (a & c & -> & Ha).
  unfold poke, on_stack_, on_stack, with_stack, set_stack. cbn [vm_stack]. rewrite !stack_with_canon.
  unfold stack_poke. cbn [canon st_ptr]. rewrite cells_len. rewrite !app_length in *. cbn [List.length] in *.
  destruct (Nat.ltb_spec (List.length b + (List.length a + S (List.length c))) (S k)); [lia|].
  rewrite (set_canon VNull max_stack_size eq_refl) by (rewrite ?cells_len, ?app_length; cbn [List.length]; lia).
  cbn [omap]. subst k.
  rewrite set_nth_mid. repeat f_equal. rewrite !rev_app_distr. cbn [rev]. rewrite <- !app_assoc. cbn [app].
  replace (List.length b + (List.length a + S (List.length c)) - S (List.length a))
    with (List.length (b ++ rev c)) by (rewrite app_length, rev_length; lia).
  rewrite !app_assoc. now rewrite set_nth_mid.
Qed.

Lemma swap_ws a c b t s : fits b t 2 ->
  on_stack_ stack_swap (with_stack b (a :: c :: t) s) = ROk tt (with_stack b (c :: a :: t) s).
Proof.
  unfold fits. intros F. unfold on_stack_, on_stack, with_stack, set_stack. cbn [vm_stack].
  rewrite !stack_with_canon. cbn [rev]. rewrite <- !app_assoc. cbn [app]. rewrite !app_assoc.
  rewrite (swap_canon VNull max_stack_size) by (rewrite ?cells_len; lia). reflexivity.
Qed.

Lemma pop_count_ws n b t u s : List.length u = n -> fits b t n ->
  pop_count n (with_stack b (u ++ t) s) = ROk (rev u) (with_stack b t s).
Proof.
  unfold fits. intros H F. unfold pop_count, on_stack, with_stack, set_stack. cbn [vm_stack].
  rewrite !stack_with_canon. rewrite rev_app_distr, app_assoc.
  rewrite (pop_count_canon VNull max_stack_size) by (rewrite ?app_length, ?rev_length; lia). reflexivity.
Qed.

Lemma push_multiple_ws vs b t s : fits b t (List.length vs) ->
  on_stack_ (stack_push_multiple vs) (with_stack b t s) = ROk tt (with_stack b (rev vs ++ t) s).
Proof.
  unfold fits. intros F. unfold on_stack_, on_stack, with_stack, set_stack. cbn [vm_stack].
  rewrite !stack_with_canon. rewrite (push_multiple_canon VNull max_stack_size) by (rewrite ?cells_len; lia).
  cbn [omap]. rewrite rev_app_distr, rev_involutive, app_assoc. reflexivity.
Qed.

(** Reading and writing a slot of a frame that lies in the lower part. *)
Lemma slice_ws fr b t s : fr_start fr <= fr_end fr -> fr_end fr <= List.length b -> fits b t 0 ->
  stack_slice (fr_start fr) (fr_end fr) (vm_stack (with_stack b t s))
  = Ok (firstn (fr_end fr - fr_start fr) (skipn (fr_start fr) b)).
Proof.
  unfold fits. intros H1 H2 F. unfold stack_slice, with_stack, set_stack. cbn [vm_stack stack_with st_vals].
  rewrite app_length, repeat_length, cells_len.
  destruct (Nat.ltb_spec (fr_end fr) (fr_start fr)); [lia|].
  match goal with |- context [?a <? fr_end fr] => destruct (Nat.ltb_spec a (fr_end fr)) end; [lia|].
  cbn [orb]. f_equal. rewrite <- app_assoc, skipn_app, firstn_app, skipn_length.
  replace (fr_end fr - fr_start fr - (List.length b - fr_start fr)) with 0 by lia. cbn [firstn].
  apply app_nil_r.
Qed.

Lemma nth_error_firstn_lt {A} (l : list A) : forall n i, i < n -> nth_error (firstn n l) i = nth_error l i.
Proof.
  induction l as [|x l IH]; intros [|n] [|i] H; try lia; try reflexivity.
  cbn [firstn nth_error]. apply IH. lia.
Qed.
Lemma nth_error_skipn_at {A} (l : list A) : forall n i, nth_error (skipn n l) i = nth_error l (n + i).
Proof.
  induction l as [|x l IH]; intros [|n] i; try reflexivity.
  - destruct i; reflexivity.
  - cbn [skipn nth_error plus]. apply IH.
Qed.

Lemma frame_get_ws fr i b t v s :
  fr_start fr + i < fr_end fr -> fr_end fr <= List.length b -> fits b t 0 ->
  nth_error b (fr_start fr + i) = Some v ->
  frame_get fr i (with_stack b t s) = ROk v (with_stack b t s).
Proof.
  intros H1 H2 F E. unfold frame_get, stack_frame_get. rewrite slice_ws by (auto; lia). cbn [obind].
  rewrite nth_error_firstn_lt, nth_error_skipn_at, E by lia. reflexivity.
Qed.

Lemma frame_set_ws fr i b t v s :
  fr_start fr + i < fr_end fr -> fr_end fr <= List.length b -> fits b t 0 ->
  frame_set fr i v (with_stack b t s) = ROk tt (with_stack (set_nth b (fr_start fr + i) v) t s).
Proof.
  intros H1 H2 F. unfold frame_set, on_stack_, on_stack, stack_frame_set. rewrite slice_ws by (auto; lia).
  cbn [obind]. rewrite firstn_length, skipn_length.
  match goal with |- context [i <? ?x] => destruct (Nat.ltb_spec i x) end; [|lia].
  unfold fits in F. unfold with_stack, set_stack. cbn [vm_stack]. rewrite !stack_with_canon.
  rewrite (set_canon VNull max_stack_size) by (rewrite ?cells_len; lia). cbn [omap].
  rewrite set_nth_app_l by lia. reflexivity.
Qed.

(** Growing the frame: reserving slots moves all values below. *)
Lemma reserve_ws dbg n b t s : fits b t n -> List.length b + List.length t + n < max_stack_size ->
  on_stack (stack_reserve dbg n) (with_stack b t s)
  = ROk (Frame (List.length b + List.length t) (List.length b + List.length t + n))
      (with_stack (b ++ rev t ++ repeat VNull n) [] s).
Proof.
  intros F H. unfold on_stack, with_stack, set_stack. cbn [vm_stack]. rewrite !stack_with_canon.
  rewrite (reserve_canon VNull max_stack_size) by (rewrite ?cells_len; auto; lia).
  rewrite cells_len. cbn [rev]. rewrite app_nil_r, app_assoc. reflexivity.
Qed.

(** The boundary between the two parts is immaterial. *)
Lemma ws_shift b t u s : with_stack (b ++ rev u) t s = with_stack b (t ++ u) s.
Proof.
  unfold with_stack, set_stack. f_equal. rewrite !stack_with_canon. rewrite rev_app_distr. now rewrite app_assoc.
Qed.
Lemma ws_shift1 b v t s : with_stack (b ++ [v]) t s = with_stack b (t ++ [v]) s.
Proof. apply (ws_shift b t [v]). Qed.

Lemma release_ws dbg b c s : List.length b < max_stack_size -> List.length b + List.length c <= max_stack_size ->
  on_stack_ (stack_release VNull dbg (Frame (List.length b) (List.length b + List.length c))) (with_stack (b ++ c) [] s)
  = ROk tt (with_stack b [] s).
Proof.
  intros H1 H2. unfold on_stack_, on_stack, with_stack, set_stack. cbn [vm_stack]. rewrite !stack_with_canon.
  cbn [rev]. rewrite !app_nil_r. rewrite <- app_length.
  rewrite (release_canon VNull max_stack_size) by (auto; rewrite ?app_length; lia). reflexivity.
Qed.

Lemma ptr_ws b t s : st_ptr (vm_stack (with_stack b t s)) = List.length b + List.length t.
Proof. cbn. apply cells_len. Qed.
