From Verif.Model Require Import Source.
From Verif.Spec Require Import TextPos.

Ltac Zify.zify_post_hook ::= Z.div_mod_to_equations.

(** binary search finds the partition point *)
Lemma bsearch_spec {A} (p : A -> bool) l k :
  (forall i x, nth_error l i = Some x -> p x = (i <? k)) -> k <= List.length l ->
  forall fuel left right, left <= k <= right -> right <= List.length l -> right - left <= fuel ->
  bsearch p l fuel left right = k.
Proof.
  intros Hp Hk. induction fuel as [|fuel IH]; intros left right H1 H2 H3; cbn [bsearch].
  - lia.
  - destruct (Nat.ltb_spec left right) as [Hlt|]; [|lia].
    assert (left + (right - left) / 2 < right) by lia.
    destruct (nth_error l (left + (right - left) / 2)) as [x|] eqn:E.
    + rewrite (Hp _ _ E). destruct (Nat.ltb_spec (left + (right - left) / 2) k); apply IH; lia.
    + apply nth_error_None in E. lia.
Qed.

Lemma partition_point_spec {A} (p : A -> bool) l k :
  (forall i x, nth_error l i = Some x -> p x = (i <? k)) -> k <= List.length l -> partition_point p l = k.
Proof. intros Hp Hk. unfold partition_point. eapply bsearch_spec; eauto; lia. Qed.

(** newline positions by recursion *)
Fixpoint nl (s : nat) (t : list char) : list nat :=
  match t with
  | [] => []
  | c :: r => if N.eqb c newline then (s + len_utf8 c) :: nl (s + len_utf8 c) r else nl (s + len_utf8 c) r
  end.

Lemma text_len_cons c a : text_len (c :: a) = len_utf8 c + text_len a.
Proof. reflexivity. Qed.
Lemma text_len_app a b : text_len (a ++ b) = text_len a + text_len b.
Proof. induction a as [|c a IH]; [reflexivity|]. cbn [app]. rewrite !text_len_cons, IH. lia. Qed.

Lemma len_utf8_pos c : 1 <= len_utf8 c <= 4.
Proof. unfold len_utf8. repeat destruct (_ <? _)%N; lia. Qed.

Lemma nl_app a : forall s b, nl s (a ++ b) = nl s a ++ nl (s + text_len a) b.
Proof.
  induction a as [|c a IH]; intros s b; cbn [app nl].
  - cbn. now rewrite Nat.add_0_r.
  - rewrite text_len_cons. rewrite IH. replace (s + len_utf8 c + text_len a) with (s + (len_utf8 c + text_len a)) by lia.
    destruct (N.eqb c newline); reflexivity.
Qed.

Lemma nl_length a : forall s, List.length (nl s a) = newline_count a.
Proof.
  unfold newline_count. induction a as [|c a IH]; intros s; cbn [nl filter List.length]; [reflexivity|].
  destruct (N.eqb c newline); cbn [List.length]; now rewrite IH.
Qed.

Lemma nl_bounds a : forall s x, In x (nl s a) -> s < x <= s + text_len a.
Proof.
  induction a as [|c a IH]; intros s x; cbn [nl]; [contradiction|]. rewrite text_len_cons.
  pose proof (len_utf8_pos c).
  destruct (N.eqb c newline); [intros [<-|Hin]|intros Hin]; try (apply IH in Hin); lia.
Qed.

(** spans of the non-ascii chars of a line *)
Fixpoint na_spans (col : nat) (l : list char) : list span :=
  match l with
  | [] => []
  | c :: r => (if is_ascii c then [] else [Span col (col + len_utf8 c)]) ++ na_spans (col + len_utf8 c) r
  end.
Lemma na_spans_app a : forall col b, na_spans col (a ++ b) = na_spans col a ++ na_spans (col + text_len a) b.
Proof.
  induction a as [|c a IH]; intros col b; cbn [app na_spans].
  - cbn. now rewrite Nat.add_0_r.
  - rewrite IH, text_len_cons, app_assoc. now rewrite Nat.add_assoc.
Qed.

(** content of line [n], given the content [cur] of the line being read *)
Fixpoint line_content (t : list char) (cur : list char) (n : nat) : list char :=
  match t with
  | [] => match n with O => cur | _ => [] end
  | c :: r =>
      if N.eqb c newline then match n with O => cur | S n' => line_content r [] n' end
      else line_content r (cur ++ [c]) n
  end.

Lemma aln_app a : forall acc b, after_last_newline (a ++ b) acc = after_last_newline b (after_last_newline a acc).
Proof. induction a as [|c a IH]; intros acc b; cbn [app after_last_newline]; [reflexivity|]. destruct (N.eqb c newline); apply IH. Qed.

Lemma line_content_app a : forall cur b, 
  line_content (a ++ b) cur (newline_count a) = line_content b (after_last_newline a cur) 0.
Proof.
  unfold newline_count. induction a as [|c a IH]; intros cur b; cbn [app line_content after_last_newline filter].
  - reflexivity.
  - destruct (N.eqb c newline); cbn [List.length]; apply IH.
Qed.

Lemma line_content_prefix b : forall cur, exists r, line_content b cur 0 = cur ++ r.
Proof.
  induction b as [|c b IH]; intros cur; cbn [line_content].
  - exists []. now rewrite app_nil_r.
  - destruct (N.eqb c newline).
    + exists []. now rewrite app_nil_r.
    + destruct (IH (cur ++ [c])) as [r ->]. exists (c :: r). now rewrite <- app_assoc.
Qed.

(** lookups into the utf16 table *)
Definition get_line (m : list (nat * list span)) n := match nat_get n m with Some l => l | None => [] end.

Lemma get_line_push n line cs m :
  get_line (li_insert line cs m) n =
  if (Nat.eqb n line) && negb (match cs with [] => true | _ => false end) then cs else get_line m n.
Proof.
  unfold li_insert. destruct cs as [|c cs]; cbn [negb]; [now rewrite andb_false_r|].
  unfold get_line; cbn [nat_get]. destruct (Nat.eqb n line); reflexivity.
Qed.

(** invariant of the loop *)
Lemma li_fold t : forall s cur,
  ls_chars s = na_spans 0 cur -> ls_column s = text_len cur ->
  (forall n, ls_line s <= n -> get_line (ls_utf16 s) n = []) ->
  let s' := fold_left li_step t s in
  let final := li_insert (ls_line s') (ls_chars s') (ls_utf16 s') in
  ls_newlines s' = ls_newlines s ++ nl (ls_row s) t /\
  (forall n, get_line final (ls_line s + n) = na_spans 0 (line_content t cur n)).
Proof.
  induction t as [|c t IH]; intros s cur Hc Hcol Hempty; cbn [fold_left].
  - cbn zeta. split; [cbn; now rewrite app_nil_r|]. intros n. rewrite get_line_push. cbn [line_content].
    destruct n as [|n].
    + rewrite Nat.add_0_r, Nat.eqb_refl. cbn [andb]. rewrite Hempty by lia. rewrite <- Hc. destruct (ls_chars s); reflexivity.
    + destruct (Nat.eqb_spec (ls_line s + S n) (ls_line s)); [lia|]. cbn [andb]. rewrite Hempty by lia. reflexivity.
  - destruct (N.eqb c newline) eqn:E.
    + assert (Hstep : li_step s c =
         LiState (ls_newlines s ++ [ls_row s + len_utf8 c])
           (li_insert (ls_line s) (ls_chars s) (ls_utf16 s))
           [] (S (ls_line s)) 0 (ls_row s + len_utf8 c)) by (unfold li_step; now rewrite E).
      specialize (IH (li_step s c) []). rewrite Hstep in *. cbn [ls_chars ls_column ls_line ls_utf16 ls_newlines ls_row] in IH.
      destruct IH as [IH1 IH2]; [reflexivity|reflexivity| |].
      { intros n Hn. rewrite get_line_push. destruct (Nat.eqb_spec n (ls_line s)); [lia|]. cbn [andb]. apply Hempty. lia. }
      split.
      * rewrite IH1, <- app_assoc. cbn [nl]. now rewrite E.
      * intros [|n]; cbn [line_content]; rewrite E.
        -- rewrite Nat.add_0_r.
           (* entries of finished lines are not changed any more *)
           clear - Hc Hempty.
           assert (G : forall t s0, ls_line s < ls_line s0 ->
             let s' := fold_left li_step t s0 in
             get_line (li_insert (ls_line s') (ls_chars s') (ls_utf16 s')) (ls_line s)
             = get_line (ls_utf16 s0) (ls_line s)).
           { clear. induction t as [|c t IH]; intros s0 Hlt; cbn [fold_left].
             - cbn zeta. rewrite get_line_push. destruct (Nat.eqb_spec (ls_line s) (ls_line s0)); [lia|]. reflexivity.
             - cbn zeta in *. rewrite IH by (unfold li_step; destruct (N.eqb c newline); cbn; lia).
               unfold li_step. destruct (N.eqb c newline); cbn [ls_utf16]; [|reflexivity].
               rewrite get_line_push. destruct (Nat.eqb_spec (ls_line s) (ls_line s0)); [lia|]. reflexivity. }
           cbn zeta in G. rewrite G by (cbn; lia). cbn [ls_utf16]. rewrite get_line_push, Nat.eqb_refl. cbn [andb].
           rewrite Hempty by lia. rewrite <- Hc. destruct (ls_chars s); reflexivity.
        -- rewrite <- IH2. f_equal. lia.
    + assert (Hstep : li_step s c =
         LiState (ls_newlines s) (ls_utf16 s)
           (if is_ascii c then ls_chars s else ls_chars s ++ [Span (ls_column s) (ls_column s + len_utf8 c)])
           (ls_line s) (ls_column s + len_utf8 c) (ls_row s + len_utf8 c)) by (unfold li_step; now rewrite E).
      specialize (IH (li_step s c) (cur ++ [c])). rewrite Hstep in *.
      cbn [ls_chars ls_column ls_line ls_utf16 ls_newlines ls_row] in IH.
      destruct IH as [IH1 IH2].
      * rewrite na_spans_app, Hc, Hcol. cbn. destruct (is_ascii c); cbn; [now rewrite app_nil_r|reflexivity].
      * rewrite text_len_app, Hcol. cbn. lia.
      * exact Hempty.
      * split; [rewrite IH1; cbn [nl]; now rewrite E|].
        intros n. cbn [line_content]. rewrite E. apply IH2.
Qed.

Lemma li_new_newlines t : li_newlines (li_new t) = 0 :: nl 0 t.
Proof.
  unfold li_new. cbn [li_newlines]. destruct (li_fold t (LiState [0] [] [] 0 0 0) []) as [H _]; cbn; auto.
Qed.

Lemma li_new_utf16 t n : get_line (li_utf16 (li_new t)) n = na_spans 0 (line_content t [] n).
Proof.
  unfold li_new. cbn [li_utf16]. destruct (li_fold t (LiState [0] [] [] 0 0 0) []) as [_ H]; cbn; auto.
  apply (H n).
Qed.

Lemma utf16_loop_stop l col r : (forall x, In x l -> col < sp_end x) -> utf16_loop l col r = Ok r.
Proof.
  destruct l as [|x l]; intros H; cbn [utf16_loop]; [reflexivity|].
  destruct (Nat.leb_spec (sp_end x) col); [|reflexivity]. specialize (H x (or_introl eq_refl)). lia.
Qed.

Lemma na_spans_end_gt l : forall col x, In x (na_spans col l) -> col < sp_end x.
Proof.
  induction l as [|c l IH]; intros col x; cbn [na_spans]; [contradiction|].
  pose proof (len_utf8_pos c). rewrite in_app_iff. intros [H1|H1].
  - destruct (is_ascii c); [contradiction|]. destruct H1 as [<-|[]]. cbn. lia.
  - apply IH in H1. lia.
Qed.

Lemma len_vs_units c : is_ascii c = false -> len_utf8 c = utf16_units c + (span_len (Span 0 (len_utf8 c)) - utf16_len (Span 0 (len_utf8 c))).
Proof.
  unfold is_ascii, len_utf8, utf16_units, utf16_len, span_len. cbn [sp_end sp_start]. intros ->.
  destruct (N.ltb_spec c 2048); [destruct (N.ltb_spec c 65536); cbn; lia|].
  destruct (N.ltb_spec c 65536); cbn; lia.
Qed.

(** running the loop over the prefix [a] of a line subtracts exactly the surplus of [a] *)
Lemma utf16_loop_prefix a : forall before rest col,
  col = text_len before + text_len a ->
  utf16_loop (na_spans (text_len before) a ++ rest) col (utf16_length before + text_len a)
  = utf16_loop rest col (utf16_length before + utf16_length a).
Proof.
  induction a as [|c a IH]; intros before rest col Hcol.
  - reflexivity.
  - cbn [na_spans]. rewrite text_len_cons in *.
    assert (Hb : text_len before + len_utf8 c = text_len (before ++ [c])) by (rewrite text_len_app; cbn; lia).
    assert (Hu : utf16_length (before ++ [c]) = utf16_length before + utf16_units c).
    { clear. induction before as [|x b IH]; [cbn; lia|]. cbn [app]. change (utf16_length (x :: b ++ [c])) with (utf16_units x + utf16_length (b ++ [c])). change (utf16_length (x :: b)) with (utf16_units x + utf16_length b). rewrite IH. lia. }
    assert (Hcons : utf16_length (c :: a) = utf16_units c + utf16_length a) by reflexivity.
    destruct (is_ascii c) eqn:Ea.
    + cbn [app]. rewrite Hb.
      assert (len_utf8 c = 1 /\ utf16_units c = 1) as [L1 U1].
      { unfold is_ascii in Ea. unfold len_utf8, utf16_units. rewrite Ea. apply N.ltb_lt in Ea.
        destruct (N.ltb_spec c 65536); lia. }
      replace (utf16_length before + (len_utf8 c + text_len a)) with (utf16_length (before ++ [c]) + text_len a) by lia.
      rewrite IH by (rewrite <- Hb; lia). f_equal. lia.
    + cbn [app utf16_loop sp_end].
      destruct (Nat.leb_spec (text_len before + len_utf8 c) col); [|lia].
      pose proof (len_vs_units c Ea) as Hlen. unfold span_len, utf16_len, span_len in *. cbn [sp_start sp_end] in *.
      replace (text_len before + len_utf8 c - text_len before) with (len_utf8 c) in * by lia.
      rewrite Nat.sub_0_r in Hlen.
      unfold checked_sub. set (d := len_utf8 c - (if len_utf8 c =? 4 then 2 else 1)) in *.
      destruct (Nat.ltb_spec (utf16_length before + (len_utf8 c + text_len a)) d); [lia|]. cbn [obind].
      rewrite Hb.
      replace (utf16_length before + (len_utf8 c + text_len a) - d) with (utf16_length (before ++ [c]) + text_len a) by lia.
      rewrite IH by (rewrite <- Hb; lia). f_equal. lia.
Qed.

Lemma last_newline_pos a : forall s acc, text_len acc <= s ->
  nth_error ((s - text_len acc) :: nl s a) (newline_count a) = Some (s + text_len a - text_len (after_last_newline a acc))
  /\ text_len (after_last_newline a acc) <= s + text_len a.
Proof.
  unfold newline_count. induction a as [|c a IH]; intros s acc Hs; cbn [nl filter after_last_newline List.length].
  - cbn. split; [f_equal; lia|lia].
  - rewrite text_len_cons. destruct (N.eqb c newline) eqn:E; cbn [List.length].
    + specialize (IH (s + len_utf8 c) []). cbn [text_len fold_right] in IH. rewrite Nat.sub_0_r in IH.
      destruct IH as [H1 H2]; [lia|]. cbn [nth_error]. rewrite H1. split; [f_equal; lia|lia].
    + specialize (IH (s + len_utf8 c) (acc ++ [c])). rewrite text_len_app in IH. cbn [text_len fold_right] in IH.
      destruct IH as [H1 H2]; [lia|].
      replace (s + len_utf8 c - (text_len acc + (len_utf8 c + 0))) with (s - text_len acc) in H1 by lia.
      rewrite H1. split; [f_equal; lia|lia].
Qed.

Lemma newline_partition_le t k :
  partition_point (fun it => it <=? byte_offset t k) (0 :: nl 0 t) = S (newline_count (firstn k t)).
Proof.
  unfold byte_offset. replace (nl 0 t) with (nl 0 (firstn k t ++ skipn k t)) by (now rewrite firstn_skipn).
  rewrite nl_app. cbn [plus].
  set (a := firstn k t). set (b := skipn k t).
  apply partition_point_spec.
  - intros i x Hi. destruct i as [|i]; cbn [nth_error] in Hi.
    + injection Hi as <-. cbn. reflexivity.
    + destruct (Nat.ltb_spec (S i) (S (newline_count a))) as [Hlt|Hge].
      * rewrite nth_error_app1 in Hi by (rewrite nl_length; lia).
        apply nth_error_In, nl_bounds in Hi. apply Nat.leb_le. lia.
      * rewrite nth_error_app2 in Hi by (rewrite nl_length; lia).
        apply nth_error_In, nl_bounds in Hi. apply Nat.leb_gt. lia.
  - cbn [List.length]. rewrite app_length, !nl_length. lia.
Qed.

Lemma position_of_spec t k :
  position_of (li_new t) (byte_offset t k)
  = Ok (newline_count (firstn k t), utf16_length (after_last_newline (firstn k t) [])).
Proof.
  unfold position_of. rewrite li_new_newlines, newline_partition_le. unfold checked_sub at 1.
  destruct (Nat.ltb_spec (S (newline_count (firstn k t))) 1); [lia|]. cbn [obind].
  replace (S (newline_count (firstn k t)) - 1) with (newline_count (firstn k t)) by lia.
  set (a := firstn k t). set (b := skipn k t).
  assert (Ht : t = a ++ b) by (subst a b; symmetry; apply firstn_skipn).
  destruct (last_newline_pos a 0 [] (Nat.le_refl 0)) as [Hlast Hle]. cbn [text_len fold_right Nat.sub plus] in Hlast, Hle.
  assert (Hn : nth_error (0 :: nl 0 t) (newline_count a) = Some (text_len a - text_len (after_last_newline a []))).
  { replace (nl 0 t) with (nl 0 (a ++ b)) by (now rewrite <- Ht). rewrite nl_app. rewrite app_comm_cons. rewrite nth_error_app1; [exact Hlast|].
    cbn [List.length]. rewrite nl_length. lia. }
  rewrite Hn. unfold byte_offset. fold a. unfold checked_sub at 1.
  destruct (Nat.ltb_spec (text_len a) (text_len a - text_len (after_last_newline a []))); [lia|]. cbn [obind].
  replace (text_len a - (text_len a - text_len (after_last_newline a []))) with (text_len (after_last_newline a [])) by lia.
  set (lp := after_last_newline a []).
  assert (Hconv : convert_to_utf16_column (li_new t) (newline_count a) (text_len lp) = Ok (utf16_length lp)).
  { unfold convert_to_utf16_column.
    pose proof (li_new_utf16 t (newline_count a)) as Hg. unfold get_line in Hg.
    assert (Hc : exists r, line_content t [] (newline_count a) = lp ++ r).
    { replace (line_content t) with (line_content (a ++ b)) by (now rewrite <- Ht). rewrite line_content_app. apply line_content_prefix. }
    destruct Hc as [r Hc]. rewrite Hc, na_spans_app in Hg.
    assert (Hgo : utf16_loop (na_spans 0 lp ++ na_spans (0 + text_len lp) r) (text_len lp) (text_len lp) = Ok (utf16_length lp)).
    { pose proof (utf16_loop_prefix lp [] (na_spans (0 + text_len lp) r) (text_len lp) eq_refl) as P.
      cbn [text_len fold_right utf16_length plus] in P. cbn [plus]. 
      etransitivity; [exact P|]. apply utf16_loop_stop. intros x Hx. now apply na_spans_end_gt in Hx. }
    destruct (nat_get (newline_count a) (li_utf16 (li_new t))) as [cs|].
    - rewrite Hg. exact Hgo.
    - symmetry in Hg. apply app_eq_nil in Hg as [G1 G2]. rewrite G1, G2 in Hgo. cbn in Hgo. exact Hgo. }
  rewrite Hconv. reflexivity.
Qed.

(** ** Lines of a span *)

Lemma nth_error_nil {A} i : @nth_error A [] i = None.
Proof. destruct i; reflexivity. Qed.

Lemma zip_spans_cons a b l : zip_spans (a :: b :: l) = Span a b :: zip_spans (b :: l).
Proof. reflexivity. Qed.

Lemma zip_spans_snoc l : forall x y, zip_spans (l ++ [x; y]) = zip_spans (l ++ [x]) ++ [Span x y].
Proof.
  induction l as [|a l IH]; intros x y; [reflexivity|].
  destruct l as [|b l]; [reflexivity|]. cbn [app] in *. rewrite !zip_spans_cons, IH. reflexivity.
Qed.

Lemma zip_spans_skipn n : forall l, zip_spans (skipn n l) = skipn n (zip_spans l).
Proof.
  induction n as [|n IH]; intros l; [reflexivity|].
  destruct l as [|a [|b l]]; [reflexivity| |].
  - cbn [skipn]. rewrite skipn_nil. reflexivity.
  - rewrite zip_spans_cons. cbn [skipn]. apply IH.
Qed.

Lemma zip_spans_firstn k : forall l, zip_spans (firstn (S k) l) = firstn k (zip_spans l).
Proof.
  induction k as [|k IH]; intros l.
  - destruct l; reflexivity.
  - destruct l as [|a [|b l]]; [reflexivity|reflexivity|].
    rewrite zip_spans_cons. cbn [firstn]. cbn [firstn] in IH.
    rewrite zip_spans_cons. f_equal. exact (IH (b :: l)).
Qed.

Lemma zip_spans_nth l : forall i, nth_error (zip_spans l) i =
  match nth_error l i, nth_error l (S i) with Some a, Some b => Some (Span a b) | _, _ => None end.
Proof.
  induction l as [|a l IH]; intros i.
  - destruct i; reflexivity.
  - destruct l as [|b l].
    + destruct i; cbn; [reflexivity|]. rewrite nth_error_nil. destruct i; reflexivity.
    + rewrite zip_spans_cons. destruct i as [|i]; [reflexivity|]. cbn [nth_error] in *. apply IH.
Qed.

Lemma line_spans_zip t : forall s b,
  line_spans t s b = zip_spans (s :: nl b t ++ [b + text_len t]).
Proof.
  induction t as [|c t IH]; intros s b; cbn [line_spans nl].
  - cbn. now rewrite Nat.add_0_r.
  - rewrite text_len_cons, Nat.add_assoc. destruct (N.eqb c newline).
    + cbn [app]. rewrite zip_spans_cons. f_equal. apply IH.
    + apply IH.
Qed.

(** line starts are strictly increasing *)
Lemma nl_increasing t : forall s i j x y,
  nth_error (nl s t) i = Some x -> nth_error (nl s t) j = Some y -> i < j -> x < y.
Proof.
  induction t as [|c t IH]; intros s i j x y; cbn [nl].
  - rewrite nth_error_nil. discriminate.
  - destruct (N.eqb c newline); [|apply IH].
    destruct i as [|i], j as [|j]; cbn [nth_error]; try lia.
    + intros [= <-] Hy _. apply nth_error_In, nl_bounds in Hy. lia.
    + intros Hx Hy Hij. eapply IH; eauto. lia.
Qed.

Lemma starts_increasing t i j x y :
  nth_error (0 :: nl 0 t) i = Some x -> nth_error (0 :: nl 0 t) j = Some y -> i < j -> x < y.
Proof.
  destruct i as [|i], j as [|j]; cbn [nth_error]; try lia.
  - intros [= <-] Hy _. apply nth_error_In, nl_bounds in Hy. lia.
  - intros Hx Hy Hij. eapply nl_increasing; eauto. lia.
Qed.

(** number of elements of an increasing list satisfying a downward closed test *)
Lemma partition_exists (p : nat -> bool) l :
  (forall i j x y, nth_error l i = Some x -> nth_error l j = Some y -> i < j -> x < y) ->
  (forall x y, x < y -> p y = true -> p x = true) ->
  exists k, k <= List.length l /\ (forall i x, nth_error l i = Some x -> p x = (i <? k)).
Proof.
  intros Hinc Hdown. induction l as [|a l IH].
  - exists 0. split; [cbn; lia|]. intros i x. rewrite nth_error_nil. discriminate.
  - destruct (p a) eqn:Ea.
    + destruct IH as (k & Hk & Hp).
      { intros i j x y Hi Hj Hij. apply (Hinc (S i) (S j) x y Hi Hj). lia. }
      exists (S k). split; [cbn; lia|]. intros [|i] x; cbn [nth_error].
      * intros [= <-]. exact Ea.
      * intros Hx. rewrite (Hp _ _ Hx). reflexivity.
    + exists 0. split; [lia|]. intros [|i] x; cbn [nth_error].
      * intros [= <-]. exact Ea.
      * intros Hx. destruct (p x) eqn:Ex; [|reflexivity].
        assert (a < x) by (apply (Hinc 0 (S i)); auto; lia).
        rewrite (Hdown a x) in Ea by assumption. discriminate.
Qed.

Lemma filter_slice {A} (q : A -> bool) : forall (L : list A) l m,
  (forall i x, nth_error L i = Some x -> q x = (l <=? i) && (i <? m)) ->
  filter q L = firstn (m - l) (skipn l L).
Proof.
  induction L as [|a L IH]; intros l m H; cbn [filter].
  - rewrite skipn_nil, firstn_nil. reflexivity.
  - pose proof (H 0 a eq_refl) as Ha. destruct l as [|l].
    + rewrite Nat.sub_0_r. cbn [skipn].
      assert (IH' : filter q L = firstn (pred m) L).
      { rewrite (IH 0 (pred m)); [cbn [skipn]; now rewrite Nat.sub_0_r|].
        intros i x Hx. rewrite (H (S i) x Hx). cbn [Nat.leb andb].
        destruct (Nat.ltb_spec (S i) m), (Nat.ltb_spec i (pred m)); lia || reflexivity. }
      rewrite Ha, IH'. destruct m as [|m]; cbn; [|reflexivity]. reflexivity.
    + rewrite Ha. cbn [Nat.leb andb skipn]. rewrite (IH l (pred m)).
      * destruct m as [|m]; cbn [pred Nat.sub]; [|reflexivity]. reflexivity.
      * intros i x Hx. rewrite (H (S i) x Hx). cbn [Nat.leb].
        destruct (Nat.ltb_spec (S i) m), (Nat.ltb_spec i (pred m)); lia || reflexivity.
Qed.

Lemma filter_filter {A} (p q : A -> bool) l : filter p (filter q l) = filter (fun x => q x && p x) l.
Proof.
  induction l as [|x l IH]; cbn [filter]; [reflexivity|].
  destruct (q x); cbn [filter andb]; [|exact IH]. destruct (p x); now rewrite IH.
Qed.

Lemma firstn_skipn_snoc {A} (ns : list A) l m x :
  l <= m -> nth_error ns m = Some x -> firstn (S m - l) (skipn l ns) = firstn (m - l) (skipn l ns) ++ [x].
Proof.
  revert l m. induction ns as [|a ns IH]; intros l m Hl Hx; [rewrite nth_error_nil in Hx; discriminate|].
  destruct l as [|l].
  - rewrite !Nat.sub_0_r. cbn [skipn]. clear IH Hl. revert m Hx. generalize (a :: ns) as L. clear.
    induction L as [|b L IH]; intros m Hx; [rewrite nth_error_nil in Hx; discriminate|].
    destruct m as [|m]; cbn [nth_error] in Hx.
    + injection Hx as <-. reflexivity.
    + cbn [firstn app]. f_equal. apply (IH m Hx).
  - destruct m as [|m]; [lia|]. cbn [skipn nth_error] in *. cbn [Nat.sub]. rewrite <- (IH l m) by (assumption || lia).
    f_equal.
Qed.

Lemma li_lines_slice t s : sp_start s <= sp_end s ->
  exists l m,
    l <= m /\ m <= List.length (0 :: nl 0 t) /\
    (forall i x, nth_error (0 :: nl 0 t) i = Some x -> (x <=? sp_start s) = (i <? S l)) /\
    (forall i x, nth_error (0 :: nl 0 t) i = Some x -> (x <? sp_end s) = (i <? m)) /\
    S l <= List.length (0 :: nl 0 t) /\
    li_lines (li_new t) s =
    Ok (filter (fun sp => negb (span_is_empty sp)) (firstn (m - l) (skipn l (line_spans t 0 0)))).
Proof.
  intros Hse.
  destruct (partition_exists (fun it => it <=? sp_start s) (0 :: nl 0 t)) as (k & Hk & Hpk).
  { apply starts_increasing. }
  { intros x y Hxy. rewrite !Nat.leb_le. lia. }
  destruct (partition_exists (fun it => it <? sp_end s) (0 :: nl 0 t)) as (m & Hm & Hpm).
  { apply starts_increasing. }
  { intros x y Hxy. rewrite !Nat.ltb_lt. lia. }
  destruct k as [|l].
  { specialize (Hpk 0 0 eq_refl). cbn in Hpk. discriminate. }
  assert (Hlm : l <= m).
  { destruct (Nat.le_gt_cases l m) as [|Hgt]; [assumption|exfalso].
    assert (Hl : l < List.length (0 :: nl 0 t)) by lia.
    destruct (nth_error (0 :: nl 0 t) m) as [x|] eqn:Ex; [|apply nth_error_None in Ex; lia].
    destruct (nth_error (0 :: nl 0 t) l) as [y|] eqn:Ey; [|apply nth_error_None in Ey; lia].
    pose proof (starts_increasing t m l x y Ex Ey Hgt).
    pose proof (Hpm _ _ Ex) as A. rewrite (proj2 (Nat.ltb_ge m m)) in A by lia. apply Nat.ltb_ge in A.
    pose proof (Hpk _ _ Ey) as B. rewrite (proj2 (Nat.ltb_lt l (S l))) in B by lia. apply Nat.leb_le in B. lia. }
  exists l, m. split; [assumption|]. split; [assumption|]. split; [exact Hpk|]. split; [exact Hpm|]. split; [assumption|].
  unfold li_lines. rewrite li_new_newlines.
  rewrite (partition_point_spec _ _ (S l) Hpk Hk), (partition_point_spec _ _ m Hpm Hm).
  cbn [Nat.eqb]. replace (S l - 1) with l by lia.
  set (ns := 0 :: nl 0 t) in *.
  assert (HL : line_spans t 0 0 = zip_spans (ns ++ [text_len t])) by (rewrite line_spans_zip; reflexivity).
  destruct (nth_error ns m) as [r|] eqn:Er.
  - assert (m < List.length ns) by (apply nth_error_Some; congruence).
    destruct (Nat.ltb_spec (S m) l); [lia|]. destruct (Nat.ltb_spec (List.length ns) (S m)); [lia|]. cbn [orb].
    f_equal. rewrite (firstn_skipn_snoc ns l m r) by assumption.
    rewrite <- app_assoc. cbn [app]. rewrite zip_spans_snoc, filter_app. cbn [filter].
    replace (span_is_empty (Span r r)) with true by (unfold span_is_empty; cbn; symmetry; apply Nat.eqb_refl).
    cbn [negb]. rewrite app_nil_r. f_equal.
    rewrite <- (firstn_skipn_snoc ns l m r) by assumption.
    rewrite HL, <- zip_spans_skipn, <- zip_spans_firstn. f_equal.
    replace (S m - l) with (S (m - l)) by lia.
    rewrite skipn_app. rewrite firstn_app. rewrite skipn_length.
    replace (S (m - l) - (List.length ns - l)) with 0 by lia. cbn [firstn]. now rewrite app_nil_r.
  - apply nth_error_None in Er. assert (m = List.length ns) by lia. subst m.
    destruct (Nat.ltb_spec (List.length ns) l); [lia|]. rewrite Nat.ltb_irrefl. cbn [orb]. f_equal. f_equal.
    replace (li_utf8_len (li_new t)) with (text_len t) by reflexivity.
    rewrite HL, <- zip_spans_skipn. rewrite <- zip_spans_firstn.
    rewrite skipn_app. replace (l - List.length ns) with 0 by lia. cbn [skipn].
    rewrite firstn_all2 by (rewrite skipn_length; lia).
    rewrite firstn_all2; [reflexivity|]. rewrite app_length, skipn_length. cbn. lia.
Qed.

Lemma li_lines_spec t s : sp_start s <= sp_end s -> sp_start s < text_len t ->
  li_lines (li_new t) s =
  Ok (filter (fun ln => (sp_start ln <? sp_end s) && (sp_start s <? sp_end ln) && negb (span_is_empty ln))
        (line_spans t 0 0)).
Proof.
  intros Hse Hst. destruct (li_lines_slice t s Hse) as (l & m & Hlm & Hm & Hpk & Hpm & Hl & ->). f_equal.
  rewrite <- (filter_slice (fun ln => (sp_start ln <? sp_end s) && (sp_start s <? sp_end ln)) (line_spans t 0 0) l m).
  - now rewrite filter_filter.
  - intros i x. rewrite line_spans_zip. rewrite app_comm_cons. cbn [plus]. set (ns := 0 :: nl 0 t) in *.
    rewrite zip_spans_nth.
    destruct (nth_error (ns ++ [text_len t]) i) as [a|] eqn:Ea; [|discriminate].
    destruct (nth_error (ns ++ [text_len t]) (S i)) as [b|] eqn:Eb; [|discriminate].
    intros [= <-]. cbn [sp_start sp_end].
    assert (Hi : i < List.length ns).
    { assert (S i < List.length (ns ++ [text_len t])) by (apply nth_error_Some; congruence).
      rewrite app_length in *. cbn [List.length] in *. lia. }
    rewrite nth_error_app1 in Ea by assumption.
    rewrite (Hpm _ _ Ea). rewrite andb_comm. f_equal.
    destruct (Nat.lt_ge_cases (S i) (List.length ns)) as [Hs|Hs].
    + rewrite nth_error_app1 in Eb by assumption. pose proof (Hpk _ _ Eb) as P.
      destruct (Nat.leb_spec b (sp_start s)), (Nat.ltb_spec (sp_start s) b), (Nat.ltb_spec (S i) (S l)), (Nat.leb_spec l i);
        try reflexivity; try discriminate; lia.
    + rewrite nth_error_app2 in Eb by assumption. replace (S i - List.length ns) with 0 in Eb by lia.
      injection Eb as <-. destruct (Nat.ltb_spec (sp_start s) (text_len t)); [|lia].
      destruct (Nat.leb_spec l i); [reflexivity|lia].
Qed.

(** The lines of a text cut it into consecutive pieces. *)
Lemma line_spans_cover t : forall s b, s <= b ->
  exists rest lastspan, line_spans t s b = rest ++ [lastspan] /\
  sp_start (hd lastspan (line_spans t s b)) = s /\ sp_end lastspan = b + text_len t /\
  (forall i x y, nth_error (line_spans t s b) i = Some x -> nth_error (line_spans t s b) (S i) = Some y -> sp_end x = sp_start y).
Proof.
  induction t as [|c t IH]; intros s b Hsb; cbn [line_spans].
  - exists [], (Span s b). cbn. repeat split; try lia. intros [|i] x y; cbn; [discriminate|]. rewrite nth_error_nil. discriminate.
  - rewrite text_len_cons. destruct (N.eqb c newline).
    + destruct (IH (b + len_utf8 c) (b + len_utf8 c) (Nat.le_refl _)) as (r & la & E & Hs & He & Hc).
      exists (Span s (b + len_utf8 c) :: r), la. rewrite E. cbn [app hd]. repeat split; [cbn [sp_start] in *; lia|].
      intros [|i] x y; cbn [nth_error].
      * intros [= <-] Hy. cbn [sp_end]. rewrite <- E in Hy.
        destruct (line_spans t (b + len_utf8 c) (b + len_utf8 c)) as [|z zs]; [discriminate|]. cbn in Hy, Hs. congruence.
      * rewrite <- E. intros Hx Hy. exact (Hc i x y Hx Hy).
    + destruct (IH s (b + len_utf8 c)) as (r & la & E & Hs & He & Hc); [lia|].
      exists r, la. repeat split; auto. lia.
Qed.

Lemma li_lines_reversed : exists t s, sp_start s < text_len t /\ li_lines (li_new t) s = Panic.
Proof. exists [10; 10; 10; 10; 97]%N, (Span 4 0). vm_compute. auto. Qed.

Lemma span_add_lub a b :
  (let u := span_add a b in
   sp_start u <= sp_start a /\ sp_end a <= sp_end u /\ sp_start u <= sp_start b /\ sp_end b <= sp_end u) /\
  (forall c, sp_start c <= sp_start a -> sp_end a <= sp_end c -> sp_start c <= sp_start b -> sp_end b <= sp_end c ->
     sp_start c <= sp_start (span_add a b) /\ sp_end (span_add a b) <= sp_end c).
Proof. unfold span_add; cbn [sp_start sp_end]. split; intros; lia. Qed.

Lemma span_add_laws a b c :
  span_add a b = span_add b a /\ span_add a (span_add b c) = span_add (span_add a b) c /\ span_add a a = a.
Proof.
  destruct a as [a1 a2], b as [b1 b2], c as [c1 c2]; unfold span_add; cbn [sp_start sp_end]. repeat split; f_equal; lia.
Qed.
