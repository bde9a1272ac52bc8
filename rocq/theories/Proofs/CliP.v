(** The interactive tool: how entries are read and run, and what becomes of continued lines. *)
From Coq Require Import Lia.
From Verif.Model Require Import Cli Report.
From Verif.Spec Require Import LexSpec ParseSpec CliSpec.
From Verif.Proofs Require Import LexerP SourceTextP ParserDepthP ParserCleanP.
#[local] Open Scope list_scope.
#[local] Open Scope nat_scope.

(** * Lines *)
Lemma white_spec c : Report.is_white c = true <-> space_char c.
Proof.
  unfold Report.is_white, space_char, Lexer.between. cbn [In]. rewrite !Bool.orb_true_iff, !Bool.andb_true_iff, !N.leb_le, !N.eqb_eq.
  split; intro H; repeat match type of H with _ \/ _ => destruct H as [H|H] end; try contradiction; subst; try lia; tauto.
Qed.
Lemma trim_start_spec t : exists b, t = b ++ trim_start t /\ Forall space_char b /\ forall c r, trim_start t = c :: r -> ~ space_char c.
Proof.
  induction t as [|c t (b & E & Hb & Hc)]; cbn [trim_start].
  - exists []. split; [reflexivity|]. split; [constructor|]. intros c r H. discriminate H.
  - destruct (Report.is_white c) eqn:W.
    + exists (c :: b). split; [cbn [app]; rewrite <- E; reflexivity|]. split; [|exact Hc]. constructor; [apply white_spec, W|exact Hb].
    + exists []. split; [reflexivity|]. split; [constructor|]. intros d r H. injection H as <- _. intro S. apply white_spec in S. congruence.
Qed.
Lemma trim_end_strips t : stripped t (trim_end t).
Proof.
  unfold trim_end. destruct (trim_start_spec (rev t)) as (b & E & Hb & Hc). exists (rev b). split; [|split].
  - rewrite <- (rev_involutive t) at 1. rewrite E at 1. apply rev_app_distr.
  - apply Forall_rev, Hb.
  - intros a c H. apply (Hc c (rev a)). rewrite <- (rev_involutive (trim_start (rev t))), H. rewrite rev_app_distr. reflexivity.
Qed.
Lemma last_or_nil {A} (l : list A) : l = [] \/ exists a c, l = a ++ [c].
Proof. destruct l as [|x l] using rev_ind; [left; reflexivity|right; exists l, x; reflexivity]. Qed.
Lemma stripped_unique t a b : stripped t a -> stripped t b -> a = b.
Proof.
  assert (G : forall x y m z, Forall space_char m -> (forall a c, y = a ++ [c] -> ~ space_char c) -> y = x ++ z -> Forall space_char z -> y = x).
  { intros x y m z _ Hy -> Hz. destruct (last_or_nil z) as [->|(z' & c & ->)]; [apply app_nil_r|]. exfalso.
    apply (Hy (x ++ z') c); [apply app_assoc|]. apply Forall_app in Hz as [_ Hz]. inversion Hz. assumption. }
  intros (u & E1 & H1 & L1) (v & E2 & H2 & L2). rewrite E1 in E2. apply app_eq_app in E2 as (l & [[-> ->]|[-> ->]]).
  - apply Forall_app in H2 as [H2 _]. apply (G b (b ++ l) l l H2 L1 eq_refl H2).
  - apply Forall_app in H1 as [H1 _]. symmetry. apply (G a (a ++ l) l l H1 L2 eq_refl H1).
Qed.
Lemma stripped_trim t a : stripped t a -> trim_end t = a.
Proof. apply stripped_unique, trim_end_strips. Qed.
Lemma stripped_newline t a : stripped t a -> stripped (t ++ [10%N]) a.
Proof.
  intros (b & -> & Hb & L). exists (b ++ [10%N]). split; [symmetry; apply app_assoc|]. split; [|exact L].
  apply Forall_app. split; [exact Hb|]. constructor; [|constructor]. left. left. lia.
Qed.
Lemma trim_newline t : trim_end (t ++ [10%N]) = trim_end t.
Proof. apply stripped_trim, stripped_newline, trim_end_strips. Qed.
Lemma ends_spec c t : ends_with c t = true <-> exists a, t = a ++ [c].
Proof.
  unfold ends_with. split.
  - destruct (rev t) as [|d r] eqn:E; [discriminate|]. intro H. apply N.eqb_eq in H as ->. exists (rev r). rewrite <- (rev_involutive t), E. reflexivity.
  - intros (a & ->). rewrite rev_app_distr. apply N.eqb_refl.
Qed.
Lemma continued_spec l : ends_with 92%N (trim_end l) = true <-> continued l.
Proof.
  rewrite ends_spec. split.
  - intros (a & E). exists a. generalize (trim_end_strips l). rewrite E. exact (fun H => H).
  - intros (a & H). exists a. apply stripped_trim, H.
Qed.
Lemma continued_newline l : continued (l ++ [10%N]) <-> continued l.
Proof. rewrite <- !continued_spec, trim_newline. reflexivity. Qed.
Lemma read_line_newline l r : one_line l -> read_line (l ++ 10%N :: r) = (l ++ [10%N], r).
Proof.
  unfold one_line. induction l as [|c l IH]; intro H; [reflexivity|]. cbn [app read_line].
  destruct (N.eqb_spec c 10) as [->|_]; [destruct H; left; reflexivity|]. rewrite IH; [reflexivity|]. intro K. apply H. right. exact K.
Qed.
Lemma read_line_last l : one_line l -> read_line l = (l, []).
Proof.
  unfold one_line. induction l as [|c l IH]; intro H; [reflexivity|]. cbn [read_line].
  destruct (N.eqb_spec c 10) as [->|_]; [destruct H; left; reflexivity|]. rewrite IH; [reflexivity|]. intro K. apply H. right. exact K.
Qed.
Lemma typed_cons x ls : typed (x :: ls) = x ++ 10%N :: typed ls.
Proof. unfold typed. cbn [flat_map]. rewrite <- app_assoc. reflexivity. Qed.
Lemma read_lines_typed front : forall l ts rest fuel, Forall continued front -> ~ continued l -> Forall one_line (front ++ [l]) ->
  Forall2 stripped (front ++ [l]) ts -> List.length front <= fuel ->
  read_lines fuel (typed (front ++ [l]) ++ rest) = (typed ts, rest).
Proof.
  induction front as [|x front IH]; intros l ts rest fuel C N O S F.
  - cbn [app] in *. inversion S as [|? t ? ts0 Hs S0]; subst. inversion S0; subst. inversion O; subst. rewrite !typed_cons, <- app_assoc. cbn [app].
    assert (E : ends_with 92%N (trim_end l) = false) by (apply Bool.not_true_is_false; rewrite continued_spec; exact N).
    destruct fuel; cbn [read_lines]; rewrite read_line_newline by assumption; cbn [fst snd]; rewrite trim_newline, E, (stripped_trim _ _ Hs); reflexivity.
  - change ((x :: front) ++ [l]) with (x :: (front ++ [l])) in *. inversion S as [|? t ? ts0 Hs S0]; subst. inversion O as [|? ? Ox O0]; subst. inversion C as [|? ? Cx C0]; subst.
    destruct fuel as [|fuel]; [cbn in F; lia|]. cbn [List.length] in F. rewrite !typed_cons, <- app_assoc. cbn [read_lines].
    rewrite <- app_comm_cons, read_line_newline by assumption. cbn [fst snd]. rewrite trim_newline, (proj2 (continued_spec x) Cx), (stripped_trim _ _ Hs).
    match goal with |- (_ ++ fst ?r, snd ?r) = _ => replace r with (typed ts0, rest) by (symmetry; apply (IH l ts0 rest fuel C0 N O0 S0); lia) end. cbn [fst snd]. rewrite <- app_assoc. reflexivity.
Qed.
Lemma typed_length ls : List.length ls <= List.length (typed ls).
Proof. induction ls as [|l ls IH]; [apply le_n|]. rewrite typed_cons, app_length. cbn [List.length]. lia. Qed.
Lemma entry_read ls t rest : entry ls t -> read_entry (typed ls ++ rest) = (t, rest).
Proof.
  intros (front & l & ts & -> & C & N & O & S & ->). unfold read_entry. apply read_lines_typed; try assumption.
  generalize (typed_length (front ++ [l])). rewrite !app_length. cbn [List.length]. lia.
Qed.
(** A last line without a newline. *)
Lemma last_entry_read ls l t : entry (ls ++ [l]) t -> read_entry (typed ls ++ l) = (t, []).
Proof.
  intros (front & l' & ts & E & C & N & O & S & ->). apply app_inj_tail in E as [<- <-]. unfold read_entry.
  assert (F : List.length ls <= List.length (typed ls ++ l)) by (generalize (typed_length ls); rewrite app_length; lia).
  revert F. generalize (List.length (typed ls ++ l)) as fuel. revert ts C O S. induction ls as [|x ls IH]; intros ts C O S fuel F.
  - cbn [app] in *. inversion S as [|? t ? ts0 Hs S0]; subst. inversion S0; subst. inversion O; subst. change (typed [] ++ l) with l.
    assert (E : ends_with 92%N (trim_end l) = false) by (apply Bool.not_true_is_false; rewrite continued_spec; exact N).
    rewrite typed_cons. destruct fuel; cbn [read_lines]; rewrite read_line_last by assumption; cbn [fst snd]; rewrite E, (stripped_trim _ _ Hs); reflexivity.
  - change ((x :: ls) ++ [l]) with (x :: (ls ++ [l])) in *. inversion S as [|? t ? ts0 Hs S0]; subst. inversion O as [|? ? Ox O0]; subst. inversion C as [|? ? Cx C0]; subst.
    destruct fuel as [|fuel]; [cbn in F; lia|]. cbn [List.length] in F. rewrite !typed_cons, <- app_assoc. cbn [read_lines].
    rewrite <- app_comm_cons, read_line_newline by assumption. cbn [fst snd]. rewrite trim_newline, (proj2 (continued_spec x) Cx), (stripped_trim _ _ Hs).
    match goal with |- (_ ++ fst ?r, snd ?r) = _ => replace r with (typed ts0, @nil char) by (symmetry; apply (IH ts0 C0 O0 S0 fuel); lia) end. cbn [fst snd]. rewrite <- app_assoc. reflexivity.
Qed.

(** * Sessions *)
Lemma session_runs w fuel es : forall ts s rest, Forall2 entry es ts ->
  repl w fuel (List.length es) s (flat_map typed es ++ rest) = one_by_one w fuel ts s rest.
Proof.
  induction es as [|e es IH]; intros ts s rest H; inversion H as [|? t ? ts0 He H0]; subst; [reflexivity|].
  cbn [List.length flat_map repl one_by_one]. rewrite <- app_assoc, (entry_read _ _ _ He). cbn [fst snd].
  destruct (dice_run_script w fuel t s) as [v s'|c s'| |]; try reflexivity; rewrite (IH ts0 s' rest H0); destruct (one_by_one w fuel ts0 s' rest); reflexivity.
Qed.
Lemma end_read : read_entry [] = ([10%N], []).
Proof. reflexivity. Qed.

(** * Continued lines *)
Lemma outside_suffix a b : outside_comment (a ++ b) -> outside_comment b.
Proof. intros H x y ->. apply (H (a ++ x) y). rewrite <- app_assoc. reflexivity. Qed.
Lemma no_backslash_app a b : no_backslash (a ++ b) <-> no_backslash a /\ no_backslash b.
Proof. unfold no_backslash. rewrite in_app_iff. tauto. Qed.
Lemma blank_backslash rest g : blank rest g -> forall a m, g = a ++ 92%N :: m -> outside_comment a -> False.
Proof.
  induction 1 as [|c t W B IH|body t Nb Hb Hr B IH]; intros a m E O.
  - destruct a; discriminate E.
  - destruct a as [|d a]; cbn [app] in E; injection E as -> E.
    + cbn in W. repeat destruct W as [W|W]; try discriminate W. exact W.
    + apply (IH a m E). exact (outside_suffix [d] a O).
  - change (chars "//" ++ body ++ t) with (47%N :: 47%N :: body ++ t) in E.
    destruct a as [|x a]; cbn [app] in E; [discriminate E|]. injection E as <- E. destruct a as [|y a]; cbn [app] in E; [discriminate E|]. injection E as <- E.
    symmetry in E. apply app_eq_app in E as (l & [[-> E]|[-> E]]).
    + apply (IH l m E). apply (outside_suffix (47 :: 47 :: body)%N l O).
    + destruct (O [] a eq_refl) as (c & Hc & Hl). unfold all in Hb. rewrite Forall_forall in Hb. apply (Hb c); [apply in_or_app; left; exact Hc|exact Hl].
Qed.
Lemma tail_backslash t : string_tail t -> forall a m, t = a ++ 92%N :: 10%N :: m -> no_backslash a -> False.
Proof.
  induction 1 as [|c t Hc S IH|c t Hc S IH]; intros a m E N.
  - destruct a as [|x a]; [discriminate E|]. injection E as _ E. destruct a; discriminate E.
  - destruct a as [|x a]; cbn [app] in E; injection E as -> E.
    + apply Hc. right. left. reflexivity.
    + apply (IH a m E). apply (no_backslash_app [x] a) in N. exact (proj2 N).
  - change (chars "\") with [92%N] in E. destruct a as [|x a]; cbn [app] in E; injection E as E0 E.
    + subst c. cbn in Hc. repeat destruct Hc as [Hc|Hc]; try discriminate Hc. exact Hc.
    + apply N. left. symmetry. exact E0.
Qed.
Lemma symbol_no_backslash k s : symbol k = Some s -> no_backslash (chars s).
Proof. destruct k; intro H; try discriminate H; injection H as <-; cbn; intro K; repeat destruct K as [K|K]; try discriminate K; exact K. Qed.
Lemma word_no_backslash w : all word_char w -> no_backslash w.
Proof.
  intros H K. unfold all in H. rewrite Forall_forall in H. specialize (H _ K). apply is_word_char in H. discriminate H.
Qed.
Definition unread (t : token) : Prop := tk_error t <> None \/ tk_kind t = TError.
Lemma lexeme_backslash k s rest e : lexeme k s rest e -> forall a m b, s = a ++ m -> m <> [] -> m ++ rest = 92%N :: 10%N :: b -> no_backslash a -> no_backslash b ->
  e <> None \/ k = TError.
Proof.
  intros L a m b Es Hm E Na Nb. destruct m as [|x m]; [destruct Hm; reflexivity|]. cbn [app] in E. injection E as -> E.
  assert (B : ~ no_backslash s) by (rewrite Es; intro K; apply K; apply in_or_app; right; left; reflexivity).
  destruct L as [k1 w rest1 Hk Hs Hw Hr|w rest1 Hk Hs Hw Hr|d rest1 Hd Hw Hr Hf|d f rest1 Hd Hf Hw Hwf Hr|t rest1 St|rest1 e1 Bs|rest1 H1 H2|t rest1 Ht|rest1 Ht|k1 s1 rest1 Hk Hc Hl|c rest1 H1 H2 H3 H4].
  - destruct (B (word_no_backslash _ Hw)).
  - destruct (B (word_no_backslash _ Hw)).
  - destruct B. apply word_no_backslash. eapply Forall_impl; [|exact Hw]. intros c Hc. right. exact Hc.
  - destruct B. apply no_backslash_app. split; [|apply (no_backslash_app (chars ".") f); split].
    + apply word_no_backslash. eapply Forall_impl; [|exact Hw]. intros c Hc. right. exact Hc.
    + intros [K|[]]. discriminate K.
    + apply word_no_backslash. eapply Forall_impl; [|exact Hwf]. intros c Hc. right. exact Hc.
  - exfalso. change (chars """") with [34%N] in Es. destruct a as [|y a]; cbn [app] in Es; [discriminate Es|]. injection Es as _ Es.
    apply (no_backslash_app [y] a) in Na as [_ Na]. destruct m as [|z m].
    + (* a string ends with a quote *)
      clear - Es St Na. revert a Es Na. induction St as [|c t Hc S IH|c t Hc S IH]; intros a E N.
      * destruct a as [|x a]; [discriminate E|]. injection E as _ E. destruct a; discriminate E.
      * destruct a as [|x a]; cbn [app] in E; injection E as -> E; [apply Hc; right; left; reflexivity|].
        apply (IH a E). exact (proj2 (proj1 (no_backslash_app [x] a) N)).
      * change (chars "\") with [92%N] in E. destruct a as [|x a]; cbn [app] in E; [discriminate E|]. injection E as E0 E. apply N. left. symmetry. exact E0.
    + cbn [app] in E. injection E as -> E. apply (tail_backslash t St a m Es Na).
  - left. discriminate.
  - right. reflexivity.
  - exfalso. change (chars "\") with [92%N] in Es. destruct a as [|y a]; cbn [app] in Es.
    + injection Es as <-. rewrite <- app_assoc in E. destruct t as [|z t]; cbn [app] in E; [discriminate E|]. injection E as E1 E.
      apply Nb. rewrite <- E. apply in_or_app. right. left. reflexivity.
    + injection Es as E0 Es. apply Na. left. symmetry. exact E0.
  - right. reflexivity.
  - destruct (B (symbol_no_backslash _ _ Hk)).
  - right. reflexivity.
Qed.
Lemma tokens_backslash pos t ts : tokens_of pos t ts -> forall a b, t = a ++ 92%N :: 10%N :: b -> no_backslash a -> no_backslash b -> outside_comment a ->
  exists tk, In tk ts /\ unread tk.
Proof.
  induction 1 as [pos g B|pos g k s rest e ts B L Ns Nw Nc T IH]; intros a b E Na Nb O.
  - destruct (blank_backslash _ _ B a (10%N :: b) E O).
  - apply app_eq_app in E as (l & [[-> E]|[-> E]]).
    + destruct l as [|x l].
      * cbn [app] in E. rewrite app_nil_r in *. exists (Tok k (pos + text_len a) s e). split; [left; reflexivity|].
        apply (lexeme_backslash _ _ _ _ L [] s b eq_refl Ns (eq_sym E)); [intros []|exact Nb].
      * exfalso. cbn [app] in E. injection E as <- E. exact (blank_backslash _ _ B a l eq_refl O).
    + apply no_backslash_app in Na as [Ng Nl]. apply outside_suffix in O. apply app_eq_app in E as (m & [[-> E]|[-> E]]).
      * destruct m as [|x m].
        -- rewrite app_nil_r in *. cbn [app] in E. destruct (IH [] b (eq_sym E)) as (tk & Hi & Hu); [intros []|exact Nb|intros x y K; destruct x; discriminate K|].
           exists tk. split; [right; exact Hi|exact Hu].
        -- exists (Tok k (pos + text_len g) (l ++ x :: m) e). split; [left; reflexivity|].
           apply (lexeme_backslash _ _ _ _ L l (x :: m) b eq_refl); [discriminate|exact (eq_sym E)|exact Nl|exact Nb].
      * apply no_backslash_app in Nl as [_ Nm]. destruct (IH m b E Nm Nb (outside_suffix _ _ O)) as (tk & Hi & Hu). exists tk. split; [right; exact Hi|exact Hu].
Qed.
Lemma continued_refused a b : no_backslash a -> no_backslash b -> outside_comment a ->
  braces_match (tokenize (a ++ chars "\" ++ 10%N :: b)) -> forall e, parse (a ++ chars "\" ++ 10%N :: b) <> Ok e.
Proof.
  intros Na Nb O M e E. destruct (tokens_backslash 0 _ _ (tokenize_ok (a ++ chars "\" ++ 10%N :: b)) a b eq_refl Na Nb O) as (tk & Hi & Hu).
  unfold parse in E. destruct (parse_tokens (tokenize (a ++ chars "\" ++ 10%N :: b))) as [[x rest]|c| |] eqn:Ep; try discriminate E.
  assert (rest = []) as -> by exact (parse_uses_all _ _ _ M Ep).
  destruct (parse_tokens_clean _ _ _ Ep) as (used & Eu & F). rewrite app_nil_r in Eu. rewrite Eu in Hi. rewrite Forall_forall in F.
  destruct (F tk Hi) as [F1 F2]. destruct Hu as [Hu|Hu]; [exact (Hu F1)|]. apply F2. rewrite Hu. right. right. left. reflexivity.
Qed.

(** * Samples *)
Definition plain_line (l : list char) : bool := negb (existsb (fun c => (c =? 10)%N) l).
Lemma plain_one l : plain_line l = true -> one_line l.
Proof. unfold plain_line, one_line. intros H K. apply Bool.negb_true_iff in H. assert (existsb (fun c => (c =? 10)%N) l = true) by (apply existsb_exists; exists 10%N; split; [exact K|reflexivity]). congruence. Qed.
(** An entry, by computation. *)
Definition is_entry (front : list (list char)) (l : list char) : bool :=
  forallb (fun x => ends_with 92%N (trim_end x)) front && negb (ends_with 92%N (trim_end l)) && forallb plain_line (front ++ [l]).
Lemma is_entry_ok front l t : is_entry front l = true -> typed (map trim_end (front ++ [l])) = t -> entry (front ++ [l]) t.
Proof.
  unfold is_entry. intros H <-. apply Bool.andb_true_iff in H as [H H3]. apply Bool.andb_true_iff in H as [H1 H2].
  exists front, l, (map trim_end (front ++ [l])). split; [reflexivity|]. split; [|split; [|split; [|split]]].
  - apply Forall_forall. intros x Hx. rewrite forallb_forall in H1. apply continued_spec, H1, Hx.
  - rewrite <- continued_spec. apply Bool.negb_true_iff in H2. rewrite H2. discriminate.
  - apply Forall_forall. intros x Hx. rewrite forallb_forall in H3. apply plain_one, H3, Hx.
  - generalize (front ++ [l]). intro ls. induction ls as [|x ls IH]; cbn [map]; constructor; [apply trim_end_strips|exact IH].
  - reflexivity.
Qed.
Definition no_code (n : N) (l : list char) : bool := negb (existsb (fun c => (c =? n)%N) l).
Lemma no_code_ok n l : no_code n l = true -> ~ In n l.
Proof. unfold no_code. intros H K. apply Bool.negb_true_iff in H. assert (existsb (fun c => (c =? n)%N) l = true) by (apply existsb_exists; exists n; split; [exact K|apply N.eqb_refl]). congruence. Qed.
Lemma no_slash_outside a : no_code 47%N a = true -> outside_comment a.
Proof. intros H x y ->. destruct (no_code_ok _ _ H). apply in_or_app. right. left. reflexivity. Qed.
Lemma no_braces ts : forallb (fun t => negb (kind_eqb (tk_kind t) TRightCurly)) ts = true -> braces_match ts.
Proof.
  intros H a b ->. induction a as [|t a IH]; [apply Z.le_refl|]. cbn [app forallb] in H. apply Bool.andb_true_iff in H as [H1 H2]. specialize (IH H2).
  cbn [depth]. assert (0 <= curl (tk_kind t))%Z by (destruct (tk_kind t); try discriminate H1; cbn; lia). lia.
Qed.
