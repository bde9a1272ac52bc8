(** Reports: lines, digits, trimming, and what the formatter writes. *)
From Coq Require Import DecimalString DecimalNat DecimalFacts.
From Verif.Spec Require Import ReportSpec.
From Verif.Proofs Require Import SourceP.

(** ** Digits *)

Lemma nzhead_no_zero d : forall r, Decimal.nzhead d <> Decimal.D0 r.
Proof. induction d; intros r; cbn [Decimal.nzhead]; try discriminate. apply IHd. Qed.

Lemma to_uint_norm n : Decimal.unorm (Nat.to_uint n) = Nat.to_uint n.
Proof. rewrite <- DecimalNat.Unsigned.to_of. now rewrite DecimalNat.Unsigned.of_to. Qed.

Lemma digits_range d : Forall (fun c => (48 <= c <= 57)%N) (chars (NilEmpty.string_of_uint d)).
Proof. induction d; cbn [NilEmpty.string_of_uint chars]; constructor; try assumption; cbv; split; discriminate. Qed.

Lemma digits_fold d : forall acc,
  fold_left (fun v c => v * 10 + (c - 48))%N (chars (NilEmpty.string_of_uint d)) (N.of_nat acc)
  = N.of_nat (Nat.of_uint_acc d acc).
Proof.
  induction d; intros acc; cbn [NilEmpty.string_of_uint chars fold_left Nat.of_uint_acc]; [reflexivity|..];
    rewrite Nat.tail_mul_spec; rewrite <- IHd; f_equal;
    match goal with |- context [N_of_ascii ?a] => let v := eval vm_compute in (N_of_ascii a) in change (N_of_ascii a) with v end;
    lia.
Qed.

Lemma usize_text_decimal n : decimal_of n (usize_text n).
Proof.
  unfold usize_text. pose proof (to_uint_norm n) as Hn.
  pose proof (DecimalNat.Unsigned.of_to n) as Hv. set (d := Nat.to_uint n) in *.
  assert (Hd : d <> Decimal.Nil) by (intros E; rewrite E in Hn; discriminate Hn).
  assert (E : NilZero.string_of_uint d = NilEmpty.string_of_uint d) by (destruct d; [congruence|reflexivity..]).
  rewrite E. split; [|split; [|split]].
  - destruct d; [congruence|..]; cbn [NilEmpty.string_of_uint chars]; discriminate.
  - apply digits_range.
  - unfold digits_value. change 0%N with (N.of_nat 0). rewrite digits_fold. unfold Nat.of_uint in Hv. now rewrite Hv.
  - intros r Hr. destruct d as [|d|d|d|d|d|d|d|d|d|d]; cbn [NilEmpty.string_of_uint chars] in Hr;
      try congruence; try (injection Hr as Hc _; vm_compute in Hc; discriminate Hc).
    injection Hr as <-.
    unfold Decimal.unorm in Hn. cbn [Decimal.nzhead] in Hn.
    destruct (Decimal.nzhead d) as [|z|z|z|z|z|z|z|z|z|z] eqn:Ez; try discriminate Hn.
    + injection Hn as Hn. now rewrite <- Hn.
    + exfalso. exact (nzhead_no_zero d z Ez).
Qed.

(** ** Trimming *)

Lemma trim_start_split t : exists w, t = w ++ trim_start t /\ all_white w /\ starts_dark (trim_start t).
Proof.
  induction t as [|c t (w & E & W & D)]; cbn [trim_start].
  - exists []. repeat split; [constructor|]. intros a c H. discriminate.
  - destruct (is_white c) eqn:Ec.
    + exists (c :: w). cbn [app]. rewrite <- E. repeat split; [constructor; assumption|assumption].
    + exists []. repeat split; [constructor|]. intros a b [= <- _]. exact Ec.
Qed.

Lemma trim_end_split t : without_end t (trim_end t).
Proof.
  unfold trim_end. destruct (trim_start_split (rev t)) as (w & E & W & D).
  exists (rev w). split; [|split].
  - rewrite <- rev_app_distr, <- E. now rewrite rev_involutive.
  - unfold all_white in *. rewrite Forall_forall in *. intros c Hc. apply W. now apply in_rev.
  - intros a c Ha. apply (D (rev a)). rewrite <- (rev_involutive (trim_start (rev t))), Ha. now rewrite rev_app_distr.
Qed.

Lemma trim_split t : without_ends t (trim t).
Proof.
  unfold trim. destruct (trim_start_split t) as (v & E & V & D).
  destruct (trim_end_split (trim_start t)) as (w & E2 & W & D2).
  exists v, w. repeat split; try assumption.
  - now rewrite <- E2.
  - intros a c Ha. rewrite Ha in E2. cbn [app] in E2. exact (D _ _ E2).
Qed.

Lemma left4_column d : in_column d (left4 d).
Proof.
  exists (repeat 32%N (4 - List.length d)). split; [reflexivity|]. split.
  - rewrite Forall_forall. intros c Hc. exact (repeat_spec _ _ _ Hc).
  - unfold left4. rewrite app_length, repeat_length. lia.
Qed.

(** ** Lines *)

Definition line_span (l : line) : span := Span (ln_start l) (ln_start l + text_len (ln_text l)).

Lemma line_spans_lines t : forall n s cur,
  line_spans t s (s + text_len cur) = map line_span (lines_from n s cur t).
Proof.
  induction t as [|c t IH]; intros n s cur; cbn [line_spans lines_from map]; [reflexivity|].
  replace (s + text_len cur + len_utf8 c) with (s + text_len (cur ++ [c])) by (rewrite text_len_app, text_len_cons; cbn [text_len fold_right]; lia).
  destruct (N.eqb c newline); cbn [map].
  - f_equal. rewrite <- (IH (n + 1) (s + text_len (cur ++ [c])) []). f_equal. cbn [text_len fold_right]. lia.
  - apply IH.
Qed.

Lemma line_spans_of t : line_spans t 0 0 = map line_span (lines_of t).
Proof. exact (line_spans_lines t 1 0 []). Qed.

Lemma newline_count_app a b : newline_count (a ++ b) = newline_count a + newline_count b.
Proof. unfold newline_count. now rewrite filter_app, app_length. Qed.

Lemma lines_from_in t : forall n s cur pre l, n = 1 + newline_count pre -> s = text_len pre -> newline_count cur = 0 ->
  In l (lines_from n s cur t) ->
  exists a r, pre ++ cur ++ t = a ++ ln_text l ++ r /\ ln_start l = text_len a /\ ln_number l = 1 + newline_count a.
Proof.
  induction t as [|c t IH]; intros n s cur pre l Hn Hs Hc Hin; cbn [lines_from] in Hin.
  - destruct Hin as [<-|[]]. exists pre, []. cbn [ln_text ln_start ln_number]. repeat split; assumption.
  - destruct (N.eqb c newline) eqn:Ec.
    + destruct Hin as [<-|Hin].
      * exists pre, t. cbn [ln_text ln_start ln_number]. repeat split; try assumption. rewrite <- app_assoc. reflexivity.
      * apply (IH _ _ _ (pre ++ cur ++ [c])) in Hin; [| | |reflexivity].
        -- destruct Hin as (a & r & E & H1 & H2). exists a, r. repeat split; try assumption.
           rewrite <- E. rewrite <- !app_assoc. reflexivity.
        -- rewrite !newline_count_app, Hc. unfold newline_count at 2. cbn [filter]. rewrite Ec. cbn [List.length]. lia.
        -- rewrite (text_len_app pre). lia.
    + apply (IH _ _ _ pre) in Hin; [|assumption|assumption|].
      * destruct Hin as (a & r & E & H1 & H2). exists a, r. repeat split; try assumption.
        rewrite <- E. rewrite <- !app_assoc. reflexivity.
      * rewrite newline_count_app, Hc. unfold newline_count. cbn [filter]. rewrite Ec. reflexivity.
Qed.

Lemma lines_of_in t l : In l (lines_of t) ->
  exists a r, t = a ++ ln_text l ++ r /\ ln_start l = text_len a /\ ln_number l = 1 + newline_count a.
Proof. intros H. exact (lines_from_in t 1 0 [] [] l eq_refl eq_refl eq_refl H). Qed.

Lemma cut_app a b : cut (a ++ b) (text_len a) = Some (a, b).
Proof.
  induction a as [|c a IH].
  - destruct b; reflexivity.
  - cbn [app]. rewrite text_len_cons. pose proof (len_utf8_pos c). cbn [cut].
    destruct (Nat.eqb_spec (len_utf8 c + text_len a) 0); [lia|].
    destruct (Nat.leb_spec (len_utf8 c) (len_utf8 c + text_len a)); [|lia].
    replace (len_utf8 c + text_len a - len_utf8 c) with (text_len a) by lia. now rewrite IH.
Qed.

Lemma slice_line t l : In l (lines_of t) -> slice t (line_span l) = Ok (ln_text l).
Proof.
  intros H. destruct (lines_of_in t l H) as (a & r & E & Hs & _). unfold slice, line_span. cbn [sp_start sp_end].
  destruct (Nat.ltb_spec (ln_start l + text_len (ln_text l)) (ln_start l)); [lia|].
  rewrite Hs, E, cut_app. replace (text_len a + text_len (ln_text l) - text_len a) with (text_len (ln_text l)) by lia.
  now rewrite cut_app.
Qed.

Lemma position_line t l : In l (lines_of t) ->
  exists c, position_of (li_new t) (ln_start l) = Ok (ln_number l - 1, c).
Proof.
  intros H. destruct (lines_of_in t l H) as (a & r & E & Hs & Hn).
  exists (utf16_length (after_last_newline a [])).
  assert (Ha : firstn (List.length a) t = a) by (rewrite E, firstn_app, Nat.sub_diag, firstn_all; apply app_nil_r).
  pose proof (position_of_spec t (List.length a)) as P. unfold byte_offset in P. rewrite Ha in P. rewrite Hs, P.
  f_equal. f_equal. lia.
Qed.

Lemma filter_map {A B} (f : A -> B) p l : filter p (map f l) = map f (filter (fun x => p (f x)) l).
Proof. induction l as [|x l IH]; cbn [map filter]; [reflexivity|]. destruct (p (f x)); cbn [map]; now rewrite IH. Qed.

Lemma li_lines_lines t s k : starts_at t s k ->
  li_lines (li_new t) s = Ok (map line_span (filter (touches s) (lines_of t))).
Proof.
  intros (Hk & Hs & Hf). rewrite li_lines_spec; [|assumption|].
  - f_equal. rewrite line_spans_of, filter_map. f_equal. apply filter_ext. intros l.
    unfold touches, line_span, span_is_empty. cbn [sp_start sp_end]. f_equal.
    destruct (Nat.ltb_spec 0 (text_len (ln_text l))), (Nat.eqb_spec (ln_start l) (ln_start l + text_len (ln_text l))); cbn [negb]; try reflexivity; lia.
  - rewrite Hs. unfold byte_offset. pose proof (firstn_skipn k t) as E.
    apply (f_equal text_len) in E. rewrite text_len_app in E.
    assert (0 < text_len (skipn k t)); [|lia].
    destruct (skipn k t) as [|c r] eqn:Er.
    + apply (f_equal (@List.length _)) in Er. rewrite skipn_length in Er. cbn [List.length] in Er. lia.
    + rewrite text_len_cons. pose proof (len_utf8_pos c). lia.
Qed.

(** ** Loops *)

Lemma write_all_each {A B} (f : B -> outcome (list char)) (g : A -> B) (p : A -> list char -> Prop) l :
  (forall a, In a l -> exists x, f (g a) = Ok x /\ p a x) ->
  exists y, write_all f (map g l) = Ok y /\ each p l y.
Proof.
  induction l as [|a l IH]; intros H; cbn [map write_all].
  - exists []. split; [reflexivity|constructor].
  - destruct (H a (or_introl eq_refl)) as (x & -> & Hx).
    destruct IH as (y & -> & Hy). { intros b Hb. apply H. now right. }
    exists (x ++ y). split; [reflexivity|]. constructor; assumption.
Qed.

Lemma write_all_ok {B} (f : B -> outcome (list char)) l :
  (forall b, In b l -> exists x, f b = Ok x) -> exists y, write_all f l = Ok y.
Proof.
  induction l as [|a l IH]; intros H; cbn [write_all]; [eexists; reflexivity|].
  destruct (H a (or_introl eq_refl)) as (x & ->). destruct IH as (y & ->). { intros b Hb. apply H. now right. }
  eexists. reflexivity.
Qed.

(** ** The pieces of a report *)

Lemma fmt_position_place e s k : starts_at (src_text s) (er_span e) k ->
  exists place, place_of s k place /\ fmt_position e s = Ok (chars "  --> " ++ place ++ [newline]).
Proof.
  intros (_ & Hs & _). unfold fmt_position, src_index. rewrite Hs, position_of_spec. cbn [obind].
  eexists. split; [|reflexivity]. unfold place_text, place_of. eexists _, _. split; [reflexivity|].
  rewrite !(Nat.add_comm _ 1). split; apply usize_text_decimal.
Qed.

Lemma source_line_shown s l : In l (lines_of (src_text s)) ->
  exists x, fmt_source_line s (line_span l) = Ok x /\ shown_line l x.
Proof.
  intros H. unfold fmt_source_line, src_index. unfold line_span at 1. cbn [sp_start].
  destruct (position_line _ _ H) as (c & ->). cbn [obind]. rewrite (slice_line _ _ H). cbn [obind].
  destruct (lines_of_in _ _ H) as (a & r & _ & _ & Hn).
  eexists. split; [reflexivity|].
  exists (usize_text (ln_number l)), (left4 (usize_text (ln_number l))), (trim_end (ln_text l)).
  split; [apply usize_text_decimal|]. split; [apply left4_column|]. split; [apply trim_end_split|].
  replace (ln_number l - 1 + 1) with (ln_number l) by lia. reflexivity.
Qed.

Lemma fmt_source_shown e s k : starts_at (src_text s) (er_span e) k ->
  exists x, fmt_source e s = Ok x /\ source_shown (src_text s) (er_span e) x.
Proof.
  intros H. unfold fmt_source, src_index. rewrite (li_lines_lines _ _ _ H). cbn [obind].
  set (ls := filter (touches (er_span e)) (lines_of (src_text s))).
  destruct (write_all_each (fmt_source_line s) line_span shown_line ls) as (y & Hy & Ey).
  { intros l Hl. apply source_line_shown. unfold ls in Hl. now apply filter_In in Hl. }
  rewrite Hy. unfold source_shown. fold ls. destruct (map line_span ls) eqn:El.
  - exists []. split; [reflexivity|]. apply map_eq_nil in El. exists y. split; [assumption|]. split; [reflexivity|]. intros C. congruence.
  - eexists. split; [reflexivity|]. exists y. split; [assumption|]. split.
    + intros C. rewrite C in El. discriminate.
    + intros _. reflexivity.
Qed.

Lemma lines_starts t : map ln_start (lines_of t) = 0 :: nl 0 t.
Proof.
  assert (G : forall t n s cur, map ln_start (lines_from n s cur t) = s :: nl (s + text_len cur) t); [|exact (G t 1 0 [])].
  induction t0 as [|c r IH]; intros n s cur; cbn [lines_from map nl]; [reflexivity|].
  assert (L : s + text_len (cur ++ [c]) = s + text_len cur + len_utf8 c)
    by (rewrite text_len_app, text_len_cons; cbn [text_len fold_right]; lia).
  destruct (N.eqb c newline); cbn [map ln_start].
  - f_equal. rewrite IH. cbn [text_len fold_right]. rewrite Nat.add_0_r, L. reflexivity.
  - rewrite IH, L. reflexivity.
Qed.

Lemma first_number_line t s k : starts_at t s k ->
  List.length (filter (fun l => ln_start l <=? sp_start s) (lines_of t)) = 1 + newline_count (firstn k t).
Proof.
  intros (_ & Hs & _).
  rewrite <- (map_length ln_start). rewrite <- (filter_map ln_start (fun x => x <=? sp_start s)). rewrite lines_starts.
  rewrite Hs. unfold byte_offset. cbn [filter Nat.leb List.length]. cbn [Nat.add]. f_equal.
  rewrite <- (firstn_skipn k t) at 1. rewrite nl_app, filter_app, app_length.
  set (a := firstn k t).
  assert (F1 : filter (fun x => x <=? text_len a) (nl 0 a) = nl 0 a).
  { assert (G : forall l, (forall x, In x l -> x <= text_len a) -> filter (fun x => x <=? text_len a) l = l).
    { induction l as [|x l IH]; intros H; [reflexivity|]. cbn [filter].
      destruct (Nat.leb_spec x (text_len a)) as [Hle|]; [|specialize (H x (or_introl eq_refl)); lia].
      f_equal. apply IH. intros y Hy. apply H. now right. }
    apply G. intros x Hx. apply nl_bounds in Hx. lia. }
  assert (F2 : filter (fun x => x <=? text_len a) (nl (0 + text_len a) (skipn k t)) = []).
  { assert (G : forall l, (forall x, In x l -> text_len a < x) -> filter (fun x => x <=? text_len a) l = []).
    { induction l as [|x l IH]; intros H; [reflexivity|]. cbn [filter].
      destruct (Nat.leb_spec x (text_len a)) as [Hle|]; [specialize (H x (or_introl eq_refl)); lia|].
      apply IH. intros y Hy. apply H. now right. }
    apply G. intros x Hx. apply nl_bounds in Hx. lia. }
  rewrite F1, F2, nl_length. cbn [List.length]. lia.
Qed.

Lemma trace_line_shown t line l : In l (lines_of (src_text (tr_source t))) ->
  exists x, fmt_trace_line t line (line_span l) = Ok x /\
    forall n : ReportSpec.line -> nat, n l = line + 1 -> traced_line n l x.
Proof.
  intros H. unfold fmt_trace_line. rewrite (slice_line _ _ H). cbn [obind].
  eexists. split; [reflexivity|]. intros n Hn.
  exists (usize_text (line + 1)), (left4 (usize_text (line + 1))), (trim (ln_text l)).
  rewrite Hn. split; [apply usize_text_decimal|]. split; [apply left4_column|]. split; [apply trim_split|]. reflexivity.
Qed.

Lemma fmt_one_trace_traced t k : starts_at (src_text (tr_source t)) (tr_span t) k ->
  exists x, fmt_one_trace t = Ok x /\
    forall n, (forall l, In l (filter (touches (tr_span t)) (lines_of (src_text (tr_source t)))) -> n t l = first_number t l) ->
      traced n t x.
Proof.
  intros H. unfold fmt_one_trace, src_index. rewrite (proj1 (proj2 H)), position_of_spec. cbn [obind].
  rewrite (li_lines_lines _ _ _ H). cbn [obind].
  set (ls := filter (touches (tr_span t)) (lines_of (src_text (tr_source t)))).
  set (line := newline_count (firstn k (src_text (tr_source t)))).
  destruct (write_all_each (fmt_trace_line t line) line_span
              (fun l x => forall n : ReportSpec.line -> nat, n l = line + 1 -> traced_line n l x) ls) as (y & Hy & Ey).
  { intros l Hl. apply trace_line_shown. unfold ls in Hl. now apply filter_In in Hl. }
  rewrite Hy. cbn [obind]. eexists. split; [reflexivity|]. intros n Hn.
  exists k. eexists. exists y. split; [assumption|]. split; [|split; [|reflexivity]].
  - unfold place_text, place_of. eexists _, _. split; [reflexivity|].
    fold line. rewrite !(Nat.add_comm _ 1). split; apply usize_text_decimal.
  - assert (F : forall l, first_number t l = line + 1).
    { intros l. unfold first_number. rewrite (first_number_line _ _ _ H). fold line. lia. }
    clear Hy. fold ls. revert Ey. induction 1 as [|a l x z Hx Hz IH]; constructor.
    + apply Hx. rewrite <- (F a). apply Hn. now left.
    + apply IH. intros b Hb. apply Hn. now right.
Qed.

Lemma fmt_trace_shown e : traces_inside (er_trace e) ->
  exists x, fmt_trace e = Ok x /\
    forall n, (forall t l, In t (er_trace e) ->
                 In l (filter (touches (tr_span t)) (lines_of (src_text (tr_source t)))) -> n t l = first_number t l) ->
      trace_shown n (er_trace e) x.
Proof.
  intros H. unfold fmt_trace, trace_shown. destruct (er_trace e) as [|t0 r0] eqn:Et.
  - exists []. split; [reflexivity|]. intros n _. left. split; reflexivity.
  - set (ts := t0 :: r0) in *.
    destruct (write_all_each fmt_one_trace (fun t => t)
      (fun t x => forall n, (forall l, In l (filter (touches (tr_span t)) (lines_of (src_text (tr_source t)))) -> n t l = first_number t l) -> traced n t x)
      (rev ts)) as (y & Hy & Ey).
    { intros t Ht. apply in_rev in Ht. unfold traces_inside in H. rewrite Forall_forall in H.
      destruct (H t Ht) as (k & Hk). exact (fmt_one_trace_traced t k Hk). }
    rewrite map_id in Hy. rewrite Hy. cbn [obind]. eexists. split; [reflexivity|]. intros n Hn. right.
    split; [discriminate|]. exists y. split; [|reflexivity].
    assert (G : forall l, (forall t, In t l -> In t ts) ->
       forall z, each (fun t x => forall n, (forall l, In l (filter (touches (tr_span t)) (lines_of (src_text (tr_source t)))) -> n t l = first_number t l) -> traced n t x) l z ->
       each (traced n) l z).
    { intros l Hl z Hz. induction Hz as [|a l x z Hx Hz IH]; constructor.
      - apply Hx. intros b Hb. apply Hn; [apply Hl; now left|assumption].
      - apply IH. intros b Hb. apply Hl. now right. }
    apply (G (rev ts)); [|exact Ey]. intros t Ht. now apply in_rev.
Qed.

(** The report of an error with a source. *)
Lemma report_with_source e s k :
  er_source e = Some s -> starts_at (src_text s) (er_span e) k -> traces_inside (er_trace e) ->
  exists place lines trace,
    place_of s k place /\ source_shown (src_text s) (er_span e) lines /\
    trace_shown first_number (er_trace e) trace /\
    fmt_pretty e = Ok (headline e ++ chars "  --> " ++ place ++ [newline] ++ lines ++ flat_map note (er_context e) ++ trace).
Proof.
  intros Hsrc Hk Ht.
  destruct (fmt_position_place e s k Hk) as (place & Hp & Ep).
  destruct (fmt_source_shown e s k Hk) as (lines & El & Hl).
  destruct (fmt_trace_shown e Ht) as (tr & Etr & Htr).
  exists place, lines, tr. split; [assumption|]. split; [assumption|]. split; [apply Htr; reflexivity|].
  unfold fmt_pretty. rewrite Hsrc, Ep. cbn [obind]. rewrite El. cbn [obind]. rewrite Etr. cbn [obind].
  f_equal. change (fmt_message e) with (headline e). change (fmt_context e) with (flat_map note (er_context e)).
  now rewrite <- !app_assoc.
Qed.

Lemma report_without_source e :
  er_source e = None -> traces_inside (er_trace e) ->
  exists trace, trace_shown first_number (er_trace e) trace /\
    fmt_pretty e = Ok (headline e ++ flat_map note (er_context e) ++ trace).
Proof.
  intros Hsrc Ht. destruct (fmt_trace_shown e Ht) as (tr & Etr & Htr).
  exists tr. split; [apply Htr; reflexivity|].
  unfold fmt_pretty. rewrite Hsrc. cbn [obind]. rewrite Etr. reflexivity.
Qed.

Lemma short_report e :
  (forall s k, er_source e = Some s -> starts_at (src_text s) (er_span e) k ->
     exists place, place_of s k place /\ fmt e = Ok (headline e ++ chars "  --> " ++ place ++ [newline])) /\
  (er_source e = None -> fmt e = Ok (headline e)).
Proof.
  split.
  - intros s k Hs Hk. destruct (fmt_position_place e s k Hk) as (place & Hp & Ep).
    exists place. split; [assumption|]. unfold fmt. rewrite Hs, Ep. reflexivity.
  - intros Hs. unfold fmt. rewrite Hs. reflexivity.
Qed.

(** ** Traces within one line *)

Lemma line_at t s k : starts_at t s k -> forall l, In l (lines_of t) ->
  ln_start l <= sp_start s -> sp_start s < ln_start l + text_len (ln_text l) ->
  ln_number l = 1 + newline_count (firstn k t).
Proof.
  intros (Hk & Hs & _) l Hl H1 H2. destruct (position_line t l Hl) as (c & _).
  destruct (lines_of_in t l Hl) as (a & r & E & Ha & Hn). rewrite Hn. f_equal.
  rewrite Hs in H1, H2. rewrite Ha in H1, H2. unfold byte_offset in *.
  assert (P : forall x, text_len x = 0 -> x = []).
  { intros [|y x]; [reflexivity|]. rewrite text_len_cons. pose proof (len_utf8_pos y). lia. }
  (* the text up to the span is [a] and a proper beginning of the line *)
  assert (Q : exists m, firstn k t = a ++ m /\ exists z, ln_text l = m ++ z /\ z <> []).
  { assert (La : List.length a <= k).
    { destruct (Nat.le_gt_cases (List.length a) k) as [|Hgt]; [assumption|exfalso].
      assert (E2 : a = firstn k t ++ skipn k a).
      { rewrite <- (firstn_skipn k a) at 1. f_equal. rewrite E, firstn_app.
        replace (k - List.length a) with 0 by lia. cbn [firstn]. now rewrite app_nil_r. }
      apply (f_equal text_len) in E2. rewrite text_len_app in E2.
      assert (Z : text_len (skipn k a) = 0) by lia. apply P in Z.
      apply (f_equal (@List.length _)) in Z. rewrite skipn_length in Z. cbn [List.length] in Z. lia. }
    exists (firstn (k - List.length a) (ln_text l ++ r)).
    assert (F : firstn k t = a ++ firstn (k - List.length a) (ln_text l ++ r)).
    { rewrite E, firstn_app. f_equal. apply firstn_all2. lia. }
    split; [exact F|].
    assert (Lm : k - List.length a < List.length (ln_text l)).
    { destruct (Nat.lt_ge_cases (k - List.length a) (List.length (ln_text l))) as [|Hge]; [assumption|exfalso].
      rewrite F, firstn_app in H2. rewrite (firstn_all2 (ln_text l)) in H2 by lia.
      rewrite !text_len_app in H2. lia. }
    exists (skipn (k - List.length a) (ln_text l)). split.
    - rewrite firstn_app. replace (k - List.length a - List.length (ln_text l)) with 0 by lia.
      cbn [firstn]. rewrite app_nil_r. symmetry. apply firstn_skipn.
    - intros C. apply (f_equal (@List.length _)) in C. rewrite skipn_length in C. cbn [List.length] in C. lia. }
  destruct Q as (m & F & z & Hz & Nz). rewrite F, newline_count_app.
  assert (N0 : newline_count m = 0); [|lia].
  (* a line feed ends its line *)
  assert (G : forall t n s cur, newline_count cur = 0 -> forall l, In l (lines_from n s cur t) ->
            exists b, (ln_text l = b \/ ln_text l = b ++ [newline]) /\ newline_count b = 0).
  { clear. induction t as [|c t IH]; intros n s cur Hc l Hl; cbn [lines_from] in Hl.
    - destruct Hl as [<-|[]]. exists cur. split; [left; reflexivity|assumption].
    - destruct (N.eqb c newline) eqn:Ec.
      + destruct Hl as [<-|Hl].
        * apply N.eqb_eq in Ec. subst c. exists cur. split; [right; reflexivity|assumption].
        * refine (IH _ _ _ _ _ Hl). reflexivity.
      + refine (IH _ _ _ _ _ Hl). rewrite newline_count_app, Hc. unfold newline_count. cbn [filter]. rewrite Ec. reflexivity. }
  destruct (G t 1 0 [] eq_refl l Hl) as (b & Hb & Nb).
  destruct Hb as [Hb|Hb].
  - rewrite Hz in Hb. rewrite <- Hb, newline_count_app in Nb. lia.
  - rewrite Hz in Hb. destruct (exists_last Nz) as (z' & q & Eq). rewrite Eq, app_assoc in Hb.
    apply app_inj_tail in Hb as [Hb _]. rewrite <- Hb, newline_count_app in Nb. lia.
Qed.

Lemma lines_cover t : forall p, p < text_len t ->
  exists l, In l (lines_of t) /\ ln_start l <= p /\ p < ln_start l + text_len (ln_text l).
Proof.
  assert (G : forall t n s cur p, s <= p -> p < s + text_len cur + text_len t ->
    exists l, In l (lines_from n s cur t) /\ ln_start l <= p /\ p < ln_start l + text_len (ln_text l)).
  { clear. induction t as [|c t IH]; intros n s cur p H1 H2; cbn [lines_from].
    - exists (Line n s cur). split; [now left|]. cbn [ln_start ln_text]. change (text_len []) with 0 in H2. split; lia.
    - rewrite text_len_cons in H2.
      assert (L : text_len (cur ++ [c]) = text_len cur + len_utf8 c)
        by (rewrite text_len_app, text_len_cons; cbn [text_len fold_right]; lia).
      destruct (N.eqb c newline).
      + destruct (Nat.lt_ge_cases p (s + text_len (cur ++ [c]))) as [Hp|Hp].
        * exists (Line n s (cur ++ [c])). split; [now left|]. cbn [ln_start ln_text]. split; assumption.
        * destruct (IH (n + 1) (s + text_len (cur ++ [c])) [] p Hp) as (l & Hl & Hb).
          { change (text_len []) with 0. lia. }
          exists l. split; [now right|assumption].
      + apply IH; [assumption|]. lia. }
  intros p Hp. apply G; [lia|]. change (text_len []) with 0. lia.
Qed.

(** A trace within one line: every shown line has its own number. *)
Lemma trace_one_line e :
  traces_inside (er_trace e) ->
  Forall (fun t => sp_start (tr_span t) < sp_end (tr_span t) /\
    List.length (filter (touches (tr_span t)) (lines_of (src_text (tr_source t)))) <= 1) (er_trace e) ->
  exists x, fmt_trace e = Ok x /\ trace_shown own_number (er_trace e) x.
Proof.
  intros Hin H1. destruct (fmt_trace_shown e Hin) as (x & E & H). exists x. split; [assumption|]. apply H.
  intros t l Ht Hl. unfold own_number, first_number.
  unfold traces_inside in Hin. rewrite Forall_forall in Hin, H1.
  destruct (Hin t Ht) as (k & Hk). destruct (H1 t Ht) as (Hne & Hlen).
  rewrite (first_number_line _ _ _ Hk).
  assert (Hb : sp_start (tr_span t) < text_len (src_text (tr_source t))).
  { destruct Hk as (Hk & Hs & _). rewrite Hs. unfold byte_offset. pose proof (firstn_skipn k (src_text (tr_source t))) as F.
    apply (f_equal text_len) in F. rewrite text_len_app in F.
    assert (0 < text_len (skipn k (src_text (tr_source t)))); [|lia].
    destruct (skipn k (src_text (tr_source t))) as [|c r] eqn:Er.
    + apply (f_equal (@List.length _)) in Er. rewrite skipn_length in Er. cbn [List.length] in Er. lia.
    + rewrite text_len_cons. pose proof (len_utf8_pos c). lia. }
  destruct (lines_cover _ _ Hb) as (l0 & Hl0 & B1 & B2).
  assert (T0 : In l0 (filter (touches (tr_span t)) (lines_of (src_text (tr_source t))))).
  { apply filter_In. split; [assumption|]. unfold touches.
    destruct (Nat.ltb_spec (ln_start l0) (sp_end (tr_span t))); [|lia].
    destruct (Nat.ltb_spec (sp_start (tr_span t)) (ln_start l0 + text_len (ln_text l0))); [|lia].
    destruct (Nat.ltb_spec 0 (text_len (ln_text l0))); [reflexivity|lia]. }
  assert (l = l0).
  { destruct (filter (touches (tr_span t)) (lines_of (src_text (tr_source t)))) as [|u [|w r]].
    - contradiction.
    - destruct Hl as [<-|[]]. destruct T0 as [<-|[]]. reflexivity.
    - cbn [List.length] in Hlen. lia. }
  subst l0. exact (line_at _ _ _ Hk l Hl0 B1 B2).
Qed.

(** ** Reports always come out *)

Lemma utf16_loop_total a : forall b col r, col <= r + b -> exists v, utf16_loop (na_spans b a) col r = Ok v.
Proof.
  induction a as [|c a IH]; intros b col r H; cbn [na_spans].
  - eexists. reflexivity.
  - destruct (is_ascii c) eqn:Ea; cbn [app].
    + apply IH. lia.
    + cbn [utf16_loop sp_end].
      destruct (Nat.leb_spec (b + len_utf8 c) col) as [Hc|_]; [|eexists; reflexivity].
      unfold checked_sub. set (d := span_len _ - utf16_len _).
      assert (Hd : d <= len_utf8 c) by (unfold d, span_len; cbn [sp_start sp_end]; lia).
      destruct (Nat.ltb_spec r d); [lia|]. cbn [obind]. apply IH. lia.
Qed.

Lemma position_total t p : exists v, position_of (li_new t) p = Ok v.
Proof.
  unfold position_of. rewrite li_new_newlines.
  destruct (partition_exists (fun it => it <=? p) (0 :: nl 0 t)) as (k & Hk & Hpk).
  { apply starts_increasing. }
  { intros x y Hxy. rewrite !Nat.leb_le. lia. }
  rewrite (partition_point_spec _ _ k Hpk Hk).
  destruct k as [|l].
  { specialize (Hpk 0 0 eq_refl). cbn in Hpk. discriminate. }
  unfold checked_sub at 1. cbn [Nat.ltb Nat.leb obind]. replace (S l - 1) with l by lia.
  destruct (nth_error (0 :: nl 0 t) l) as [x|] eqn:Ex; [|apply nth_error_None in Ex; lia].
  pose proof (Hpk _ _ Ex) as Hx. rewrite (proj2 (Nat.ltb_lt l (S l))) in Hx by lia. apply Nat.leb_le in Hx.
  unfold checked_sub at 1. destruct (Nat.ltb_spec p x); [lia|]. cbn [obind].
  unfold convert_to_utf16_column. pose proof (li_new_utf16 t l) as G. unfold get_line in G.
  destruct (nat_get l (li_utf16 (li_new t))) as [cs|]; [|eexists; reflexivity].
  rewrite G. destruct (utf16_loop_total (line_content t [] l) 0 (p - x) (p - x)) as (v & ->); [lia|]. eexists. reflexivity.
Qed.

Lemma lines_total t s : forward s ->
  exists ls, li_lines (li_new t) s = Ok ls /\ forall x, In x ls -> exists l, In l (lines_of t) /\ x = line_span l.
Proof.
  intros H. destruct (li_lines_slice t s H) as (l & m & _ & _ & _ & _ & _ & ->).
  eexists. split; [reflexivity|]. intros x Hx. apply filter_In in Hx as [Hx _].
  assert (Hx' : In x (line_spans t 0 0)).
  { rewrite <- (firstn_skipn l (line_spans t 0 0)). apply in_or_app. right.
    rewrite <- (firstn_skipn (m - l) (skipn l (line_spans t 0 0))). apply in_or_app. now left. }
  rewrite line_spans_of in Hx'. apply in_map_iff in Hx' as (y & <- & Hy). exists y. split; [assumption|reflexivity].
Qed.

Lemma report_total e : all_forward e -> (exists x, fmt_pretty e = Ok x) /\ (exists y, fmt e = Ok y).
Proof.
  intros [He Ht].
  assert (P : forall s, exists x, fmt_position e s = Ok x).
  { intros s. unfold fmt_position, src_index. destruct (position_total (src_text s) (sp_start (er_span e))) as ([a b] & ->).
    eexists. reflexivity. }
  assert (L : forall s, exists x, fmt_source e s = Ok x).
  { intros s. unfold fmt_source, src_index. destruct (lines_total (src_text s) _ He) as (ls & -> & Hls). cbn [obind].
    destruct (write_all_ok (fmt_source_line s) ls) as (y & Ey).
    { intros b Hb. destruct (Hls b Hb) as (l & Hl & ->). destruct (source_line_shown s l Hl) as (x & -> & _). eexists. reflexivity. }
    destruct ls as [|l0 ls]; [eexists; reflexivity|]. rewrite Ey. eexists. reflexivity. }
  assert (T : exists x, fmt_trace e = Ok x).
  { unfold fmt_trace. destruct (er_trace e) as [|t0 r0] eqn:Et; [eexists; reflexivity|]. rewrite <- Et in *. clear Et t0 r0.
    destruct (write_all_ok fmt_one_trace (rev (er_trace e))) as (y & Ey).
    { intros t Hin. apply in_rev in Hin. rewrite Forall_forall in Ht. specialize (Ht t Hin).
      unfold fmt_one_trace, src_index. destruct (position_total (src_text (tr_source t)) (sp_start (tr_span t))) as ([a b] & ->). cbn [obind].
      destruct (lines_total (src_text (tr_source t)) _ Ht) as (ls & -> & Hls). cbn [obind].
      destruct (write_all_ok (fmt_trace_line t a) ls) as (z & ->); [|eexists; reflexivity].
      intros q Hq. destruct (Hls q Hq) as (l & Hl & ->). destruct (trace_line_shown t a l Hl) as (x & -> & _). eexists. reflexivity. }
    rewrite Ey. eexists. reflexivity. }
  destruct T as (tr & T). split.
  - unfold fmt_pretty. destruct (er_source e) as [s|].
    + destruct (P s) as (p & ->). cbn [obind]. destruct (L s) as (x & ->). cbn [obind]. rewrite T. eexists. reflexivity.
    + cbn [obind]. rewrite T. eexists. reflexivity.
  - unfold fmt. destruct (er_source e) as [s|]; [destruct (P s) as (p & ->)|]; eexists; reflexivity.
Qed.

(** ** A trace over two lines *)

Definition two_lines : list char := chars "let x = 5;" ++ [newline] ++ chars "x + ""a""".
Definition two_line_trace : error_trace := Trace (Source None two_lines) (Span 4 14).
Definition traced_error : error := push_trace two_line_trace (error_new DIVIDE_BY_ZERO).

Lemma digits_last n d : decimal_of n d -> exists r c, d = r ++ [c] /\ (c = 48 + N.of_nat n mod 10)%N.
Proof.
  intros (Hne & Hd & Hv & _). destruct (exists_last Hne) as (r & c & ->). exists r, c. split; [reflexivity|].
  unfold digits_value in Hv. rewrite fold_left_app in Hv. cbn [fold_left] in Hv.
  apply Forall_app in Hd as [_ Hc]. inversion Hc as [|? ? Hc' _]; subst. rewrite <- Hv.
  set (v := fold_left _ r 0%N) in *. rewrite (N.add_comm (v * 10)), N.mod_add by lia. rewrite N.mod_small by lia. lia.
Qed.

Lemma trace_numbers_wrong :
  traces_inside (er_trace traced_error) /\
  exists x, fmt_trace traced_error = Ok x /\ ~ trace_shown own_number (er_trace traced_error) x.
Proof.
  split.
  - constructor; [|constructor]. exists 4. repeat split; vm_compute; auto; lia.
  - assert (E : exists x, fmt_trace traced_error = Ok x /\ ~ In 50%N x).
    { eexists. split; [vm_compute; reflexivity|]. cbn [In]. intros H. repeat (destruct H as [H|H]; [discriminate H|]). exact H. }
    destruct E as (x & E & N2). exists x. split; [exact E|]. intros [[C _]|(_ & y & Hy & Ex)]; [discriminate C|].
    apply N2. rewrite Ex. apply in_or_app. right. apply in_or_app. right. apply in_or_app. right. clear - Hy.
    change (rev (er_trace traced_error)) with [two_line_trace] in Hy.
    inversion Hy as [|? ? a b Ha Hb]; subst. apply in_or_app. left.
    destruct Ha as (k & place & z & _ & _ & Hz & ->). apply in_or_app. right. apply in_or_app. right. apply in_or_app. right.
    assert (F : filter (touches (tr_span two_line_trace)) (lines_of (src_text (tr_source two_line_trace)))
                = [Line 1 0 (chars "let x = 5;" ++ [newline]); Line 2 11 (chars "x + ""a""")]) by (vm_compute; reflexivity).
    rewrite F in Hz. inversion Hz as [|? ? u v _ Hv]; subst. apply in_or_app. right.
    inversion Hv as [|? ? u' v' Hu' _]; subst. apply in_or_app. left.
    destruct Hu' as (d & col & t & Hd & (bl & -> & _) & _ & ->).
    apply in_or_app. right. apply in_or_app. left. apply in_or_app. left.
    destruct (digits_last _ _ Hd) as (r & c & -> & Hc). apply in_or_app. right. left. rewrite Hc. reflexivity.
Qed.

(** A span that runs backward stops the report. *)
Lemma backward_panics : exists e, fmt_pretty e = Panic.
Proof.
  exists (with_span (Span 4 0) (with_source (Source None [10; 10; 10; 10; 97]%N) (error_new PANIC))). vm_compute. reflexivity.
Qed.

(** ** Errors by what was told about them *)

Lemma tell_all l : forall e,
  er_code (fold_left tell l e) = er_code e /\
  er_trace (fold_left tell l e) = er_trace e ++ told_traces l /\
  er_context (fold_left tell l e) = er_context e ++ told_notes l.
Proof.
  induction l as [|x l IH]; intros e; cbn [fold_left].
  - unfold told_traces, told_notes. cbn [flat_map]. rewrite !app_nil_r. repeat split; reflexivity.
  - destruct (IH (tell e x)) as (A & B & C). rewrite A, B, C. unfold told_traces, told_notes. cbn [flat_map].
    destruct x; cbn; rewrite <- ?app_assoc; repeat split; reflexivity.
Qed.

Lemma quiet_source l : forall e, never_told a_source l -> er_source (fold_left tell l e) = er_source e.
Proof.
  induction l as [|x l IH]; intros e H; [reflexivity|]. unfold never_told in *. cbn [forallb] in H.
  apply andb_prop in H as [Hx H]. cbn [fold_left]. rewrite (IH _ H). destruct x; try discriminate Hx; reflexivity.
Qed.
Lemma quiet_span l : forall e, never_told a_span l -> er_span (fold_left tell l e) = er_span e.
Proof.
  induction l as [|x l IH]; intros e H; [reflexivity|]. unfold never_told in *. cbn [forallb] in H.
  apply andb_prop in H as [Hx H]. cbn [fold_left]. rewrite (IH _ H). destruct x; try discriminate Hx; reflexivity.
Qed.
Lemma quiet_tags l : forall e, never_told some_tags l -> er_tags (fold_left tell l e) = er_tags e.
Proof.
  induction l as [|x l IH]; intros e H; [reflexivity|]. unfold never_told in *. cbn [forallb] in H.
  apply andb_prop in H as [Hx H]. cbn [fold_left]. rewrite (IH _ H). destruct x; try discriminate Hx; reflexivity.
Qed.
Lemma told_source c l s : last_told a_source l (TellSource s) -> er_source (told_error c l) = Some s.
Proof.
  intros (a & b & -> & H). unfold told_error. rewrite fold_left_app. cbn [fold_left]. rewrite (quiet_source b _ H). reflexivity.
Qed.
Lemma told_span c l s : last_told a_span l (TellSpan s) -> er_span (told_error c l) = s.
Proof.
  intros (a & b & -> & H). unfold told_error. rewrite fold_left_app. cbn [fold_left]. rewrite (quiet_span b _ H). reflexivity.
Qed.
Lemma told_tags c l g : tags_told l g -> er_tags (told_error c l) = g.
Proof.
  intros [(a & b & -> & H)|[H ->]]; unfold told_error.
  - rewrite fold_left_app. cbn [fold_left]. rewrite (quiet_tags b _ H). reflexivity.
  - rewrite (quiet_tags l _ H). reflexivity.
Qed.

Lemma told_headline c l g : tags_told l g -> headline (told_error c l) = opening c g.
Proof.
  intros H. unfold headline, opening. rewrite (told_tags c l g H). destruct (tell_all l (error_new c)) as (E & _).
  unfold told_error. rewrite E. reflexivity.
Qed.

Lemma told_report c l s sp k g :
  last_told a_source l (TellSource s) -> last_told a_span l (TellSpan sp) -> tags_told l g ->
  starts_at (src_text s) sp k -> traces_inside (told_traces l) ->
  exists place lines trace,
    place_of s k place /\ source_shown (src_text s) sp lines /\ trace_shown first_number (told_traces l) trace /\
    fmt_pretty (told_error c l) =
      Ok (opening c g ++ chars "  --> " ++ place ++ [newline] ++ lines ++ flat_map note (told_notes l) ++ trace).
Proof.
  intros Hs Hp Hg Hk Ht. destruct (tell_all l (error_new c)) as (_ & Et & En).
  fold (told_error c l) in Et, En. cbn [error_new er_trace er_context] in Et, En. cbn [app] in Et, En.
  pose proof (report_with_source (told_error c l) s k (told_source c l s Hs)) as R.
  rewrite (told_span c l sp Hp), (told_headline c l g Hg), Et, En in R. exact (R Hk Ht).
Qed.

Lemma told_without_source c l g :
  never_told a_source l -> tags_told l g -> traces_inside (told_traces l) ->
  exists trace, trace_shown first_number (told_traces l) trace /\
    fmt_pretty (told_error c l) = Ok (opening c g ++ flat_map note (told_notes l) ++ trace).
Proof.
  intros Hs Hg Ht. destruct (tell_all l (error_new c)) as (_ & Et & En).
  fold (told_error c l) in Et, En. cbn [error_new er_trace er_context] in Et, En. cbn [app] in Et, En.
  assert (E : er_source (told_error c l) = None) by (unfold told_error; rewrite (quiet_source l _ Hs); reflexivity).
  pose proof (report_without_source (told_error c l) E) as R.
  rewrite (told_headline c l g Hg), Et, En in R. exact (R Ht).
Qed.
