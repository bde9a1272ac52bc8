(** Properties C36-C38: line and column of an offset, lines of a span, union of spans. *)
From Verif.Model Require Import Source.
From Verif.Spec Require Import TextPos.
From Verif.Proofs Require Import SourceP.

(** C36.  [byte_offset t k] is the byte offset of the k-th char of [t]; the answer is
    (line, column), counted directly on the text before that char. *)
Theorem C36_position_of : forall t k,
  position_of (li_new t) (byte_offset t k) =
  Ok (newline_count (firstn k t), utf16_length (after_last_newline (firstn k t) [])).
Proof. exact position_of_spec. Qed.
Print Assumptions C36_position_of.
(** "a\nbé😀c": the offset of the last char is 9, it is on line 1, at UTF-16 column 4. *)
Example C36_nonvacuous :
  let t := [97; 10; 98; 233; 128512; 99]%N in
  byte_offset t 5 = 9 /\ position_of (li_new t) 9 = Ok (1, 4).
Proof. vm_compute. auto. Qed.

(** C37. *)
Theorem C37_lines_of_span : forall t s, sp_start s <= sp_end s -> sp_start s < text_len t ->
  li_lines (li_new t) s =
  Ok (filter (fun ln => (sp_start ln <? sp_end s) && (sp_start s <? sp_end ln) && negb (span_is_empty ln))
        (line_spans t 0 0)).
Proof. exact li_lines_spec. Qed.
Print Assumptions C37_lines_of_span.

(** The lines of the specification do cut the text into consecutive pieces from 0 to its length. *)
Theorem C37_lines_partition_text : forall t,
  exists rest lastspan, line_spans t 0 0 = rest ++ [lastspan] /\
  sp_start (hd lastspan (line_spans t 0 0)) = 0 /\ sp_end lastspan = text_len t /\
  (forall i x y, nth_error (line_spans t 0 0) i = Some x -> nth_error (line_spans t 0 0) (S i) = Some y ->
     sp_end x = sp_start y).
Proof. exact (fun t => line_spans_cover t 0 0 (le_n 0)). Qed.
Print Assumptions C37_lines_partition_text.
(** "ab\n\ncd\ne", span 1..5. *)
Example C37_nonvacuous :
  let t := [97; 98; 10; 10; 99; 100; 10; 101]%N in
  text_len t = 8 /\ li_lines (li_new t) (Span 1 5) = Ok [Span 0 3; Span 3 4; Span 4 7].
Proof. vm_compute. auto. Qed.

(** A span whose end is before its start is not always answered. *)
Theorem C37_reversed_span_refuted : exists t s, sp_start s < text_len t /\ li_lines (li_new t) s = Panic.
Proof. exact li_lines_reversed. Qed.
Print Assumptions C37_reversed_span_refuted.

(** C38: least upper bound for inclusion, hence the usual laws. *)
Theorem C38_union_is_least : forall a b,
  (let u := span_add a b in
   sp_start u <= sp_start a /\ sp_end a <= sp_end u /\ sp_start u <= sp_start b /\ sp_end b <= sp_end u) /\
  (forall c, sp_start c <= sp_start a -> sp_end a <= sp_end c -> sp_start c <= sp_start b -> sp_end b <= sp_end c ->
     sp_start c <= sp_start (span_add a b) /\ sp_end (span_add a b) <= sp_end c).
Proof. exact span_add_lub. Qed.
Print Assumptions C38_union_is_least.

Theorem C38_union_laws : forall a b c,
  span_add a b = span_add b a /\ span_add a (span_add b c) = span_add (span_add a b) c /\ span_add a a = a.
Proof. exact span_add_laws. Qed.
Print Assumptions C38_union_laws.
Example C38_nonvacuous : span_add (Span 3 7) (Span 5 20) = Span 3 20.
Proof. reflexivity. Qed.
