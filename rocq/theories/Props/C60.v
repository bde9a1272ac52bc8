(** C60: the report of an error says where it happened and shows the lines it is about. *)
From Verif.Spec Require Import ReportSpec.
From Verif.Proofs Require ReportP.

(** Whatever the spans, as long as they run forward, both reports come out. *)
Theorem C60_report_total e :
  all_forward e -> (exists x, fmt_pretty e = Ok x) /\ (exists y, fmt e = Ok y).
Proof. exact (ReportP.report_total e). Qed.
Print Assumptions C60_report_total.

(** The report of an error in a source: headline, place, the touched lines each under its own number, notes in
    the order they were added, trace with the latest entry first. *)
Theorem C60_report_with_source e s k :
  er_source e = Some s -> starts_at (src_text s) (er_span e) k -> traces_inside (er_trace e) ->
  exists place lines trace,
    place_of s k place /\ source_shown (src_text s) (er_span e) lines /\
    trace_shown first_number (er_trace e) trace /\
    fmt_pretty e = Ok (headline e ++ chars "  --> " ++ place ++ [newline] ++ lines ++ flat_map note (er_context e) ++ trace).
Proof. exact (ReportP.report_with_source e s k). Qed.
Print Assumptions C60_report_with_source.

(** Without a source there is no place and there are no lines. *)
Theorem C60_report_without_source e :
  er_source e = None -> traces_inside (er_trace e) ->
  exists trace, trace_shown first_number (er_trace e) trace /\
    fmt_pretty e = Ok (headline e ++ flat_map note (er_context e) ++ trace).
Proof. exact (ReportP.report_without_source e). Qed.
Print Assumptions C60_report_without_source.

(** The short report is the headline and the place. *)
Theorem C60_short_report e :
  (forall s k, er_source e = Some s -> starts_at (src_text s) (er_span e) k ->
     exists place, place_of s k place /\ fmt e = Ok (headline e ++ chars "  --> " ++ place ++ [newline])) /\
  (er_source e = None -> fmt e = Ok (headline e)).
Proof. exact (ReportP.short_report e). Qed.
Print Assumptions C60_short_report.

(** The lines of a trace are shown under their own numbers when each trace stays within one line (full claim:
    for any trace inside its text; refuted below). *)
Theorem C60_trace_partial e :
  traces_inside (er_trace e) ->
  Forall (fun t => sp_start (tr_span t) < sp_end (tr_span t) /\
    List.length (filter (touches (tr_span t)) (lines_of (src_text (tr_source t)))) <= 1) (er_trace e) ->
  exists x, fmt_trace e = Ok x /\ trace_shown own_number (er_trace e) x.
Proof. exact (ReportP.trace_one_line e). Qed.
Print Assumptions C60_trace_partial.

(** A trace over two lines shows the second line under the number of the first. *)
Theorem C60_trace_numbers_refuted :
  exists e, traces_inside (er_trace e) /\
    exists x, fmt_trace e = Ok x /\ ~ trace_shown own_number (er_trace e) x.
Proof. exact (ex_intro _ ReportP.traced_error ReportP.trace_numbers_wrong). Qed.
Print Assumptions C60_trace_numbers_refuted.

(** A span that runs backward makes the report panic. *)
Theorem C60_backward_span_refuted : exists e, fmt_pretty e = Panic.
Proof. exact ReportP.backward_panics. Qed.
Print Assumptions C60_backward_span_refuted.

(** An error shows what it was told: the source, span and tags told last, the notes in the order they were
    told, the traces with the one told last first. *)
Theorem C60_told c l s sp k g :
  last_told a_source l (TellSource s) -> last_told a_span l (TellSpan sp) -> tags_told l g ->
  starts_at (src_text s) sp k -> traces_inside (told_traces l) ->
  exists place lines trace,
    place_of s k place /\ source_shown (src_text s) sp lines /\ trace_shown first_number (told_traces l) trace /\
    fmt_pretty (told_error c l) =
      Ok (opening c g ++ chars "  --> " ++ place ++ [newline] ++ lines ++ flat_map note (told_notes l) ++ trace).
Proof. exact (ReportP.told_report c l s sp k g). Qed.
Print Assumptions C60_told.

(** The same for an error that was told no source. *)
Theorem C60_told_without_source c l g :
  never_told a_source l -> tags_told l g -> traces_inside (told_traces l) ->
  exists trace, trace_shown first_number (told_traces l) trace /\
    fmt_pretty (told_error c l) = Ok (opening c g ++ flat_map note (told_notes l) ++ trace).
Proof. exact (ReportP.told_without_source c l g). Qed.
Print Assumptions C60_told_without_source.

(** An error in the third line of a text with a character outside of ASCII, with a note and a trace. *)
Definition sample_text : list char :=
  chars "let a = 1;" ++ [newline] ++ chars "let s = """ ++ [128512; 233]%N ++ chars """;  " ++ [newline] ++ chars "a = 2;".
Definition sample_error : error :=
  push_trace (Trace (Source (Some (chars "main.dm")) sample_text) (Span 0 9))
  (push_context (Context EXPORT_ONLY_ALLOWED_IN_TOP_LEVEL_SCOPE [] Note)
  (with_tags [("name"%string, chars "a")]
  (with_span (Span 27 39)
  (with_source (Source (Some (chars "main.dm")) sample_text)
  (error_new CANNOT_REASSIGN_IMMUTABLE_VARIABLE))))).
Example C60_sample :
  starts_at sample_text (er_span sample_error) 23 /\ traces_inside (er_trace sample_error) /\
  fmt_pretty sample_error =
  Ok (chars "error[E2403]: Cannot reassign the immutable variabe 'a'." ++ [newline]
   ++ chars "  --> main.dm:2:14" ++ [newline]
   ++ chars "     |" ++ [newline]
   ++ chars "2    |  let s = """ ++ [128512; 233]%N ++ chars """;" ++ [newline]
   ++ chars "3    |  a = 2;" ++ [newline]
   ++ chars "     |" ++ [newline]
   ++ chars "note: The 'export' keyword can only be used in the top level scope of a module." ++ [newline]
   ++ [newline] ++ chars "Trace:" ++ [newline]
   ++ chars "  Location: main.dm:1:1" ++ [newline]
   ++ chars "    1    | let a = 1;" ++ [newline]).
Proof.
  split; [vm_compute; repeat split; lia|]. split; [|vm_compute; reflexivity].
  constructor; [|constructor]. exists 0. vm_compute. repeat split; lia.
Qed.

(** An error told a span twice, two traces and two notes. *)
Definition told_source : source := Source (Some (chars "main.dm")) sample_text.
Definition told_sample : list told :=
  [TellSpan (Span 0 1); TellTrace (Trace told_source (Span 0 9)); TellNote (Context EXPORT_ONLY_ALLOWED_IN_TOP_LEVEL_SCOPE [] Note);
   TellSource told_source; TellSpan (Span 27 39); TellTags [("name"%string, chars "a")];
   TellTrace (Trace told_source (Span 30 31)); TellNote (Context EXPORT_ONLY_ALLOWED_IN_TOP_LEVEL_SCOPE [] Help)].
Example C60_told_sample :
  last_told a_source told_sample (TellSource told_source) /\ last_told a_span told_sample (TellSpan (Span 27 39)) /\
  tags_told told_sample [("name"%string, chars "a")] /\ starts_at sample_text (Span 27 39) 23 /\
  traces_inside (told_traces told_sample).
Proof.
  split; [exists (firstn 3 told_sample), (skipn 4 told_sample); split; vm_compute; reflexivity|].
  split; [exists (firstn 4 told_sample), (skipn 5 told_sample); split; vm_compute; reflexivity|].
  split; [left; exists (firstn 5 told_sample), (skipn 6 told_sample); split; vm_compute; reflexivity|].
  split; [vm_compute; repeat split; lia|].
  constructor; [exists 0; vm_compute; repeat split; lia|].
  constructor; [exists 26; vm_compute; repeat split; lia|constructor].
Qed.
