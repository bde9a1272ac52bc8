(** Errors and the text of their reports: dice-core/src/error/mod.rs, fmt.rs, trace.rs and context.rs.
    Colours (the colored crate) are left out: they add terminal codes around the same characters.  Writing to
    the buffer does not fail. *)
From Verif.Model Require Export Messages.
From Coq Require Import DecimalString.
Open Scope string_scope.
Open Scope list_scope.
Open Scope nat_scope.

(** Source: source.rs:42-101, without its kind; the line index is the one made of the text. *)
Record source := Source { src_path : option (list char); src_text : list char }.
Definition src_index (s : source) : line_index := li_new (src_text s).

(** ErrorTrace: trace.rs:4-8. *)
Record error_trace := Trace { tr_source : source; tr_span : span }.

(** ContextKind and Context: context.rs:5-32. *)
Inductive context_kind := Note | Help.
Record error_context := Context { cx_id : string; cx_tags : tags; cx_kind : context_kind }.

(** Error: mod.rs:23-31. *)
Record error := Error {
  er_code : errcode;
  er_source : option source;
  er_span : span;
  er_tags : tags;
  er_trace : list error_trace;
  er_context : list error_context }.

(** Error::new and its builders, mod.rs:34-71 (Span::empty is 0..0, span.rs:17-19). *)
Definition error_new (c : errcode) : error := Error c None (Span 0 0) [] [] [].
Definition with_span (s : span) (e : error) : error :=
  Error (er_code e) (er_source e) s (er_tags e) (er_trace e) (er_context e).
Definition with_source (s : source) (e : error) : error :=
  Error (er_code e) (Some s) (er_span e) (er_tags e) (er_trace e) (er_context e).
Definition with_tags (l : tags) (e : error) : error :=
  Error (er_code e) (er_source e) (er_span e) l (er_trace e) (er_context e).
Definition push_trace (t : error_trace) (e : error) : error :=
  Error (er_code e) (er_source e) (er_span e) (er_tags e) (er_trace e ++ [t]) (er_context e).
Definition push_context (c : error_context) (e : error) : error :=
  Error (er_code e) (er_source e) (er_span e) (er_tags e) (er_trace e) (er_context e ++ [c]).

(** Display of a usize: decimal digits. *)
Definition usize_text (n : nat) : list char := chars (NilZero.string_of_uint (Nat.to_uint n)).
(** `{:<4}`: at least four characters, blanks after the text. *)
Definition left4 (t : list char) : list char := t ++ repeat 32%N (4 - List.length t).
Definition newline_text : list char := [newline].

(** char::is_whitespace (Unicode White_Space), str::trim_end and str::trim. *)
Definition is_white (c : char) : bool :=
  Lexer.between 9 13 c || (c =? 32)%N || (c =? 133)%N || (c =? 160)%N || (c =? 5760)%N
  || Lexer.between 8192 8202 c || (c =? 8232)%N || (c =? 8233)%N || (c =? 8239)%N || (c =? 8287)%N || (c =? 12288)%N.
Fixpoint trim_start (t : list char) : list char :=
  match t with c :: r => if is_white c then trim_start r else t | [] => [] end.
Definition trim_end (t : list char) : list char := rev (trim_start (rev t)).
Definition trim (t : list char) : list char := trim_end (trim_start t).

(** A text cut at a byte offset; None when the offset is not between two characters. *)
Fixpoint cut (t : list char) (k : nat) : option (list char * list char) :=
  if Nat.eqb k 0 then Some ([], t)
  else match t with
       | [] => None
       | c :: r =>
           if len_utf8 c <=? k then
             match cut r (k - len_utf8 c) with Some (a, b) => Some (c :: a, b) | None => None end
           else None
       end.
(** `&source[line.range()]`: panics unless the range is forward and its ends lie between characters. *)
Definition slice (t : list char) (s : span) : outcome (list char) :=
  if sp_end s <? sp_start s then Panic
  else match cut t (sp_start s) with
       | None => Panic
       | Some (_, r) => match cut r (sp_end s - sp_start s) with None => Panic | Some (x, _) => Ok x end
       end.

(** What a for loop over [l] writes. *)
Fixpoint write_all {A} (f : A -> outcome (list char)) (l : list A) : outcome (list char) :=
  match l with
  | [] => Ok []
  | x :: r => obind (f x) (fun a => omap (fun b => a ++ b) (write_all f r))
  end.

(** `path:line:column`, with `<Script>` for a source without a path: fmt.rs:66-83 and 134-150. *)
Definition place_text (s : source) (line column : nat) : list char :=
  match src_path s with Some p => p | None => chars "<Script>" end
  ++ chars ":" ++ usize_text (line + 1) ++ chars ":" ++ usize_text (column + 1).

(** fmt_position, fmt.rs:62-84. *)
Definition fmt_position (e : error) (s : source) : outcome (list char) :=
  obind (position_of (src_index s) (sp_start (er_span e))) (fun '(line, column) =>
  Ok (chars "  -->" ++ chars " " ++ place_text s line column ++ newline_text)).

(** fmt_message, fmt.rs:86-92. *)
Definition fmt_message (e : error) : list char :=
  chars "error[" ++ chars (code_text (er_code e)) ++ chars "]: "
  ++ localize_error_code (er_code e) (er_tags e) ++ newline_text.

(** fmt_context, fmt.rs:94-106. *)
Definition fmt_one_context (c : error_context) : list char :=
  chars (match cx_kind c with Note => "note: " | Help => "help: " end)
  ++ localize_context_msg_id (cx_id c) (cx_tags c) ++ newline_text.
Definition fmt_context (e : error) : list char := flat_map fmt_one_context (er_context e).

(** fmt_source, fmt.rs:108-125. *)
Definition empty_line : list char := chars "     |".
Definition fmt_source_line (s : source) (ln : span) : outcome (list char) :=
  obind (position_of (src_index s) (sp_start ln)) (fun '(line, _) =>
  obind (slice (src_text s) ln) (fun x =>
  Ok (left4 (usize_text (line + 1)) ++ chars " | " ++ chars " " ++ trim_end x ++ newline_text))).
Definition fmt_source (e : error) (s : source) : outcome (list char) :=
  obind (li_lines (src_index s) (er_span e)) (fun lines =>
  match lines with
  | [] => Ok []
  | _ :: _ =>
      obind (write_all (fmt_source_line s) lines) (fun x =>
      Ok (empty_line ++ newline_text ++ x ++ empty_line ++ newline_text))
  end).

(** fmt_trace, fmt.rs:127-165. *)
Definition fmt_trace_line (t : error_trace) (line : nat) (ln : span) : outcome (list char) :=
  obind (slice (src_text (tr_source t)) ln) (fun x =>
  Ok (chars "    " ++ left4 (usize_text (line + 1)) ++ chars " | " ++ trim x ++ newline_text)).
Definition fmt_one_trace (t : error_trace) : outcome (list char) :=
  obind (position_of (src_index (tr_source t)) (sp_start (tr_span t))) (fun '(line, column) =>
  obind (li_lines (src_index (tr_source t)) (tr_span t)) (fun lines =>
  obind (write_all (fmt_trace_line t line) lines) (fun x =>
  Ok (chars "  Location: " ++ place_text (tr_source t) line column ++ newline_text ++ x)))).
Definition fmt_trace (e : error) : outcome (list char) :=
  match er_trace e with
  | [] => Ok []
  | _ :: _ =>
      obind (write_all fmt_one_trace (rev (er_trace e))) (fun x =>
      Ok (newline_text ++ chars "Trace:" ++ newline_text ++ x))
  end.

(** ErrorFormatter::fmt, fmt.rs:30-38; Debug for Error, mod.rs:74-78. *)
Definition fmt (e : error) : outcome (list char) :=
  match er_source e with
  | Some s => obind (fmt_position e s) (fun p => Ok (fmt_message e ++ p))
  | None => Ok (fmt_message e)
  end.
(** fmt_pretty, fmt.rs:40-58; Display for Error, mod.rs:80-84. *)
Definition fmt_pretty (e : error) : outcome (list char) :=
  obind (match er_source e with
         | Some s => obind (fmt_position e s) (fun p => obind (fmt_source e s) (fun x => Ok (p ++ x)))
         | None => Ok []
         end) (fun a =>
  obind (fmt_trace e) (fun t =>
  Ok (fmt_message e ++ a ++ fmt_context e ++ t))).
