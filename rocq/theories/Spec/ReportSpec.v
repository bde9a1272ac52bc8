(** What a report about an error says, by counting in its source text.  Positions are those of TextPos.v. *)
From Verif.Model Require Export Report.
From Verif.Spec Require Export TextPos.
Open Scope string_scope.
Open Scope list_scope.
Open Scope nat_scope.

(** A line of a text: its number, counted from one, the byte it starts at, and its characters with the line feed. *)
Record line := Line { ln_number : nat; ln_start : nat; ln_text : list char }.

(** The lines of a text: [cur] holds the characters of the current line read so far. *)
Fixpoint lines_from (n start : nat) (cur t : list char) : list line :=
  match t with
  | [] => [Line n start cur]
  | c :: r =>
      if N.eqb c newline
      then Line n start (cur ++ [c]) :: lines_from (n + 1) (start + text_len (cur ++ [c])) [] r
      else lines_from n start (cur ++ [c]) r
  end.
Definition lines_of (t : list char) : list line := lines_from 1 0 [] t.

(** A span reaches into a line that is not empty. *)
Definition touches (s : span) (l : line) : bool :=
  (ln_start l <? sp_end s) && (sp_start s <? ln_start l + text_len (ln_text l)) && (0 <? text_len (ln_text l)).

(** [x] is [t] without the white characters at its end; at both ends. *)
Definition all_white (w : list char) : Prop := Forall (fun c => is_white c = true) w.
Definition ends_dark (t : list char) : Prop := forall a c, t = a ++ [c] -> is_white c = false.
Definition starts_dark (t : list char) : Prop := forall a c, t = c :: a -> is_white c = false.
Definition without_end (t x : list char) : Prop := exists w, t = x ++ w /\ all_white w /\ ends_dark x.
Definition without_ends (t x : list char) : Prop :=
  exists v w, t = v ++ x ++ w /\ all_white v /\ all_white w /\ starts_dark x /\ ends_dark x.

(** A number in decimal digits: digits only, no zero in front of others, and they count [n]. *)
Definition digits_value (d : list char) : N := fold_left (fun v c => v * 10 + (c - 48))%N d 0%N.
Definition decimal_of (n : nat) (d : list char) : Prop :=
  d <> [] /\ Forall (fun c => (48 <= c <= 57)%N) d /\ digits_value d = N.of_nat n /\
  (forall r, d = 48%N :: r -> r = []).

(** The place of a span in its source: path, line and column, both counted from one, the column in UTF-16 units. *)
Definition name_of (s : source) : list char := match src_path s with Some p => p | None => chars "<Script>" end.
Definition place_of (s : source) (k : nat) (x : list char) : Prop :=
  exists dl dc,
    x = name_of s ++ chars ":" ++ dl ++ chars ":" ++ dc /\
    decimal_of (1 + newline_count (firstn k (src_text s))) dl /\
    decimal_of (1 + utf16_length (after_last_newline (firstn k (src_text s)) [])) dc.

(** A number in a column of four: [d] and blanks up to four characters. *)
Definition in_column (d x : list char) : Prop :=
  exists b, x = d ++ b /\ Forall (fun c => c = 32%N) b /\ List.length x = Nat.max 4 (List.length d).

(** One line of a source as the report shows it. *)
Definition shown_line (l : line) (x : list char) : Prop :=
  exists d col t,
    decimal_of (ln_number l) d /\ in_column d col /\ without_end (ln_text l) t /\
    x = col ++ chars " |  " ++ t ++ [newline].

(** Texts one after the other, each as its element says. *)
Inductive each {A} (p : A -> list char -> Prop) : list A -> list char -> Prop :=
| each_nil : each p [] []
| each_cons a l x y : p a x -> each p l y -> each p (a :: l) (x ++ y).

(** The lines a span touches, between two bars; nothing when it touches none. *)
Definition source_shown (t : list char) (s : span) (x : list char) : Prop :=
  exists y,
    each shown_line (filter (touches s) (lines_of t)) y /\
    (filter (touches s) (lines_of t) = [] -> x = []) /\
    (filter (touches s) (lines_of t) <> [] -> x = chars "     |" ++ [newline] ++ y ++ chars "     |" ++ [newline]).

(** A line of a trace: [n] is the number it is shown with. *)
Definition traced_line (n : line -> nat) (l : line) (x : list char) : Prop :=
  exists d col t,
    decimal_of (n l) d /\ in_column d col /\ without_ends (ln_text l) t /\
    x = chars "    " ++ col ++ chars " | " ++ t ++ [newline].

(** A span that starts at a character of its text, and does not end before. *)
Definition starts_at (t : list char) (s : span) (k : nat) : Prop :=
  k < List.length t /\ sp_start s = byte_offset t k /\ sp_start s <= sp_end s.

(** A trace: its place, then the lines it touches, numbered by [n]. *)
Definition traced (n : error_trace -> line -> nat) (t : error_trace) (x : list char) : Prop :=
  exists k place y,
    starts_at (src_text (tr_source t)) (tr_span t) k /\ place_of (tr_source t) k place /\
    each (traced_line (n t)) (filter (touches (tr_span t)) (lines_of (src_text (tr_source t)))) y /\
    x = chars "  Location: " ++ place ++ [newline] ++ y.

(** The whole trace: the latest entry first. *)
Definition trace_shown (n : error_trace -> line -> nat) (l : list error_trace) (x : list char) : Prop :=
  (l = [] /\ x = []) \/
  (l <> [] /\ exists y, each (traced n) (rev l) y /\ x = [newline] ++ chars "Trace:" ++ [newline] ++ y).

(** The number of a line; the number of the line a trace starts in. *)
Definition own_number (_ : error_trace) (l : line) : nat := ln_number l.
Definition first_number (t : error_trace) (_ : line) : nat :=
  let text := src_text (tr_source t) in
  List.length (filter (fun l => ln_start l <=? sp_start (tr_span t)) (lines_of text)).

(** The first line of a report, and the notes. *)
Definition headline (e : error) : list char :=
  chars "error[" ++ chars (code_text (er_code e)) ++ chars "]: " ++ localize (code_text (er_code e)) (er_tags e) ++ [newline].
Definition note (c : error_context) : list char :=
  chars (match cx_kind c with Note => "note: " | Help => "help: " end) ++ localize (cx_id c) (cx_tags c) ++ [newline].

(** All spans of an error run forward. *)
Definition forward (s : span) : Prop := sp_start s <= sp_end s.
Definition all_forward (e : error) : Prop := forward (er_span e) /\ Forall (fun t => forward (tr_span t)) (er_trace e).
Definition traces_inside (l : list error_trace) : Prop :=
  Forall (fun t => exists k, starts_at (src_text (tr_source t)) (tr_span t) k) l.

(** A history of an error: what is told about it, one thing after the other. *)
Inductive told :=
| TellSpan (s : span) | TellSource (s : source) | TellTags (l : tags) | TellTrace (t : error_trace) | TellNote (c : error_context).
Definition tell (e : error) (x : told) : error :=
  match x with
  | TellSpan s => with_span s e
  | TellSource s => with_source s e
  | TellTags l => with_tags l e
  | TellTrace t => push_trace t e
  | TellNote c => push_context c e
  end.
Definition told_error (c : errcode) (l : list told) : error := fold_left tell l (error_new c).

(** [x] was told and nothing of its kind after it; nothing of the kind was told. *)
Definition last_told (kind : told -> bool) (l : list told) (x : told) : Prop :=
  exists a b, l = a ++ x :: b /\ forallb (fun y => negb (kind y)) b = true.
Definition never_told (kind : told -> bool) (l : list told) : Prop := forallb (fun y => negb (kind y)) l = true.
Definition a_span (x : told) : bool := match x with TellSpan _ => true | _ => false end.
Definition a_source (x : told) : bool := match x with TellSource _ => true | _ => false end.
Definition some_tags (x : told) : bool := match x with TellTags _ => true | _ => false end.
(** The traces and the notes told, in the order they were told. *)
Definition told_traces (l : list told) : list error_trace :=
  flat_map (fun x => match x with TellTrace t => [t] | _ => [] end) l.
Definition told_notes (l : list told) : list error_context :=
  flat_map (fun x => match x with TellNote c => [c] | _ => [] end) l.
(** The message of a code with tags. *)
Definition opening (c : errcode) (g : tags) : list char :=
  chars "error[" ++ chars (code_text c) ++ chars "]: " ++ localize (code_text c) g ++ [newline].
Definition tags_told (l : list told) (g : tags) : Prop :=
  last_told some_tags l (TellTags g) \/ (never_told some_tags l /\ g = []).
