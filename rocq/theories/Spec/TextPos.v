(** What line, column and lines of a text mean, by direct counting. *)
From Verif.Model Require Export Source.

(** Number of line feeds in a piece of text. *)
Definition newline_count (t : list char) : nat := List.length (filter (fun c => N.eqb c newline) t).

(** The part of [t] after its last line feed. *)
Fixpoint after_last_newline (t : list char) (acc : list char) : list char :=
  match t with
  | [] => acc
  | c :: r => if N.eqb c newline then after_last_newline r [] else after_last_newline r (acc ++ [c])
  end.

(** UTF-16 code units of a char (code points above U+FFFF need a surrogate pair). *)
Definition utf16_units (c : char) : nat := if (c <? 65536)%N then 1 else 2.
Definition utf16_length (t : list char) : nat := fold_right (fun c n => utf16_units c + n) 0 t.

(** Byte offset of the [k]-th char. *)
Definition byte_offset (t : list char) (k : nat) : nat := text_len (firstn k t).

(** The lines of a text as byte spans, each including its line feed: [line_spans t s b] for the text
    [t] that starts at byte [b], the current line having started at byte [s]. *)
Fixpoint line_spans (t : list char) (s b : nat) : list span :=
  match t with
  | [] => [Span s b]
  | c :: r =>
      if N.eqb c newline then Span s (b + len_utf8 c) :: line_spans r (b + len_utf8 c) (b + len_utf8 c)
      else line_spans r s (b + len_utf8 c)
  end.
