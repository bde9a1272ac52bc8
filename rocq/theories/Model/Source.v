(** Spans and the line index: dice-core/src/span.rs and dice-core/src/source.rs. *)
From Coq Require Export NArith ZifyN.
From Verif.Model Require Export Common.

(** Span: span.rs:3-32. *)
Record span := Span { sp_start : nat; sp_end : nat }.
Definition span_len (s : span) : nat := sp_end s - sp_start s.           (* span.rs:21-23; start <= end *)
Definition span_is_empty (s : span) : bool := Nat.eqb (sp_start s) (sp_end s).   (* span.rs:25-27 *)

(** Add for Span: span.rs:34-43 (and the two by-reference variants, 45-65, with the same body). *)
Definition span_add (a b : span) : span :=
  Span (Nat.min (sp_start a) (sp_start b)) (Nat.max (sp_end a) (sp_end b)).

(** A Rust char, by its code point; a source text is the list of its chars. *)
Definition char := N.
Definition newline : char := 10%N.
Definition len_utf8 (c : char) : nat :=
  if (c <? 128)%N then 1 else if (c <? 2048)%N then 2 else if (c <? 65536)%N then 3 else 4.
Definition is_ascii (c : char) : bool := (c <? 128)%N.

(** Utf16Character, source.rs:11-34: a span of byte columns in the line. *)
Definition utf16_len (s : span) : nat := if Nat.eqb (span_len s) 4 then 2 else 1.  (* source.rs:19-25 *)

(** LineIndex, source.rs:103-108; the HashMap from line number is an association list. *)
Record line_index := LineIndex {
  li_newlines : list nat;
  li_utf16 : list (nat * list span);
  li_utf8_len : nat }.

(** Local variables of LineIndex::new, source.rs:112-117. *)
Record li_state := LiState {
  ls_newlines : list nat;
  ls_utf16 : list (nat * list span);
  ls_chars : list span;
  ls_line : nat;
  ls_column : nat;
  ls_row : nat }.

(** [if !utf16_characters.is_empty() { utf16_lines.insert(current_line, utf16_characters) }],
    source.rs:126-129 and 145-147. *)
Definition li_insert (line : nat) (cs : list span) (m : list (nat * list span)) : list (nat * list span) :=
  match cs with [] => m | _ :: _ => (line, cs) :: m end.

(** Body of the loop, source.rs:119-143. *)
Definition li_step (s : li_state) (c : char) : li_state :=
  let len := len_utf8 c in
  let row := ls_row s + len in
  if (c =? newline)%N then
    LiState (ls_newlines s ++ [row])
      (li_insert (ls_line s) (ls_chars s) (ls_utf16 s))
      [] (S (ls_line s)) 0 row
  else
    LiState (ls_newlines s) (ls_utf16 s)
      (if is_ascii c then ls_chars s else ls_chars s ++ [Span (ls_column s) (ls_column s + len)])
      (ls_line s) (ls_column s + len) row.

(** source.len(): bytes of the text. *)
Definition text_len (t : list char) : nat := fold_right (fun c n => len_utf8 c + n) 0 t.

(** LineIndex::new, source.rs:111-154. *)
Definition li_new (t : list char) : line_index :=
  let s := fold_left li_step t (LiState [0] [] [] 0 0 0) in
  LineIndex (ls_newlines s)
    (li_insert (ls_line s) (ls_chars s) (ls_utf16 s))
    (text_len t).

(** slice::binary_search_by as used by partition_point, source.rs:217-226: the comparison answers
    Less or Greater only, so the search always ends with Err(left).  The loop of the standard library
    (halving the interval) is modelled with the length as fuel. *)
Fixpoint bsearch {A} (p : A -> bool) (l : list A) (fuel left right : nat) : nat :=
  match fuel with
  | O => left
  | S fuel' =>
      if left <? right then
        let mid := left + (right - left) / 2 in
        match nth_error l mid with
        | Some x => if p x then bsearch p l fuel' (S mid) right else bsearch p l fuel' left mid
        | None => left
        end
      else left
  end.
Definition partition_point {A} (p : A -> bool) (l : list A) : nat :=
  bsearch p l (List.length l) 0 (List.length l).

Fixpoint nat_get {V} (k : nat) (m : list (nat * V)) : option V :=
  match m with
  | [] => None
  | (k', v) :: t => if Nat.eqb k k' then Some v else nat_get k t
  end.

(** usize subtraction: underflow panics in a debug build (wraps in release; never happens, see C36). *)
Definition checked_sub (a b : nat) : outcome nat := if a <? b then Panic else Ok (a - b).

(** convert_to_utf16_column, source.rs:200-214. *)
Fixpoint utf16_loop (chars : list span) (col result : nat) : outcome nat :=
  match chars with
  | [] => Ok result
  | c :: rest =>
      if sp_end c <=? col then
        obind (checked_sub result (span_len c - utf16_len c)) (utf16_loop rest col)
      else Ok result
  end.
Definition convert_to_utf16_column (li : line_index) (line col : nat) : outcome nat :=
  match nat_get line (li_utf16 li) with
  | Some chars => utf16_loop chars col col
  | None => Ok col
  end.

(** position_of, source.rs:157-166: (line, column_utf16). *)
Definition position_of (li : line_index) (offset : nat) : outcome (nat * nat) :=
  obind (checked_sub (partition_point (fun it => it <=? offset) (li_newlines li)) 1) (fun line =>
  match nth_error (li_newlines li) line with
  | None => Panic
  | Some line_start =>
      obind (checked_sub offset line_start) (fun column =>
      omap (fun c => (line, c)) (convert_to_utf16_column li line column))
  end).

(** lines, source.rs:169-198; an invalid slice range panics. *)
Definition zip_spans (l : list nat) : list span := map (fun '(a, b) => Span a b) (combine l (tl l)).
Definition li_lines (li : line_index) (s : span) : outcome (list span) :=
  let start0 := partition_point (fun it => it <=? sp_start s) (li_newlines li) in
  let end0 := partition_point (fun it => it <? sp_end s) (li_newlines li) in
  let start_line := if Nat.eqb start0 0 then start0 else start0 - 1 in
  let '(end_range, end_line) :=
    match nth_error (li_newlines li) end0 with
    | Some r => (r, S end0)
    | None => (li_utf8_len li, end0)
    end in
  if (end_line <? start_line) || (List.length (li_newlines li) <? end_line) then Panic
  else
    let all := firstn (end_line - start_line) (skipn start_line (li_newlines li)) ++ [end_range] in
    Ok (filter (fun sp => negb (span_is_empty sp)) (zip_spans all)).
