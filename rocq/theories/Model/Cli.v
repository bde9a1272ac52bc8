(** The interactive tool: dice-cli/src/main.rs.  The console input is one text of which the tool has read a part;
    reading and writing do not fail, and a piece of input is text (read_line, main.rs:33, would fail on bytes that
    are not UTF-8; from_utf8, main.rs:42, is then given text).  What is printed is the list of results and errors, without the prompt, the
    time (main.rs:46-47) and the report around the error code (Report.v). *)
From Verif.Model Require Export Script.
From Verif.Model Require Import Report Host.
#[local] Open Scope string_scope.
#[local] Open Scope list_scope.
#[local] Open Scope nat_scope.

(** The runtime before the loop, main.rs:17-23: the prelude, then two functions of the tool ([print] and [panic], whose bodies,
    main.rs:61-77, are native code of the host).  Changing the directory (main.rs:15) is not modelled. *)
Definition startup (w : world) (fuel : nat) (print panic : value) : run unit :=
  load_prelude w fuel "prelude.dm" >>> add_global "print" print >>> add_global "panic" panic.

(** Stdin::read_line: the text up to and including the next newline, or all that is left; nothing at the end. *)
Fixpoint read_line (t : list char) : list char * list char :=
  match t with
  | [] => ([], [])
  | c :: r => if (c =? 10)%N then ([c], r) else (c :: fst (read_line r), snd (read_line r))
  end.
(** str::ends_with for a character. *)
Definition ends_with (c : char) (t : list char) : bool :=
  match rev t with d :: _ => (d =? c)%N | [] => false end.
(** The inner loop, main.rs:30-39: what it hands to run_script, and the input that is left.  Every line but the
    last ends with a backslash, so it takes at least one character: the length of the input is enough fuel. *)
Fixpoint read_lines (fuel : nat) (input : list char) : list char * list char :=
  let line := fst (read_line input) in
  let rest := snd (read_line input) in
  let written := trim_end line ++ [10%N] in
  if ends_with 92%N (trim_end line)
  then match fuel with
       | S f => (written ++ fst (read_lines f rest), snd (read_lines f rest))
       | O => (written, rest)
       end
  else (written, rest).
Definition read_entry (input : list char) : list char * list char := read_lines (List.length input) input.

(** What one round prints, main.rs:44-58. *)
Inductive printed := PResult (v : value) | PError (e : errcode).
(** The tool after some rounds of its loop: waiting for input with a runtime and the input not yet read, or gone
    with a panic, or in a script that does not end within the fuel. *)
Inductive tool := Waiting (s : vm) (input : list char) | Crashed | Busy.
(** The outer loop, main.rs:25-59, for a number of rounds. *)
Fixpoint repl (w : world) (fuel : nat) (rounds : nat) (s : vm) (input : list char) : list printed * tool :=
  match rounds with
  | O => ([], Waiting s input)
  | S n =>
      let entry := fst (read_entry input) in
      let rest := snd (read_entry input) in
      match dice_run_script w fuel entry s with
      | ROk v s' => (PResult v :: fst (repl w fuel n s' rest), snd (repl w fuel n s' rest))
      | RErr e s' => (PError e :: fst (repl w fuel n s' rest), snd (repl w fuel n s' rest))
      | RPanic => ([], Crashed)
      | RNoFuel => ([], Busy)
      end
  end.
