(** From source text to a run: dice/src/lib.rs and dice-compiler/src/compiler.rs. *)
From Verif.Model Require Export Parser Host.

(** Compiler::compile_source, compiler.rs:23-38. *)
Definition compile_source (kind : compiler_kind) (t : list char) : outcome bytecode :=
  obind (parse t) (compile kind).
(** Dice::run_script, dice/src/lib.rs:12-18. *)
Definition dice_run_script (w : world) (fuel : nat) (t : list char) : run value := fun s =>
  match compile_source KScript t with
  | Ok bc => runtime_run w fuel bc s
  | Err e => RErr e s
  | Panic => RPanic
  | NoFuel => RNoFuel
  end.
