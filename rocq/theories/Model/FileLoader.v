(** The module loader, dice-runtime/src/module/file_loader.rs. *)
From Verif.Model Require Export VM.

(** The operating system as seen by the loader: every answer is arbitrary.  A canonical path is the list
    of its components. *)
Record os := MkOs {
  os_canonicalize : string -> outcome (list string);   (* dunce::canonicalize of a name, line 24 *)
  os_working_dir : outcome (list string);              (* canonicalize(current_dir()), line 25 *)
  os_read : list string -> outcome string }.           (* read_to_string, line 34 *)

(** Path::starts_with (std): component-wise prefix. *)
Fixpoint starts_with (p base : list string) : bool :=
  match base, p with
  | [], _ => true
  | b :: base', c :: p' => String.eqb b c && starts_with p' base'
  | _ :: _, [] => false
  end.

(** load_module, file_loader.rs:20-46, together with the files it reads.  [compile] stands for
    Compiler::compile_source on a module (line 36).  The context added to errors (lines 41-45) does not
    change their code and is left out. *)
Definition file_load_module (o : os) (compile : string -> outcome bytecode) (name : string)
  : outcome bytecode * list (list string) :=
  match os_canonicalize o name with
  | Ok path =>
      match os_working_dir o with
      | Ok dir =>
          if negb (starts_with path dir) then (Err INVALID_SCRIPT_LOCATION, [])
          else (obind (os_read o path) compile, [path])
      | Err e => (Err e, []) | Panic => (Panic, []) | NoFuel => (NoFuel, [])
      end
  | Err e => (Err e, []) | Panic => (Panic, []) | NoFuel => (NoFuel, [])
  end.

(** The world of a runtime whose modules come from files. *)
Definition file_world (o : os) (compile : string -> outcome bytecode)
  (dbg : bool) (natives : string -> string -> list value -> heap -> native_answer) : world :=
  MkWorld dbg (fun _ name => fst (file_load_module o compile name)) natives.
