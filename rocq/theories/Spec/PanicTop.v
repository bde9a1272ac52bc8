(** What [PanicSpec] sees at any moment of a compilation. *)
From Verif.Model Require Import Compiler.
From Verif.Spec Require Import PanicSpec.

(** Names declared so far in the function being compiled, innermost first. *)
Definition names_here (s : cstate) : sorts :=
  match cs_stack s with
  | [] => []
  | c :: _ => flat_map (fun sc => map (fun v => (sv_name v, match sv_state v with SLocal _ _ => IsVariable | SFunction _ => IsFunction | SClass _ => IsClass end))
                                    (sc_vars sc)) (ss_scopes (cx_scopes c))
  end.
