(** The histories of ScopeSpec performed on the modelled scope stack; [st] gives the state each declared
    variable starts in. *)
From Verif.Model Require Import Scope.
From Verif.Spec Require Import ScopeSpec.

(** One scope operation on the model. *)
Definition step (st : string -> var_state) (e : event) (s : scope_stack) : outcome scope_stack :=
  match e with
  | Open => Ok (push_scope KBlock None s)
  | Close => omap snd (pop_scope s)
  | Declare x => omap snd (add_local x (st x) s)
  | Capture x => Ok (update_local x set_captured s)
  | Initialize x => Ok (update_local x (set_state (SFunction true)) s)
  end.
Fixpoint run (st : string -> var_state) (h : list event) (s : scope_stack) : outcome scope_stack :=
  match h with
  | [] => Ok s
  | e :: r => obind (step st e s) (run st r)
  end.

(** The variables in scope with their slots, latest first. *)
Definition flat (l : list scope) : list (string * nat) :=
  flat_map (fun sc => map (fun v => (sv_name v, sv_slot v)) (sc_vars sc)) l.
