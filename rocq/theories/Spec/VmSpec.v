(** Vocabulary for statements about the interpreter's effect on its state. *)
From Verif.Model Require Export VM.

(** The stack whose cells are, bottom first, [below] and above it [temps] (top first); the cells above are
    null. *)
Definition stack_with (below temps : list value) : stack value :=
  let cells := below ++ rev temps in
  MkStack (cells ++ repeat VNull (max_stack_size - List.length cells)) (List.length cells).

(** The state [s] with that stack; everything else as in [s]. *)
Definition with_stack (below temps : list value) (s : vm) : vm := set_stack (stack_with below temps) s.

(** There is room for [n] more values. *)
Definition fits (below temps : list value) (n : nat) : Prop :=
  List.length below + List.length temps + n <= max_stack_size.

(** What the caller of the runtime sees: the state after a run, whether it succeeded or failed. *)
Definition final_state {A} (r : res A) : option vm :=
  match r with ROk _ s | RErr _ s => Some s | RPanic | RNoFuel => None end.

(** A session: any number of runs of arbitrary bytecode on one runtime, each with any amount of fuel,
    whether they succeed or fail. *)
Inductive session (w : world) : vm -> vm -> Prop :=
| session_start s : session w s s
| session_run s fuel bc s1 s2 :
    final_state (runtime_run w fuel bc s) = Some s1 -> session w s1 s2 -> session w s s2.

(** Executions: any sequence of pieces of execution of the interpreter, of whatever size: single
    instructions, execution of code from a position on, calls, whole runs.  Every state that occurs during
    or after a run is reached like this from the state before. *)
Inductive executes (w : world) : vm -> vm -> Prop :=
| ex_done s : executes w s s
| ex_instruction s n bc fr ups i p s1 s2 :
    final_state (step w (machine w n) bc fr ups i p s) = Some s1 -> executes w s1 s2 -> executes w s s2
| ex_code s n bc fr ups p s1 s2 :
    final_state (r_loop (machine w n) bc fr ups p s) = Some s1 -> executes w s1 s2 -> executes w s s2
| ex_call s n argc s1 s2 :
    final_state (r_call (machine w n) argc s) = Some s1 -> executes w s1 s2 -> executes w s s2
| ex_run s n bc s1 s2 :
    final_state (runtime_run w n bc s) = Some s1 -> executes w s1 s2 -> executes w s s2.

(** The states of a runtime: what executions reach from a new one. *)
Definition reachable (w : world) (s : vm) : Prop :=
  exists s0, runtime_new = Ok s0 /\ executes w s0 s.

(** The value refers to an existing cell (for an object: whose class exists too). *)
Definition live (h : heap) (v : value) : Prop :=
  match v with
  | VObject o => exists ob, nth_error (h_objects h) o = Some ob /\
                   forall c, ob_class ob = Some c -> c < List.length (h_classes h)
  | VArray a => a < List.length (h_arrays h)
  | VClass c => c < List.length (h_classes h)
  | VFnClosure f => f < List.length (h_closures h)
  | _ => True
  end.
