(** What running a program leaves as it was. *)
From Verif.Spec Require Export FlowSpec.
#[local] Open Scope string_scope.
#[local] Open Scope list_scope.
#[local] Open Scope nat_scope.

(** The function literals before a statement. *)
Definition literals (es : list expr) : nat := list_sum (map fns es).
(** The scene and memory at the beginning of a script that is a block: its functions and classes are in scope. *)
Definition opened (es : list expr) (t : option expr) (room : nat) (s : vm) : scene * memory :=
  hoist (EvalSpec.hoisted es t) (Scene [] None room false) (MeaningSpec.start s).
(** Running the statements [es] from scene [S] and memory [m] completes, and leaves scene [S1] and memory [m1]: whatever
    follows them in the block is run there. *)
Definition completes (w : world) (pg : program) (S : scene) (k : nat) (es : list expr) (m : memory) (S1 : scene) (m1 : memory) : Prop :=
  exists fuel, forall rest t, items (pg_lit pg) (interpreter w pg fuel) S k (es ++ rest) t m =
                              items (pg_lit pg) (interpreter w pg fuel) S1 (k + literals es) rest t m1.

(** Scripts that read a variable at their end:
    [before...; let x = e0; after...; x] and [before...; import * as x, { names } from path; x]. *)
Definition reads_back (before : list expr) (x : string) (e0 : expr) (t : option type_ann) (after : list expr) : list expr :=
  before ++ EVarDecl (Singular x) false e0 t :: after.
Definition imports_last (before : list expr) (x : string) (names : list string) (path : string) : list expr :=
  before ++ [EImportDecl (Some x) names path].
