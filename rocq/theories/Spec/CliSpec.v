(** What is typed at the console of the interactive tool. *)
From Verif.Model Require Import Cli.
From Verif.Spec Require Import LexSpec MeaningSpec.
#[local] Open Scope list_scope.
#[local] Open Scope nat_scope.

Definition space_char (c : char) : Prop :=
  (9 <= c <= 13 \/ 8192 <= c <= 8202)%N \/ In c [32; 133; 160; 5760; 8232; 8233; 8239; 8287; 12288]%N.
Definition one_line (l : list char) : Prop := ~ In 10%N l.
(** [l'] is [l] without the white space at its end. *)
Definition stripped (l l' : list char) : Prop :=
  exists b, l = l' ++ b /\ Forall space_char b /\ forall a c, l' = a ++ [c] -> ~ space_char c.
(** A line is continued when a backslash is the last thing on it. *)
Definition continued (l : list char) : Prop := exists a, stripped l (a ++ chars "\").
(** Lines, each with a newline after it. *)
Definition typed (ls : list (list char)) : list char := flat_map (fun l => l ++ [10%N]) ls.
(** An entry: continued lines and one that is not; [t] is the text it is run as. *)
Definition entry (ls : list (list char)) (t : list char) : Prop :=
  exists front l ts, ls = front ++ [l] /\ Forall continued front /\ ~ continued l /\ Forall one_line ls /\
    Forall2 stripped ls ts /\ t = typed ts.

(** Running texts one after the other on one runtime: what is printed, and the tool afterwards if [input] is left. *)
Fixpoint one_by_one (w : world) (fuel : nat) (ts : list (list char)) (s : vm) (input : list char) : list printed * tool :=
  match ts with
  | [] => ([], Waiting s input)
  | t :: r =>
      match dice_run_script w fuel t s with
      | ROk v s' => let (out, last) := one_by_one w fuel r s' input in (PResult v :: out, last)
      | RErr e s' => let (out, last) := one_by_one w fuel r s' input in (PError e :: out, last)
      | RPanic => ([], Crashed)
      | RNoFuel => ([], Busy)
      end
  end.

(** No comment is open at the end of a text: after any two slashes the line ends. *)
Definition outside_comment (a : list char) : Prop := forall x y, a = x ++ chars "//" ++ y -> exists c, In c y /\ line_end c.
Definition no_backslash (a : list char) : Prop := ~ In 92%N a.

(** A dialogue: entries that have a meaning, one after the other, what each of them prints, and whether the tool is still there.
    The next entry starts in a runtime that holds what the meaning of the one before says; a text that
    is not accepted changes nothing; after an error while running nothing is said about further entries. *)
Inductive dialogue (w : world) : list (list char) -> vm -> list printed -> bool -> Prop :=
| dl_end s : dialogue w [] s [] true
| dl_value t r root bc pg room fuel s v m out alive : parse t = Ok root -> linked w pg root bc -> bc_slot_count bc + room <= max_stack_size ->
    meaning w pg fuel room root s = AVal v m ->
    (forall s', same_store (m_vm m) s' -> ready [] s' -> dialogue w r s' out alive) -> dialogue w (t :: r) s (PResult v :: out) alive
| dl_error t root bc pg room fuel s e m : parse t = Ok root -> linked w pg root bc -> bc_slot_count bc + room <= max_stack_size ->
    meaning w pg fuel room root s = AFail e m -> dialogue w [t] s [PError e] true
| dl_rejected t r s e out alive : compile_source KScript t = Err e -> dialogue w r s out alive -> dialogue w (t :: r) s (PError e :: out) alive
| dl_panic t r root bc pg room fuel s : parse t = Ok root -> linked w pg root bc -> bc_slot_count bc + room <= max_stack_size ->
    meaning w pg fuel room root s = ACrash -> dialogue w (t :: r) s [] false.
