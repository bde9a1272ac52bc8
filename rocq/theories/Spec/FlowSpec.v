(** What short-circuit operators and [for] loops are meant to do, in terms of what their parts do. *)
From Verif.Spec Require Export MeaningSpec.
#[local] Open Scope string_scope.
#[local] Open Scope list_scope.
#[local] Open Scope nat_scope.

(** A linked script, and a runtime ready to run it. *)
Record runnable (w : world) (pg : program) (root : expr) (bc : bytecode) (below : list value) (s : vm) (room : nat) : Prop := {
  rn_linked : linked w pg root bc;
  rn_natives : natives_blind w;
  rn_ready : ready below s;
  rn_room : List.length below + bc_slot_count bc + room <= max_stack_size }.

(** [e] evaluates to [a] in memory [m]; [k] is the number of the first function literal in [e]. *)
Definition evaluates (w : world) (pg : program) (S : scene) (k : nat) (e : expr) (m : memory) (a : answer) : Prop :=
  a <> AUnknown /\ exists fuel, i_eval (interpreter w pg fuel) S k e m = a.
Definition calls (w : world) (pg : program) (room : nat) (f : value) (args : list value) (m : memory) (a : answer) : Prop :=
  a <> AUnknown /\ exists fuel, i_call (interpreter w pg fuel) room f args m = a.
(** The scene of a script, with [n] more values on the stack. *)
Definition top_scene (room n : nat) : scene := Scene [] None (room - n) false.

(** What the parser makes of a text that is one expression. *)
Definition script_of (e : expr) : expr := EBlock [] (Some e).

(** * && || ??
    [L]: how the left operand ends; [R m a]: the right operand, evaluated in memory [m], ends with [a]. *)
Definition abrupt (a : answer) : Prop := match a with AVal _ _ | AUnknown => False | _ => True end.
Definition not_bool (v : value) : Prop := match v with VBool _ => False | _ => True end.

Inductive logical (decided : bool) (L : answer) (R : memory -> answer -> Prop) : answer -> Prop :=
| lg_decided m : L = AVal (VBool decided) m -> logical decided L R (AVal (VBool decided) m)
| lg_right m b m' : L = AVal (VBool (negb decided)) m -> R m (AVal (VBool b) m') -> logical decided L R (AVal (VBool b) m')
| lg_left_type v m : L = AVal v m -> not_bool v -> logical decided L R (AFail TYPE_ASSERTION_BOOL_FAILURE m)
| lg_right_type m v m' : L = AVal (VBool (negb decided)) m -> R m (AVal v m') -> not_bool v ->
    logical decided L R (AFail TYPE_ASSERTION_BOOL_FAILURE m')
| lg_left_abrupt : abrupt L -> logical decided L R L
| lg_right_abrupt m a : L = AVal (VBool (negb decided)) m -> R m a -> abrupt a -> logical decided L R a.

Inductive coalesced (L : answer) (R : memory -> answer -> Prop) : answer -> Prop :=
| co_left v m : L = AVal v m -> v <> VNull -> coalesced L R (AVal v m)
| co_right m a : L = AVal VNull m -> R m a -> coalesced L R a
| co_abrupt : abrupt L -> coalesced L R L.

(** * for
    One pass: the body is run with a new variable [x] that holds [v], and completes. *)
Definition pass (w : world) (pg : program) (S : scene) (k : nat) (x : string) (body : expr) (v : value) (m m' : memory) : Prop :=
  exists r, evaluates w pg (declare x (List.length (m_cells m)) S) k body (set_cells (m_cells m ++ [Some v]) m) (AVal r m').
(** The variable still holds its value after the pass. *)
Definition kept (v : value) (m m' : memory) : Prop := nth_error (m_cells m') (List.length (m_cells m)) = Some (Some v).

(** [P] for [i], [i + 1], ..., [n] of them, one after the other. *)
Inductive counting (P : Z -> memory -> memory -> Prop) : Z -> nat -> memory -> memory -> Prop :=
| cn_end i m : counting P i 0 m m
| cn_next i n m m1 m2 : P i m m1 -> counting P (i + 1)%Z n m1 m2 -> counting P i (S n) m m2.

(** Integers in a..b and in a..=b, and how many there are. *)
Definition count (inclusive : bool) (a b : Z) : nat := Z.to_nat (b - a + (if inclusive then 1 else 0)).
Definition range_op (inclusive : bool) : binop := if inclusive then BRangeInclusive else BRangeExclusive.
Definition is_range (e : expr) : bool := match e with EBinary (BRangeInclusive | BRangeExclusive) _ _ => true | _ => false end.

(** The iterator: [next] is called, and the field of the object it returns is read. *)
Definition field_of (v : value) (f : string) (m : memory) (x : value) (m' : memory) : Prop :=
  exists s, get_field f v (m_vm m) = ROk x s /\ m' = set_vm s m.
Inductive draining (next : memory -> value -> memory -> Prop) (P : value -> memory -> memory -> Prop) : list value -> memory -> memory -> Prop :=
| dr_done m r m1 m2 : next m r m1 -> field_of r "is_done" m1 (VBool true) m2 -> draining next P [] m m2
| dr_next m r m1 m2 v m3 m4 vs m5 : next m r m1 -> field_of r "is_done" m1 (VBool false) m2 -> field_of r "value" m2 v m3 ->
    P v m3 m4 -> draining next P vs m4 m5 -> draining next P (v :: vs) m m5.
