(** Properties C39 and C40: for loops. *)
From Verif.Spec Require Import FlowSpec.
From Verif.Proofs Require Import FlowP FlowSampleP ConstantP ConstantSampleP.
#[local] Open Scope string_scope.
#[local] Open Scope list_scope.
#[local] Open Scope nat_scope.

(** * C39: for x in a..b and a..=b
    The bounds are evaluated (the last one first), then the body is run once for each integer of the range, in
    increasing order, with a new variable holding it; then the loop's value is unit.  The passes are supposed to
    complete. *)
Theorem C39_range_loop : forall w pg inclusive x first last body bc below s room a b m1 m2 m3,
  runnable w pg (script_of (EFor x (EBinary (range_op inclusive) first last) body)) bc below s room -> enough + 1 <= room ->
  evaluates w pg (top_scene room 0) 0 last (MeaningSpec.start s) (AVal (VInt b) m1) ->
  evaluates w pg (top_scene room 1) (fns last) first m1 (AVal (VInt a) m2) ->
  (i64_min <= a)%Z -> (b < i64_max)%Z ->
  counting (fun i m m' => pass w pg (top_scene room 1) (fns last + fns first) x body (VInt i) m m') a (count inclusive a b) m2 m3 ->
  exists s', from (fun n => runtime_run w n bc s) (ROk VUnit s') /\ same_store (m_vm m3) s' /\ ready below s'.
Proof. exact range_loop_runs. Qed.
Print Assumptions C39_range_loop.
(** for i in 2..5 makes the passes 2, 3 and 4. *)
Example C39_nonvacuous :
  runnable sample_world (solo squares) (script_of (EFor "i" (EBinary (range_op false) (ELitInt 2) (ELitInt 5)) squares_body)) (coded squares) [] new_vm 200 /\
  evaluates sample_world (solo squares) (top_scene 200 0) 0 (ELitInt 5) (MeaningSpec.start new_vm) (AVal (VInt 5) sq_last) /\
  evaluates sample_world (solo squares) (top_scene 200 1) 0 (ELitInt 2) sq_last (AVal (VInt 2) sq_first) /\
  counting (fun i m m' => pass sample_world (solo squares) (top_scene 200 1) 0 "i" squares_body (VInt i) m m') 2 (count false 2 5) sq_first sq4.
Proof. exact squares_made. Qed.

(** * C40: for x in e
    e is evaluated, its iter is called, and the next of the result is taken.  Then next is called once per
    iteration; while is_done is false, value is bound to a new variable and the body is run; when it is true the
    loop stops, with value unit. *)
Theorem C40_iterator_loop : forall w pg x e body bc below s room v m1 f m2 it m3 next m4 vs m5,
  runnable w pg (script_of (EFor x e body)) bc below s room -> enough + 1 <= room -> is_range e = false ->
  evaluates w pg (top_scene room 0) 0 e (MeaningSpec.start s) (AVal v m1) -> field_of v "iter" m1 f m2 ->
  calls w pg room f [] m2 (AVal it m3) -> field_of it "next" m3 next m4 ->
  draining (fun m r m' => calls w pg (room - 1) next [] m (AVal r m')) (pass w pg (top_scene room 1) (fns e) x body) vs m4 m5 ->
  exists s', from (fun n => runtime_run w n bc s) (ROk VUnit s') /\ same_store (m_vm m5) s' /\ ready below s'.
Proof. exact iterator_runs. Qed.
Print Assumptions C40_iterator_loop.
(** for x in [10, 20] binds 10 and 20. *)
Example C40_nonvacuous :
  runnable sample_world (solo each) (script_of (EFor "x" each_list each_body)) (coded each) [] new_vm 200 /\
  evaluates sample_world (solo each) (top_scene 200 0) 0 each_list (MeaningSpec.start new_vm) (AVal (VArray 0) ea1) /\
  field_of (VArray 0) "iter" ea1 each_iter ea2 /\ calls sample_world (solo each) 200 each_iter [] ea2 (AVal (VObject 11) ea3) /\
  field_of (VObject 11) "next" ea3 each_next ea4 /\
  draining (fun m r m' => calls sample_world (solo each) 199 each_next [] m (AVal r m')) (pass sample_world (solo each) (top_scene 200 1) 0 "x" each_body) [VInt 10; VInt 20] ea4 ea7.
Proof. exact each_ok. Qed.
