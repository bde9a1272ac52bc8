(** Property C59: the ranges of the prelude. *)
From Verif.Model Require Import Script.
From Verif.Spec Require Import RangeSpec.
From Verif.Proofs Require Import RangeP RangeSampleP RangeOpP ModuleSampleP.
#[local] Open Scope string_scope.
#[local] Open Scope list_scope.
#[local] Open Scope nat_scope.

(** The trees of RangeSpec.v are those of the text of the prelude. *)
Theorem C59_prelude_text : exists es t, parse (chars prelude) = Ok (EBlock es t) /\ forall inclusive, In (EExportDecl (range_class inclusive)) es.
Proof. exact prelude_classes. Qed.
Print Assumptions C59_prelude_text.

(** * Making a range
    Calling the class makes a range from the first argument to the second. *)
Theorem C59_range_object : forall w pg inclusive m c a b room,
  is_range_class pg inclusive m c -> 30 <= room ->
  exists o m1, calls w pg room (VClass c) [a; b] m (AVal (VObject o) m1) /\ is_range_object pg inclusive m1 o a b.
Proof. exact range_made. Qed.
Print Assumptions C59_range_object.
(** After the prelude is imported, its two classes are such classes. *)
Example C59_range_object_nonvacuous : is_range_class rg_program false rg_memory 10 /\ is_range_class rg_program true rg_memory 11.
Proof. exact rg_class. Qed.

(** * The operators .. and ..=
    Once the prelude is loaded, a..b and a..=b make ranges from a to b, unless a has such an operator of its own. *)
Theorem C59_prelude_operators : exists es t, parse (chars prelude) = Ok (EBlock es t) /\ In (range_operator false) es /\ In (range_operator true) es.
Proof. exact prelude_operators. Qed.
Print Assumptions C59_prelude_operators.
Theorem C59_range_operator : forall w pg inclusive S k l r m a m1 b m2,
  50 <= s_room S ->
  evaluates w pg (inner S) k l m (AVal a m1) -> evaluates w pg (deep 1 S) (k + fns l) r m1 (AVal b m2) ->
  field_of a (range_sign inclusive) m2 VNull m2 -> has_range_operator pg inclusive m2 ->
  exists o m3, evaluates w pg S k (EBinary (range_op inclusive) l r) m (AVal (VObject o) m3) /\ is_range_object pg inclusive m3 o a b.
Proof. exact operator_makes. Qed.
Print Assumptions C59_range_operator.
(** 2..5 and 2..=5, after the prelude is imported. *)
Example C59_range_operator_nonvacuous : forall inclusive,
  evaluates rg_world rg_program (inner rg_scene) 0 (ELitInt 2) rg_memory (AVal (VInt 2) rg_memory) /\
  evaluates rg_world rg_program (deep 1 rg_scene) (0 + fns (ELitInt 2)) (ELitInt 5) rg_memory (AVal (VInt 5) rg_memory) /\
  field_of (VInt 2) (range_sign inclusive) rg_memory VNull rg_memory /\ has_range_operator rg_program inclusive rg_memory.
Proof. exact rg_operator. Qed.

(** * Its iterator
    A range's method iter gives an object whose next would give the first integer of the range. *)
Theorem C59_range_iterator : forall w pg inclusive m o a b room,
  is_range_object pg inclusive m o (VInt a) (VInt b) -> 30 <= room ->
  exists f r m1 next, field_of (VObject o) "iter" m f m /\ calls w pg room f [] m (AVal r m1) /\ field_of r "next" m1 next m1 /\
    next_gives inclusive pg m1 next a b.
Proof. exact range_iterates. Qed.
Print Assumptions C59_range_iterator.
(** Range(2, 5) and RangeInclusive(2, 5). *)
Example C59_range_iterator_nonvacuous :
  is_range_object rg_program false rg_memory 16 (VInt 2) (VInt 5) /\ is_range_object rg_program true rg_memory 17 (VInt 2) (VInt 5) /\
  class_method (vm_any (m_vm rg_memory)) "is_done" (vm_heap (m_vm rg_memory)) = Ok None.
Proof. exact rg_objects. Qed.

(** * Its next function
    next gives the integers of the range one after the other, and then says that it is done, as often as it is
    asked.  It changes nothing but its own counter. *)
Theorem C59_range_next : forall w pg m next i last room,
  next_gives false pg m next i last -> 30 <= room -> (i64_min <= i)%Z -> (i < i64_max)%Z ->
  exists r m', calls w pg room next [] m (AVal r m') /\ next_gives false pg m' next (i + 1) last /\ (exists c, only_counts c m m') /\
    ((i < last)%Z -> field_of r "is_done" m' (VBool false) m' /\ field_of r "value" m' (VInt i) m') /\
    ((i >= last)%Z -> field_of r "is_done" m' (VBool true) m').
Proof. exact range_next. Qed.
Print Assumptions C59_range_next.

(** * Loops over a range
    A loop over a range from a to b whose passes complete, and leave the range alone, binds its variable to a,
    a + 1, ..., b - 1, and completes with value unit. *)
Theorem C59_range_loop : forall w pg S k x e body m o a b m1,
  35 <= s_room S -> is_range e = false -> (i64_min <= a)%Z -> (a < i64_max)%Z -> (b < i64_max)%Z ->
  evaluates w pg (inner S) k e m (AVal (VObject o) m1) -> is_range_object pg false m1 o (VInt a) (VInt b) ->
  exists next m2, next_gives false pg m2 next a b /\
    forall vs m3, draining (fun m r m' => calls w pg (s_room S - 1) next [] m (AVal r m'))
        (fun v m m' => pass w pg (deep 1 S) (k + fns e) x body v m m' /\ leaves_range false pg next b m m') vs m2 m3 ->
      vs = integers a (Z.to_nat (b - a)) /\ evaluates w pg S k (EFor x e body) m (AVal VUnit m3).
Proof. exact range_for. Qed.
Print Assumptions C59_range_loop.
(** And such a loop does complete: whatever the passes do, as long as they leave the range alone. *)
Theorem C59_range_completes : forall w pg room next last (step : value -> memory -> memory),
  30 <= room -> (last < i64_max)%Z -> (forall v m, leaves_range false pg next last m (step v m)) ->
  forall n i m, n = Z.to_nat (last - i) -> next_gives false pg m next i last -> (i64_min <= i)%Z -> (i < i64_max)%Z ->
  exists m', draining (fun m r m' => calls w pg room next [] m (AVal r m')) (fun v m m' => m' = step v m) (integers i n) m m'.
Proof. exact range_drains. Qed.
Print Assumptions C59_range_completes.
(** for i in r { i }, where r is Range(2, 5). *)
Example C59_range_loop_nonvacuous : exists next m2, next_gives false rg_program m2 next 2 5 /\
  exists m3, draining (fun m r m' => calls rg_world rg_program (s_room rg_scene - 1) next [] m (AVal r m'))
    (fun v m m' => pass rg_world rg_program (deep 1 rg_scene) 0 "i" (ELitIdent "i") v m m' /\ leaves_range false rg_program next 5 m m') [VInt 2; VInt 3; VInt 4] m2 m3 /\
  evaluates rg_world rg_program rg_scene 0 (EFor "i" (ELitIdent "r") (ELitIdent "i")) (rg_start 16) (AVal VUnit m3).
Proof. exact rg_loop. Qed.

(** * Loops over an inclusive range fail
    The objects that RangeInclusive's next gives have a field done where a loop reads is_done: the loop ends with
    an error before its first pass. *)
Theorem C59_inclusive_range_loop_refuted : forall w pg S k x e body m o a b m1,
  35 <= s_room S -> is_range e = false -> (i64_min <= a)%Z -> (a < i64_max)%Z ->
  evaluates w pg (inner S) k e m (AVal (VObject o) m1) -> is_range_object pg true m1 o (VInt a) (VInt b) ->
  class_method (vm_any (m_vm m1)) "is_done" (vm_heap (m_vm m1)) = Ok None ->
  exists m', evaluates w pg S k (EFor x e body) m (AFail INVALID_BOOL_CONVERSION m').
Proof. exact inclusive_fails. Qed.
Print Assumptions C59_inclusive_range_loop_refuted.

(** * At the largest integer
    next counts on even when it is done: once the counter holds the largest integer, a checked build panics. *)
Theorem C59_largest_integer_refuted : forall w pg inclusive m next last room,
  next_gives inclusive pg m next i64_max last -> 30 <= room -> w_dbg w = true -> calls w pg room next [] m ACrash.
Proof. exact next_overflows. Qed.
Print Assumptions C59_largest_integer_refuted.
