(** The ranges of the prelude: the classes Range and RangeInclusive (data/scripts/prelude.dm:1-49), and what it
    means for a value to be the next function of such a range. *)
From Verif.Model Require Export Prelude.
From Verif.Spec Require Export FlowSpec.
#[local] Open Scope string_scope.
#[local] Open Scope list_scope.
#[local] Open Scope nat_scope.

(** The trees of the two classes.  They differ in their names, in the comparison, and in the name of the field that
    says that there are no more values. *)
Definition arg (x : string) : fn_arg := {| fa_name := x; fa_type := None |}.
Definition comparison (inclusive : bool) : binop := if inclusive then BLessThanEquals else BLessThan.
Definition done_name (inclusive : bool) : string := if inclusive then "done" else "is_done".
Definition next_body (inclusive : bool) : expr :=
  EBlock
    [EVarDecl (Singular "result") false
       (EIf (EBinary (comparison inclusive) (ELitIdent "current") (EFieldAccess (ELitIdent "self") "end"))
          (EBlock [] (Some (ELitObject [("value", ELitIdent "current"); (done_name inclusive, ELitBool false)])))
          (Some (EBlock [] (Some (ELitObject [(done_name inclusive, ELitBool true)])))))
       None;
     EAssignment AAdd (ELitIdent "current") (ELitInt 1)]
    (Some (ELitIdent "result")).
Definition iter_body (inclusive : bool) : expr :=
  EBlock
    [EVarDecl (Singular "current") true (EFieldAccess (ELitIdent "self") "start") None]
    (Some (ELitObject [("next", ELitAnonymousFn [] None (next_body inclusive))])).
Definition new_body : expr :=
  EBlock
    [EAssignment AAssign (EFieldAccess (ELitIdent "self") "start") (ELitIdent "start")]
    (Some (EAssignment AAssign (EFieldAccess (ELitIdent "self") "end") (ELitIdent "end"))).
Definition range_class (inclusive : bool) : expr :=
  EClassDecl (if inclusive then "RangeInclusive" else "Range")
    [EFnDecl "new" [arg "self"; arg "start"; arg "end"] None new_body;
     EFnDecl "iter" [arg "self"] None (iter_body inclusive)]
    None.

(** A value that is the function of the given text, and captures nothing. *)
Definition plain_function (pg : program) (m : memory) (v : value) (n : nat) (src : source) : Prop :=
  v = VFnScript (pg_lit pg n) /\
  find (fun p => Nat.eqb (fst p) (fn_id (pg_lit pg n))) (m_fns m) = Some (n, src) /\
  bc_slot_count (fn_code (pg_lit pg n)) <= 8.
(** [c] is the class of one of the two declarations. *)
Record is_range_class (pg : program) (inclusive : bool) (m : memory) (c : nat) : Prop := {
  rc_new : exists f n k, class_method c "new" (vm_heap (m_vm m)) = Ok (Some f) /\
    plain_function pg m f n (Source "self" [arg "start"; arg "end"] Constructing new_body k);
  rc_iter : exists f n k, class_method c "iter" (vm_heap (m_vm m)) = Ok (Some f) /\
    plain_function pg m f n (Source "self" [] (Returning None) (iter_body inclusive) k) /\
    bc_upvalue_count (fn_code (pg_lit pg k)) <> 0 /\ bc_slot_count (fn_code (pg_lit pg k)) <= 8 }.

(** [next] is the next function of a range that ends at [last], and would give [i]. *)
Definition next_gives (inclusive : bool) (pg : program) (m : memory) (next : value) (i last : Z) : Prop :=
  exists a n k E c l o,
    next = VFnClosure a /\
    nth_error (m_closures m) a = Some (Some (Closure n (Source "" [] (Returning None) (next_body inclusive) k) E)) /\
    bc_slot_count (fn_code (pg_lit pg n)) <= 8 /\
    assoc_get "current" E = Some c /\ assoc_get "self" E = Some l /\ c <> l /\
    nth_error (m_cells m) c = Some (Some (VInt i)) /\
    nth_error (m_cells m) l = Some (Some (VObject o)) /\
    object_field o "end" (vm_heap (m_vm m)) = Ok (Some (VInt last)).

(** The integers from [i] on, [n] of them. *)
Fixpoint integers (i : Z) (n : nat) : list value :=
  match n with O => [] | Datatypes.S n => VInt i :: integers (i + 1) n end.
(** From [m] to [m'] the range's variables stay as they are. *)
Definition leaves_range (inclusive : bool) (pg : program) (next : value) (last : Z) (m m' : memory) : Prop :=
  forall i, next_gives inclusive pg m next i last -> next_gives inclusive pg m' next i last.

(** [o] is a range from [a] to [b]. *)
Record is_range_object (pg : program) (inclusive : bool) (m : memory) (o : nat) (a b : value) : Prop := {
  ro_start : object_field o "start" (vm_heap (m_vm m)) = Ok (Some a);
  ro_end : object_field o "end" (vm_heap (m_vm m)) = Ok (Some b);
  ro_iter : object_field o "iter" (vm_heap (m_vm m)) = Ok None;
  ro_class : exists c, object_class o (vm_heap (m_vm m)) = Ok (Some c) /\ is_range_class pg inclusive m c }.

(** Only the given cell changes; there is one new object. *)
Definition only_counts (c : nat) (m m' : memory) : Prop :=
  (forall l, l <> c -> l < List.length (m_cells m) -> nth_error (m_cells m') l = nth_error (m_cells m) l) /\
  (forall o f x, object_field o f (vm_heap (m_vm m)) = Ok x -> object_field o f (vm_heap (m_vm m')) = Ok x) /\
  h_arrays (vm_heap (m_vm m')) = h_arrays (vm_heap (m_vm m)) /\ h_classes (vm_heap (m_vm m')) = h_classes (vm_heap (m_vm m)) /\
  vm_globals (m_vm m') = vm_globals (m_vm m) /\ vm_modules (m_vm m') = vm_modules (m_vm m) /\
  m_closures m' = m_closures m /\ m_fns m' = m_fns m.

(** * The operators
    The two operators of the prelude (prelude.dm:51-57): their names, their bodies, and a memory in which one of
    them is the one of the prelude. *)
Definition range_op (inclusive : bool) : binop := if inclusive then BRangeInclusive else BRangeExclusive.
Definition range_sign (inclusive : bool) : string := if inclusive then "#range_inclusive" else "#range_exclusive".
Definition range_name (inclusive : bool) : string := if inclusive then "RangeInclusive" else "Range".
Definition op_body (inclusive : bool) : expr :=
  EBlock [] (Some (EFnCall (ELitIdent (range_name inclusive)) [ELitIdent "start"; ELitIdent "end"])).
Definition range_operator (inclusive : bool) : expr :=
  EOpDecl (if inclusive then ORangeInclusive else ORangeExclusive) [arg "start"; arg "end"] None (op_body inclusive).
Definition has_range_operator (pg : program) (inclusive : bool) (m : memory) : Prop :=
  exists a n k E l c,
    assoc_get (range_sign inclusive) (vm_globals (m_vm m)) = Some (VFnClosure a) /\
    nth_error (m_closures m) a = Some (Some (Closure n (Source "" [arg "start"; arg "end"] (Returning None) (op_body inclusive) k) E)) /\
    bc_slot_count (fn_code (pg_lit pg n)) <= 8 /\
    assoc_get (range_name inclusive) E = Some l /\ nth_error (m_cells m) l = Some (Some (VClass c)) /\ is_range_class pg inclusive m c.
