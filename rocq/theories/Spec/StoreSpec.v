(** Vocabulary for arrays and fields. *)
From Verif.Spec Require Export ClassSpec.

(** The elements of an array. *)
Definition elements (h : heap) (a : nat) : option (list value) :=
  match nth_error (h_arrays h) a with Some ar => Some (ar_elements ar) | None => None end.

(** The array is not being iterated over by one of its own methods. *)
Definition unborrowed (h : heap) (a : nat) : Prop :=
  exists ar, nth_error (h_arrays h) a = Some ar /\ ar_borrows ar = 0.

(** A field stored on an object. *)
Definition field (h : heap) (o : nat) (name : string) : option value :=
  match nth_error (h_objects h) o with
  | Some ob => match nth_error (h_fields h) (ob_fields ob) with Some m => assoc_get name m | None => None end
  | None => None
  end.

(** The object carrying the fields of a value, if it has fields. *)
Definition carrier (h : heap) (v : value) : option nat :=
  match v with
  | VObject o => Some o
  | VArray a => match nth_error (h_arrays h) a with Some ar => Some (ar_object ar) | None => None end
  | VClass c => match nth_error (h_classes h) c with Some k => Some (cl_object k) | None => None end
  | _ => None
  end.
Definition own_field (h : heap) (v : value) (name : string) : option value :=
  match carrier h v with Some o => field h o name | None => None end.

(** Executing a field store (x.name = v in statement or expression position). *)
Definition stores_field (s : vm) (target : value) (name : string) (x : value) (s' : vm) : Prop :=
  exists w r bc fr ups o c p b t,
    (o = OpStoreField \/ o = OpAssignField) /\ nth_error (bc_constants bc) c = Some (CSymbol name) /\ fits b t 2 /\
    s = with_stack b (x :: target :: t) s /\
    final_state (step w r bc fr ups (IByte o c) p s) = Some s'.

(** Field stores on objects interleaved with stack activity. *)
Inductive field_stores : vm -> list (nat * string * value) -> vm -> Prop :=
| fs_none s : field_stores s [] s
| fs_stack s st l s' : field_stores (set_stack st s) l s' -> field_stores s l s'
| fs_store s o name x s1 l s' :
    stores_field s (VObject o) name x s1 -> field_stores s1 l s' -> field_stores s ((o, name, x) :: l) s'.

(** The last value stored in field [name] of object [o]. *)
Fixpoint last_store (o : nat) (name : string) (l : list (nat * string * value)) (d : option value) : option value :=
  match l with
  | [] => d
  | (o', name', x) :: rest =>
      last_store o name rest (if (Nat.eqb o o' && String.eqb name name')%bool then Some x else d)
  end.

(** What an annotation (class [d], written with or without the question mark) accepts. *)
Definition is_null (v : value) : bool := match v with VNull => true | _ => false end.
Definition accepts (nullable : bool) (s : vm) (v : value) (d : nat) : Prop :=
  (nullable = true /\ v = VNull) \/ instance_of s v d.
