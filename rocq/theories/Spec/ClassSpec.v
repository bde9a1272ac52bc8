(** Vocabulary for the class properties. *)
From Verif.Spec Require Export VmSpec.

(** [c] is [d] or was derived from it, directly or transitively. *)
Inductive derives (h : heap) : nat -> nat -> Prop :=
| derives_self c : c < List.length (h_classes h) -> derives h c c
| derives_base c k b d :
    nth_error (h_classes h) c = Some k -> cl_base k = Some b -> derives h b d -> derives h c d.

(** The class of a value: the class an object was created with; the class registered for its kind for
    every other value (nulls, symbols have none). *)
Inductive has_class (s : vm) : value -> nat -> Prop :=
| class_of_object o ob c :
    nth_error (h_objects (vm_heap s)) o = Some ob -> ob_class ob = Some c -> has_class s (VObject o) c
| class_of_other v c :
    kind v <> KdObject -> In (kind v, c) (vm_kinds s) -> has_class s v c.

Definition instance_of (s : vm) (v : value) (d : nat) : Prop :=
  exists c, has_class s v c /\ derives (vm_heap s) c d.

(** A method of a class. *)
Definition method (h : heap) (c : nat) (name : string) : option value :=
  match nth_error (h_classes h) c with Some k => assoc_get name (cl_methods k) | None => None end.
