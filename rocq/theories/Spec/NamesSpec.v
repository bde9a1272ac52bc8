(** The names of the methods that values of the built-in classes have, for C42, C52, C53 and C54: what the runtime's
    documentation would list.  Written by hand; not computed from the model of the runtime.  "new" is not among them,
    as a constructor is called through its class. *)
From Verif.Spec Require Export HostSpec StoreSpec ClassSpec.
#[local] Open Scope string_scope.
#[local] Open Scope list_scope.

Definition common_standard : list (string * native) :=
  [("to_string", NToString); ("fields", NFields); ("methods", NMethods); ("class_of", NClassOf)].
Definition array_standard : list (string * native) :=
  [("push", NArrayPush); ("pop", NArrayPop); ("length", NArrayLength); ("first", NArrayFirst); ("filter", NArrayFilter);
   ("map", NArrayMap); ("iter", NArrayIter)].
Definition int_standard : list (string * native) :=
  [("abs", NIntAbs); ("pow", NIntPow); ("min", NIntMin); ("max", NIntMax); ("is_positive", NIntIsPositive); ("is_negative", NIntIsNegative)].
Definition float_standard : list (string * native) :=
  [("abs", NFloatFn FAbs); ("sqrt", NFloatFn FSqrt); ("floor", NFloatFn FFloor); ("ceil", NFloatFn FCeil); ("round", NFloatFn FRound);
   ("min", NFloatFn FMin); ("max", NFloatFn FMax); ("is_finite", NFloatFn FIsFinite); ("is_infinite", NFloatFn FIsInfinite);
   ("is_nan", NFloatFn FIsNan); ("is_normal", NFloatFn FIsNormal)].
Definition class_standard : list (string * native) := [("name", NClassName); ("base", NClassBase)].
Definition string_standard : list (string * native) := [("#add", NStringConcat)].

(** The method that a value of this kind has by this name in a new runtime. *)
Inductive standard_method : vkind -> string -> native -> Prop :=
| st_common k name n : In k [KdArray; KdBool; KdClass; KdFloat; KdFunction; KdInt; KdString; KdUnit] ->
    In (name, n) common_standard -> standard_method k name n
| st_array name n : In (name, n) array_standard -> standard_method KdArray name n
| st_int name n : In (name, n) int_standard -> standard_method KdInt name n
| st_float name n : In (name, n) float_standard -> standard_method KdFloat name n
| st_class name n : In (name, n) class_standard -> standard_method KdClass name n
| st_string name n : In (name, n) string_standard -> standard_method KdString name n.

(** The method of class [c] by this name is still the one of a new runtime. *)
Definition not_redefined (c : nat) (name : string) (s : vm) : Prop :=
  exists s0, runtime_new = Ok s0 /\ method (vm_heap s) c name = method (vm_heap s0) c name.
