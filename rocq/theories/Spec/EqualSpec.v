(** Vocabulary for the equality property. *)
From Verif.Model Require Export Value.

(** The comparison of [a] and [b] finishes and says they are equal.  (Comparing arrays that contain
    themselves does not finish.) *)
Definition equal (h : heap) (a b : value) : Prop := exists fuel, value_eqb fuel h a b = Ok true.

(** Values that contain no NaN, no native function, no bound method and no pointer to nothing; arrays
    must not contain themselves. *)
Inductive comparable (h : heap) : value -> Prop :=
| cmp_null : comparable h VNull
| cmp_unit : comparable h VUnit
| cmp_bool b : comparable h (VBool b)
| cmp_int z : comparable h (VInt z)
| cmp_float f : f <> S754_nan -> comparable h (VFloat f)
| cmp_script f : comparable h (VFnScript f)
| cmp_closure a : a < List.length (h_closures h) -> comparable h (VFnClosure a)
| cmp_array a ar : nth_error (h_arrays h) a = Some ar ->
    (forall v, In v (ar_elements ar) -> comparable h v) -> comparable h (VArray a)
| cmp_string x : comparable h (VString x)
| cmp_symbol x : comparable h (VSymbol x)
| cmp_object o : comparable h (VObject o)
| cmp_class c : c < List.length (h_classes h) -> comparable h (VClass c).
