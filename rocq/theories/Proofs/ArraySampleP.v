(** Scripts for the examples beside the theorems on arrays. *)
From Verif.Spec Require Import ArraySpec.
From Verif.Proofs Require Import ArrayMethodP FlowSampleP.
#[local] Open Scope string_scope.
#[local] Open Scope list_scope.
#[local] Open Scope nat_scope.

Definition array_names : list (string * native) :=
  [("push", NArrayPush); ("pop", NArrayPop); ("length", NArrayLength); ("first", NArrayFirst); ("filter", NArrayFilter); ("map", NArrayMap); ("iter", NArrayIter)].
Lemma names_ok : map (fun m => value_of (get_field (fst m) (VArray 0) (with_array four_words new_vm))) array_names = map (fun m => Some (method_of 0 (snd m))) array_names.
Proof. vm_compute. reflexivity. Qed.
Definition methods_script : string := "
let a = [1, 2, 3, 4]
let b = a.map(|x| x * 2)
let c = a.filter(|x| x > 2)
a.push(7)
let p = a.pop()
b.push(p)
b.length() * 1000 + b[4] * 100 + c.length() * 10 + a.length()
".
Lemma methods_ok : value_of (run_of sample_world methods_script) = Some (VInt 5724).
Proof. vm_compute. reflexivity. Qed.
Definition failing_function : string := "
let a = [1, 2]
let b = a.map(|x| x + true)
b.length()
".
Definition push_while_mapping : string := "
let a = [1, 2]
a.map(|x| a.push(x))
".
