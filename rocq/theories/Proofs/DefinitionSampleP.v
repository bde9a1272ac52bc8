(** A script that defines a method, run with and without definitions of methods of given names; the method abs of an
    integer in a new runtime. *)
From Verif.Spec Require Import DefinitionSpec NamesSpec.
From Verif.Proofs Require Import FlowSampleP HostSampleP ClassP.
#[local] Open Scope string_scope.
#[local] Open Scope list_scope.
#[local] Open Scope nat_scope.

Definition definition_script : string := "
class A {
    fn m(self) { 40 }
}
let a = A()
a.m() + 2
".
Definition stopped {A} (r : res A) : bool := match r with RNoFuel => true | _ => false end.
Definition run_without (n : string) : res value := run_script sample_world (without n sample_world 100) (coded definition_script) new_vm.
Lemma definition_runs : (value_of (run_without "to_string"), stopped (run_without "m"), value_of (runtime_run sample_world 100 (coded definition_script) new_vm))
  = (Some (VInt 42), true, Some (VInt 42)).
Proof. vm_compute. reflexivity. Qed.

Lemma int_lives h : live h (VInt 1). Proof. exact I. Qed.
Lemma int_fieldless h : own_field h (VInt 1) "abs" = None. Proof. reflexivity. Qed.
Lemma abs_standard : standard_method (kind (VInt 1)) "abs" NIntAbs.
Proof. apply st_int. left. reflexivity. Qed.
Lemma int_kind : kind_get KdInt (vm_kinds new_vm) = Some 7.
Proof. vm_compute. reflexivity. Qed.
Lemma class_in s c : NoDup (map fst (vm_kinds s)) -> kind_get KdInt (vm_kinds s) = Some c -> has_class s (VInt 1) c.
Proof. intros N H. apply class_of_other; [discriminate|]. now apply kind_get_In. Qed.
Lemma int_class : has_class new_vm (VInt 1) 7.
Proof. exact (class_in new_vm 7 (reachable_nodup _ new_kinds) int_kind). Qed.
Lemma abs_sample : reachable sample_world new_vm /\ live (vm_heap new_vm) (VInt 1) /\ standard_method (kind (VInt 1)) "abs" NIntAbs /\
  own_field (vm_heap new_vm) (VInt 1) "abs" = None /\ has_class new_vm (VInt 1) 7 /\ not_redefined 7 "abs" new_vm.
Proof.
  split; [exact (new_vm_reachable sample_world)|]. split; [exact (int_lives (vm_heap new_vm))|]. split; [exact abs_standard|].
  split; [exact (int_fieldless (vm_heap new_vm))|]. split; [exact int_class|exact (ex_intro _ new_vm (conj new_vm_ok eq_refl))].
Qed.
