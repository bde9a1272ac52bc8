(** A concrete reachable state, for the examples beside the theorems. *)
From Verif.Proofs Require Export StoreP.

(** A world without module files and without further native functions. *)
Definition sample_world : world :=
  MkWorld true (fun _ _ => Err IO_ERROR) (fun _ _ _ _ => AnsValue VUnit).

Definition new_vm : vm :=
  match runtime_new with
  | Ok s => s
  | _ => MkVm (MkStack [] 0) heap_empty [] [] [] 0 0 [] []
  end.
Lemma new_vm_ok : runtime_new = Ok new_vm.
Proof.
  unfold new_vm. assert (K : match runtime_new with Ok _ => true | _ => false end = true) by (vm_compute; reflexivity).
  destruct runtime_new; [reflexivity|discriminate|discriminate|discriminate].
Qed.
Global Opaque new_vm.
Lemma new_vm_reachable w : reachable w new_vm.
Proof. exists new_vm. split; [apply new_vm_ok|apply ex_done]. Qed.

Definition value_of {A} (r : res A) : option A := match r with ROk a _ => Some a | _ => None end.
