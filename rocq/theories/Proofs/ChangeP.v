(** What a single change of the state can do to an array or to a field; every execution is a sequence of such changes. *)
From Verif.Spec Require Import VmSpec ClassSpec StoreSpec VmHistory.
From Verif.Proofs Require Import ClassP StoreP HeapInvP GlobalsP.
#[local] Open Scope nat_scope.

Lemma array_changes w s a : (forall s', executes w s s' -> vm_steps s s') /\
  forall s', vm_change s s' -> a < List.length (h_arrays (vm_heap s)) ->
    elements (vm_heap s') a = elements (vm_heap s) a \/ exists vs, array_update a vs (vm_heap s) = Ok (vm_heap s').
Proof.
  split; [intros s'; apply executes_steps|]. intros s' H La. destruct H as [s st|s h' G|s l|s name v V|s name v V]; try (now left).
  destruct (change_elements _ _ a G La) as [K|K]; [right; exact K|left; exact K].
Qed.
Lemma field_changes w s o n : reachable w s -> (exists c, has_class s (VObject o) c) -> (forall s', executes w s s' -> vm_steps s s') /\
  forall s', vm_change s s' -> field (vm_heap s') o n = field (vm_heap s) o n \/ exists x, object_set_field o n x (vm_heap s) = Ok (vm_heap s').
Proof.
  intros R (c & Hc). split; [intros s'; apply executes_steps|]. intros s' H. destruct (has_class_object _ _ _ Hc) as (ob & Eo & Nc).
  pose proof (reachable_inv_of w s R) as I. destruct H as [s st|s h' G|s l|s name v V|s name v V]; try (now left).
  exact (change_field _ _ o n ob I G Eo Nc).
Qed.
Lemma modules_persist w s s' name v : executes w s s' -> assoc_get name (vm_modules s) = Some v -> assoc_get name (vm_modules s') = Some v.
Proof. intros E. apply steps_modules. exact (executes_steps _ _ _ E). Qed.
