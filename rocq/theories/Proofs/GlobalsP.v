(** Lemmas for globals and modules. *)
From Verif.Proofs Require Export ClassP.
From Verif.Proofs Require Import ArithP.

Lemma symbol_at_ok bc c name s : nth_error (bc_constants bc) c = Some (CSymbol name) -> symbol_at bc c s = ROk name s.
Proof. intros E. unfold symbol_at, const_at, rbind. rewrite E. reflexivity. Qed.

Lemma steps_globals s s' name v : vm_steps s s' ->
  assoc_get name (vm_globals s) = Some v -> assoc_get name (vm_globals s') = Some v.
Proof.
  induction 1 as [s|s1 s2 s3 H _ IH]; [auto|]. intros E. apply IH. destruct H; try exact E.
  cbn [vm_globals set_globals]. rewrite assoc_get_set. destruct (String.eqb_spec name name0) as [->|]; [congruence|exact E].
Qed.
Lemma executes_globals w s s' name v : executes w s s' ->
  assoc_get name (vm_globals s) = Some v -> assoc_get name (vm_globals s') = Some v.
Proof. intros E. apply steps_globals. now apply executes_steps in E. Qed.

Lemma steps_modules s s' name v : vm_steps s s' ->
  assoc_get name (vm_modules s) = Some v -> assoc_get name (vm_modules s') = Some v.
Proof.
  induction 1 as [s|s1 s2 s3 H _ IH]; [auto|]. intros E. apply IH. destruct H; try exact E.
  cbn [vm_modules set_modules set_loads]. rewrite assoc_get_set. destruct (String.eqb_spec name name0) as [->|]; [congruence|exact E].
Qed.

Section Steps.
Variables (w : world) (r : rec) (bc : bytecode) (fr : frame) (ups : option (list nat)) (p : pos) (c : byte) (name : string).
Hypothesis Ec : nth_error (bc_constants bc) c = Some (CSymbol name).

Lemma step_load_global b t s v : assoc_get name (vm_globals s) = Some v -> fits b t 1 ->
  step w r bc fr ups (IByte OpLoadGlobal c) p (with_stack b t s) = ROk (Continue p) (with_stack b (v :: t) s).
Proof.
  intros E F. cbn [step]. unfold rbind. rewrite (symbol_at_ok _ _ _ _ Ec). unfold load_global.
  change (vm_globals (with_stack b t s)) with (vm_globals s). rewrite E. rewrite push_ws by fit. reflexivity.
Qed.
Lemma step_load_global_undefined s : assoc_get name (vm_globals s) = None ->
  step w r bc fr ups (IByte OpLoadGlobal c) p s = RErr GLOBAL_VARIABLE_UNDEFINED s.
Proof.
  intros E. cbn [step]. unfold rbind. rewrite (symbol_at_ok _ _ _ _ Ec). unfold load_global. now rewrite E.
Qed.
Lemma step_store_global_defined b t s v x : assoc_get name (vm_globals s) = Some v -> fits b t 1 ->
  step w r bc fr ups (IByte OpStoreGlobal c) p (with_stack b (x :: t) s)
  = RErr GLOBAL_VARIABLE_ALREADY_DEFINED (with_stack b t s).
Proof.
  intros E F. cbn [step]. unfold rbind. rewrite (symbol_at_ok _ _ _ _ Ec). unfold store_global, rbind. rewrite pop_ws by fit.
  change (vm_globals (with_stack b t s)) with (vm_globals s). now rewrite E.
Qed.
Lemma step_store_global_vacant b t s x : assoc_get name (vm_globals s) = None -> fits b t 1 ->
  step w r bc fr ups (IByte OpStoreGlobal c) p (with_stack b (x :: t) s)
  = ROk (Continue p) (with_stack b t (set_globals (assoc_set name x (vm_globals s)) s)).
Proof.
  intros E F. cbn [step]. unfold rbind. rewrite (symbol_at_ok _ _ _ _ Ec). unfold store_global, rbind. rewrite pop_ws by fit.
  change (vm_globals (with_stack b t s)) with (vm_globals s). now rewrite E.
Qed.
Lemma step_load_module_known b t s m : assoc_get name (vm_modules s) = Some m -> fits b t 1 ->
  step w r bc fr ups (IByte OpLoadModule c) p (with_stack b t s) = ROk (Continue p) (with_stack b (m :: t) s).
Proof.
  intros E F. cbn [step]. unfold rbind at 1, rbind at 1. rewrite (symbol_at_ok _ _ _ _ Ec). unfold load_module.
  change (vm_modules (with_stack b t s)) with (vm_modules s). rewrite E. rewrite push_ws by fit. reflexivity.
Qed.
End Steps.

(** The loader is asked at most once per name. *)
Definition loads_inv (s : vm) : Prop :=
  NoDup (vm_loads s) /\ forall name, In name (vm_loads s) -> assoc_get name (vm_modules s) <> None.
Lemma steps_loads s s' : vm_steps s s' -> loads_inv s -> loads_inv s'.
Proof.
  induction 1 as [s|s1 s2 s3 H _ IH]; [auto|]. intros I. apply IH. destruct I as (N & I).
  destruct H as [s st|s h' Hh|s l|s name v Hv|s name v Hv]; try (split; assumption).
  split; cbn [vm_loads vm_modules set_loads set_modules].
  - constructor; [|assumption]. intros H. now apply I in H.
  - intros n [<-|H]; rewrite assoc_get_set; [now rewrite String.eqb_refl|].
    destruct (String.eqb n name); [discriminate|auto].
Qed.
Lemma runtime_new_loads s : runtime_new = Ok s -> vm_loads s = [] /\ vm_modules s = [].
Proof.
  assert (K : omap (fun s => (vm_loads s, vm_modules s)) runtime_new = Ok ([], [])) by (vm_compute; reflexivity).
  intros E. rewrite E in K. cbn [omap] in K. clear E. injection K as A B. exact (conj A B).
Qed.
Lemma reachable_loads w s : reachable w s -> NoDup (vm_loads s).
Proof.
  intros (s0 & E0 & E). apply runtime_new_loads in E0 as (E0 & _). apply executes_steps in E.
  apply (steps_loads _ _ E). split; rewrite E0; [constructor|intros ? []].
Qed.

(** A failed import. *)
Lemma failed_import_registered w n name s e s' : assoc_get name (vm_modules s) = None ->
  load_module w (machine w n) name s = RErr e s' ->
  exists o, assoc_get name (vm_modules s') = Some (VObject o).
Proof.
  intros E H. unfold load_module in H. rewrite E in H.
  unfold rbind at 1, heap_alloc in H.
  destruct (object_new (Some (vm_module_class s)) (vm_heap s)) as [o h] eqn:Eo.
  set (s1 := set_heap h s) in *. unfold rbind at 1 in H. cbv beta in H.
  set (s2 := set_modules (assoc_set name (VObject o) (vm_modules s1)) s1) in *.
  set (s3 := set_loads (name :: vm_loads s2) s2) in *.
  assert (A : assoc_get name (vm_modules s3) = Some (VObject o)).
  { unfold s3, s2. cbn [vm_modules set_modules set_loads]. rewrite assoc_get_set, String.eqb_refl. reflexivity. }
  exists o. destruct (machine_sound w n) as [M1 M2].
  assert (S : sound (let* bc := lift (w_load w (vm_loads s2) name) in let* m := run_module w (machine w n) bc (VObject o) in push m)).
  { apply sound_bind; [apply sound_lift|]. intros bc. apply sound_bind; [now apply sound_run_module|]. intros m. apply sound_push. }
  specialize (S s3).
  match type of H with ?x = _ => match type of S with match ?y with _ => _ end => change x with y in H end end.
  rewrite H in S. eapply steps_modules; eauto.
Qed.
