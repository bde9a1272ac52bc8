(** Classes and objects that the host makes. *)
From Coq Require Import Lia.
From Verif.Model Require Import Host Script Cli.
From Verif.Spec Require Import VmSpec ClassSpec StoreSpec VmHistory.
From Verif.Proofs Require Import HeapP HeapInvP VmStepsP GlobalsP ClassP StoreP SampleP.
#[local] Open Scope string_scope.
#[local] Open Scope list_scope.
#[local] Open Scope nat_scope.

Lemma any_clones w s name : reachable w s -> exists c h', class_with_base name (vm_any s) (vm_heap s) = Ok (c, h').
Proof.
  intros R. destruct (reachable_state w s R) as (I & _ & _ & A & _). unfold class_with_base, object_deep_clone.
  destruct (nth_error (h_classes (vm_heap s)) (vm_any s)) as [k|] eqn:K; [|apply nth_error_None in K; lia].
  destruct (hi_class_object _ I _ _ K) as (ob & O & _). rewrite O. cbn [obind]. eauto.
Qed.
Theorem host_class w s name : reachable w s ->
  exists h', new_class name s = ROk (VClass (List.length (h_classes (vm_heap s)))) (set_heap h' s) /\
    derives h' (List.length (h_classes (vm_heap s))) (vm_any s) /\
    (forall m, method h' (List.length (h_classes (vm_heap s))) m = if String.eqb m "new" then None else method (vm_heap s) (vm_any s) m) /\
    (forall d m, d < List.length (h_classes (vm_heap s)) -> method h' d m = method (vm_heap s) d m).
Proof.
  intros R. destruct (any_clones w s name R) as (c & h' & E). destruct (inherit_methods _ _ _ _ _ E) as (-> & D & M & O). exists h'. split; [|auto].
  unfold new_class, rbind, heap_upd. rewrite E. reflexivity.
Qed.
Theorem host_object s : exists o h', new_object s = ROk (VObject o) (set_heap h' s) /\ o = List.length (h_objects (vm_heap s)) /\
  has_class (set_heap h' s) (VObject o) (vm_any s) /\
  (forall p x, nth_error (h_objects (vm_heap s)) p = Some x -> nth_error (h_objects h') p = Some x).
Proof.
  unfold new_object, rbind, heap_alloc. destruct (object_new (Some (vm_any s)) (vm_heap s)) as [o h'] eqn:E. unfold object_new in E. injection E as <- <-. eexists _, _.
  split; [reflexivity|]. split; [reflexivity|]. split.
  - apply class_of_object with (ob := MkObject (Some (vm_any s)) (List.length (h_fields (vm_heap s)))); [|reflexivity]. cbn. rewrite nth_error_app2 by lia. rewrite Nat.sub_diag. reflexivity.
  - intros p x H. cbn. rewrite nth_error_app1; [exact H|]. apply nth_error_Some. congruence.
Qed.

(** * The prelude and modules *)
Lemma first_come fields : forall globals name,
  assoc_get name (globals_from fields globals) = match assoc_get name globals with Some v => Some v | None => assoc_get name fields end.
Proof.
  induction fields as [|[k v] fields IH]; intros globals name; cbn [globals_from].
  - cbn. now destruct (assoc_get name globals).
  - rewrite IH. cbn [assoc_get]. destruct (assoc_get k globals) as [old|] eqn:Ek.
    + destruct (assoc_get name globals) as [v'|] eqn:En; [reflexivity|]. destruct (String.eqb_spec name k) as [->|]; [congruence|reflexivity].
    + rewrite assoc_get_set. destruct (String.eqb_spec name k) as [->|Nq]; [now rewrite Ek|reflexivity].
Qed.
Lemma carrier_object v h e : as_object v h = Ok e -> carrier h v = Some e.
Proof.
  unfold as_object, carrier. destruct v; try discriminate.
  - destruct (nth_error (h_arrays h) addr); [|discriminate]. now injection 1 as <-.
  - now injection 1 as <-.
  - destruct (nth_error (h_classes h) addr); [|discriminate]. now injection 1 as <-.
Qed.
Theorem host_prelude w n path s s' : load_prelude w n path s = ROk tt s' ->
  exists o x s1, assoc_get path (vm_modules s') = Some (VObject o) /\ vm_heap s' = vm_heap s1 /\
    (forall name v, assoc_get name (vm_globals s) = Some v -> assoc_get name (vm_globals s1) = Some v) /\
    (forall name, assoc_get name (vm_globals s') = match assoc_get name (vm_globals s1) with Some v => Some v | None => own_field (vm_heap s') x name end).
Proof.
  unfold load_prelude. unfold rbind at 1. unfold lift at 1. destruct (w_load w (vm_loads s) path) as [bc|e| |]; try discriminate.
  unfold rbind at 1, heap_alloc. destruct (object_new (Some (vm_module_class s)) (vm_heap (set_loads (path :: vm_loads s) s))) as [o h].
  unfold rbind at 1. cbv beta iota. set (s2 := set_modules _ _). unfold rbind at 1.
  destruct (machine_sound w n) as [M1 M2]. pose proof (sound_run_module w (machine w n) M1 bc (VObject o) s2) as SD.
  destruct (run_module w (machine w n) bc (VObject o) s2) as [m s1|e s1| |] eqn:RM; try discriminate.
  unfold rbind at 1, heap_get, lift. destruct (as_object m (vm_heap s1)) as [e|e0| |] eqn:AO; cbv beta iota; try discriminate.
  destruct (nth_error (h_objects (vm_heap s1)) e) as [ob|] eqn:OB; [|discriminate]. destruct (nth_error (h_fields (vm_heap s1)) (ob_fields ob)) as [fs|] eqn:FS; [|discriminate].
  intros H. injection H as <-. exists o, m, s1. split; [|split; [reflexivity|split]].
  - apply (steps_modules _ _ _ _ SD). unfold s2. cbn [vm_modules set_modules]. now rewrite assoc_get_set, String.eqb_refl.
  - intros name v G. exact (steps_globals _ _ _ _ SD G).
  - intros name. cbn [vm_globals set_globals vm_heap]. rewrite first_come. destruct (assoc_get name (vm_globals s1)); [reflexivity|].
    unfold own_field. rewrite (carrier_object _ _ _ AO). unfold field. rewrite OB, FS. reflexivity.
Qed.
Theorem host_module name s : assoc_get name (vm_modules s) = None ->
  exists o s', new_module name s = ROk (VObject o) s' /\ o = List.length (h_objects (vm_heap s)) /\
    forall x, assoc_get x (vm_modules s') = if String.eqb x name then Some (VObject o) else assoc_get x (vm_modules s).
Proof.
  intros E. unfold new_module, rbind, heap_alloc, object_new. cbn [vm_modules set_heap]. rewrite E.
  eexists _, _. split; [reflexivity|]. split; [reflexivity|]. intros x. cbn [vm_modules set_modules set_heap]. apply assoc_get_set.
Qed.

(** A prelude of one line. *)
Definition answer_code : bytecode := Eval vm_compute in match obind (parse (chars "export let answer = 42")) (compile KModule) with Ok b => b | _ => MkBytecode [] 0 0 [] end.
Definition answer_world : world := MkWorld true (fun _ _ => Ok answer_code) (fun _ _ _ _ => AnsValue VUnit).
Lemma answer_loads : exists s', load_prelude answer_world 100 "prelude" new_vm = ROk tt s' /\ assoc_get "answer" (vm_globals s') = Some (VInt 42).
Proof.
  assert (H : match load_prelude answer_world 100 "prelude" new_vm with ROk tt s' => assoc_get "answer" (vm_globals s') | _ => None end = Some (VInt 42)) by (vm_compute; reflexivity).
  destruct (load_prelude answer_world 100 "prelude" new_vm) as [[] s'|e s'| |]; [|discriminate H..]. exists s'. auto.
Qed.

(** * The start of the interactive tool *)
Lemma add_global_free name v s s' : add_global name v s = ROk tt s' -> assoc_get name (vm_globals s) = None /\ vm_heap s' = vm_heap s /\ vm_modules s' = vm_modules s /\
  forall x, assoc_get x (vm_globals s') = if String.eqb x name then Some v else assoc_get x (vm_globals s).
Proof.
  unfold add_global. destruct (assoc_get name (vm_globals s)); [discriminate|]. intros H. injection H as <-. repeat split; try reflexivity. intros x. cbn [vm_globals set_globals]. apply assoc_get_set.
Qed.
Theorem tool_starts w n print panic s s' : startup w n print panic s = ROk tt s' ->
  exists o x s1, assoc_get "prelude.dm" (vm_modules s') = Some (VObject o) /\ vm_heap s' = vm_heap s1 /\
    (forall name v, assoc_get name (vm_globals s) = Some v -> assoc_get name (vm_globals s1) = Some v) /\
    assoc_get "print" (vm_globals s') = Some print /\ assoc_get "panic" (vm_globals s') = Some panic /\
    forall name, name <> "print" -> name <> "panic" ->
      assoc_get name (vm_globals s') = match assoc_get name (vm_globals s1) with Some v => Some v | None => own_field (vm_heap s') x name end.
Proof.
  unfold startup. unfold rbind at 1. destruct (load_prelude w n "prelude.dm" s) as [[] sp|e sp| |] eqn:P; try discriminate. unfold rbind at 1.
  destruct (add_global "print" print sp) as [[] sq|e sq| |] eqn:Q; try discriminate. intros A.
  destruct (host_prelude _ _ _ _ _ P) as (o & x & s1 & H1 & H2 & H3 & H4). destruct (add_global_free _ _ _ _ Q) as (_ & Q1 & Q2 & Q3). destruct (add_global_free _ _ _ _ A) as (_ & A1 & A2 & A3).
  exists o, x, s1. split; [now rewrite A2, Q2|]. split; [now rewrite A1, Q1|]. split; [exact H3|]. split; [now rewrite A3, Q3|]. split; [now rewrite A3|].
  intros name N1 N2. rewrite A3, (proj2 (String.eqb_neq _ _) N2), Q3, (proj2 (String.eqb_neq _ _) N1), H4, A1, Q1. reflexivity.
Qed.
Lemma answer_starts : exists s', startup answer_world 100 VUnit VNull new_vm = ROk tt s'.
Proof.
  assert (H : match startup answer_world 100 VUnit VNull new_vm with ROk tt _ => true | _ => false end = true) by (vm_compute; reflexivity).
  destruct (startup answer_world 100 VUnit VNull new_vm) as [[] s'|e s'| |]; [|discriminate H..]. now exists s'.
Qed.
