(** Which methods values of the built-in classes have. *)
From Verif.Spec Require Import NamesSpec.
From Verif.Proofs Require Import ClassP StoreP HeapInvP SampleP.
#[local] Open Scope string_scope.
#[local] Open Scope list_scope.
#[local] Open Scope nat_scope.

Lemma ok_eq {A} (a b : A) : Ok a = Ok b -> a = b.
Proof. intros H. now injection H. Qed.
Definition native_eq (a b : native) : {a = b} + {a <> b}.
Proof. repeat decide equality. Defined.
Definition same_fn (v : option value) (n : native) : bool :=
  match v with Some (VFnNative m) => if native_eq m n then true else false | _ => false end.
Lemma same_fn_eq v n : same_fn v n = true -> v = Some (VFnNative n).
Proof. destruct v as [[]|]; try discriminate. cbn. destruct (native_eq _ _) as [->|]; [reflexivity|discriminate]. Qed.

Definition all_standard : list (vkind * (string * native)) :=
  flat_map (fun k => map (pair k) common_standard) [KdArray; KdBool; KdClass; KdFloat; KdFunction; KdInt; KdString; KdUnit] ++
  map (pair KdArray) array_standard ++ map (pair KdInt) int_standard ++ map (pair KdFloat) float_standard ++
  map (pair KdClass) class_standard ++ map (pair KdString) string_standard.
Lemma standard_all k name n : standard_method k name n -> In (k, (name, n)) all_standard.
Proof.
  unfold all_standard. rewrite !in_app_iff. destruct 1 as [k name n K H|name n H|name n H|name n H|name n H|name n H].
  1: { left. apply in_flat_map. exists k. split; [exact K|]. exact (in_map (@pair vkind (string * native) k) _ _ H). }
  - right; left. exact (in_map (@pair vkind (string * native) KdArray) _ _ H).
  - right; right; left. exact (in_map (@pair vkind (string * native) KdInt) _ _ H).
  - right; right; right; left. exact (in_map (@pair vkind (string * native) KdFloat) _ _ H).
  - right; right; right; right; left. exact (in_map (@pair vkind (string * native) KdClass) _ _ H).
  - right; right; right; right; right. exact (in_map (@pair vkind (string * native) KdString) _ _ H).
Qed.
Definition standard_here (s : vm) : bool :=
  forallb (fun p => (match kind_get (fst p) (vm_kinds s) with
    | Some c => same_fn (method (vm_heap s) c (fst (snd p))) (snd (snd p)) | None => false end &&
    negb (String.eqb (fst (snd p)) "new"))%bool) all_standard.
Lemma standard_new : omap standard_here runtime_new = Ok true.
Proof. vm_compute. reflexivity. Qed.

Lemma standard_kind k name n : standard_method k name n -> k <> KdObject.
Proof. destruct 1 as [k name n K H| | | | |]; try discriminate. intros ->. cbn in K. intuition discriminate. Qed.

Lemma standard_found w s v c name n : reachable w s -> live (vm_heap s) v -> standard_method (kind v) name n ->
  own_field (vm_heap s) v name = None -> has_class s v c -> not_redefined c name s ->
  get_field name v s = ROk (VFnBound v (VFnNative n)) s.
Proof.
  intros R L M O C (s9 & E9 & Q). pose proof (reachable_state w s R) as I. pose proof (get_field_spec s v name I L) as G. rewrite O in G.
  destruct R as (s0 & E0 & E). pose proof standard_new as T. rewrite E0 in T. cbn [omap] in T. injection T as T.
  unfold standard_here in T. rewrite forallb_forall in T. specialize (T _ (standard_all _ _ _ M)). cbn [fst snd] in T.
  apply andb_prop in T as [T N]. apply negb_true_iff in N. rewrite N in G.
  destruct (kind_get (kind v) (vm_kinds s0)) as [d|] eqn:Ed; [|discriminate]. apply same_fn_eq in T.
  pose proof (standard_kind _ _ _ M) as K.
  apply executes_steps in E. pose proof (steps_kinds _ _ E) as (Ek & _).
  assert (Cd : forall x, has_class s v x -> x = d).
  { intros x H. inversion H; subst; [now cbn in K|]. rewrite Ek in *. pose proof (reachable_kinds w s0 (ex_intro _ s0 (conj E0 (ex_done w s0)))) as Nk.
    apply (kind_get_In _ _ _ (reachable_nodup s0 Nk)) in H1. congruence. }
  pose proof (Cd c C) as ->.
  rewrite E0 in E9. apply ok_eq in E9. subst s9. destruct G as (x & G & [(c' & m & Hc & Hm & ->)|(Hn & _)]).
  - rewrite (Cd _ Hc), Q, T in Hm. injection Hm as <-. exact G.
  - specialize (Hn d C). rewrite Q, T in Hn. discriminate.
Qed.
