(** Scripts for the examples beside the theorems on functions of the runtime. *)
From Verif.Spec Require Import HostSpec.
From Verif.Proofs Require Import FlowSampleP ArrayMethodP MethodP TextP HeapInvP ClassP.
#[local] Open Scope string_scope.
#[local] Open Scope list_scope.
#[local] Open Scope nat_scope.

(** Methods of values of a new runtime, by name. *)
Definition methods_named : list (value * string * native) :=
  [(VInt 1, "abs", NIntAbs); (VInt 1, "pow", NIntPow); (VInt 1, "min", NIntMin); (VInt 1, "max", NIntMax); (VInt 1, "is_positive", NIntIsPositive);
   (VInt 1, "is_negative", NIntIsNegative); (VInt 1, "to_string", NToString); (VUnit, "to_string", NToString); (VString "a", "class_of", NClassOf);
   (VString "a", "fields", NFields); (VBool true, "methods", NMethods); (VClass 0, "name", NClassName); (VClass 0, "base", NClassBase)] ++
  map (fun p => (VFloat S754_nan, fst p, NFloatFn (snd p)))
    [("abs", FAbs); ("floor", FFloor); ("ceil", FCeil); ("round", FRound); ("min", FMin); ("max", FMax); ("is_finite", FIsFinite);
     ("is_infinite", FIsInfinite); ("is_nan", FIsNan); ("is_normal", FIsNormal)].
Lemma methods_named_ok : map (fun p => value_of (get_field (snd (fst p)) (fst (fst p)) new_vm)) methods_named =
  map (fun p => Some (VFnBound (fst (fst p)) (VFnNative (snd p)))) methods_named.
Proof. vm_compute. reflexivity. Qed.
(** The classes String, Int and Float of a new runtime. *)
Lemma classes_named_ok : map (fun name => match assoc_get name (vm_globals new_vm) with
    | Some (VClass c) => method (vm_heap new_vm) c "new" | _ => None end) ["String"; "Int"; "Float"] =
  [Some (VFnNative NStringNew); Some (VFnNative NIntNew); Some (VFnNative NFloatNew)].
Proof. vm_compute. reflexivity. Qed.

Definition integers : string := "[Int(""-9223372036854775808""), Int(""9223372036854775808""), Int(""+005""), Int(""-""), Int(""""), Int(""1_0""), Int(String(-70))].to_string()".
Lemma integers_ok : value_of (run_of sample_world integers) = Some (VString "[-9223372036854775808, null, 5, null, null, null, -70]").
Proof. vm_compute. reflexivity. Qed.
Definition conversions : string := "[Int(2.9), Int(-2.9), Int(0.5), Int(1000000000000000000000.0), Int(Float(9007199254740992)), Int(Float(9007199254740993)), Int(-7.5.round())].to_string()".
Lemma conversions_ok : value_of (run_of sample_world conversions) = Some (VString "[2, -2, 0, 9223372036854775807, 9007199254740992, 9007199254740992, -8]").
Proof. vm_compute. reflexivity. Qed.
Definition nested : string := "
class Point {
  fn new(self, x, y) {
    self.x = x
    self.y = y
  }
}
let p = Point(1, [null, true, ""a""])
String(p) + p.fields().to_string() + p.class_of().name() + String(p.class_of().base().base()) + p.methods().to_string()
".
Lemma nested_ok : value_of (run_of sample_world nested) = Some (VString "Object<Point> { x: 1, y: [null, true, a], }[x, y]Pointnull[to_string, fields, methods, class_of, new]").
Proof. vm_compute. reflexivity. Qed.
Definition cyclic : string := "
let a = [1]
a.push(#{ inside: a })
a.to_string()
".
Definition int_methods : string := "[(-3).abs(), 2.pow(10), (-2).pow(63), 3.min(2), 3.max(2), 0.is_positive(), (-1).is_negative()].to_string()".
Lemma int_methods_ok : value_of (run_of sample_world int_methods) = Some (VString "[3, 1024, -9223372036854775808, 2, 3, false, true]").
Proof. vm_compute. reflexivity. Qed.
Definition negative_exponent : string := "2.pow(0 - 1)".
Definition smallest_abs : string := "Int.MIN.abs()".
Definition float_methods : string := "[Int(2.5.floor()), Int(2.5.ceil()), Int(2.5.round()), Int(Float.NAN.min(3.0)), Int(2.0.max(3.5)), (0.0).is_normal(), Float.NAN.is_nan()].to_string()".
Lemma float_methods_ok : value_of (run_of sample_world float_methods) = Some (VString "[2, 3, 3, 3, 3, false, true]").
Proof. vm_compute. reflexivity. Qed.

(** An array that contains itself. *)
Definition loop_vm : vm := with_array [VArray 0] new_vm.
Lemma loop_contains : contains (vm_heap loop_vm) (VArray 0) (VArray 0).
Proof. apply co_one. apply (ho_array _ 0 [VArray 0]); [vm_compute; reflexivity|now left]. Qed.
(** 2.5 *)
Definition two_and_half : f64 := S754_finite false 5629499534213120 (-51).
Lemma two_and_half_number : is_number two_and_half.
Proof. split; [vm_compute; reflexivity|exact I]. Qed.
Lemma two_and_half_between : floor_of two_and_half 2 /\ ceiling_of two_and_half 3 /\ nearest_of two_and_half 3 /\ whole_part two_and_half 2.
Proof.
  assert (P : (0 < scaled two_and_half)%Z) by (vm_compute; reflexivity).
  assert (F : floor_of two_and_half 2) by (split; [apply Z.leb_le|apply Z.ltb_lt]; vm_compute; reflexivity).
  split; [exact F|]. split; [split; [apply Z.ltb_lt|apply Z.leb_le]; vm_compute; reflexivity|].
  split; (split; intros H; [|exfalso; exact (Zle_not_lt _ _ H P)]); [|exact F].
  split; [apply Z.leb_le|apply Z.ltb_lt]; vm_compute; reflexivity.
Qed.
Lemma cyclic_panics : panics (run_of sample_world cyclic) = true.
Proof. vm_compute. reflexivity. Qed.
Lemma smallest_abs_ok : panics (run_of sample_world smallest_abs) = true /\ value_of (run_of release_world smallest_abs) = Some (VInt (- 2 ^ 63)).
Proof. split; vm_compute; reflexivity. Qed.

(** Texts of integers. *)
Lemma usual_sample : usual "-70" (-70).
Proof.
  exists "70". split; [|split; [right; intros r; discriminate|reflexivity]].
  exact (nm_more "7" 7 "0" 0 (nm_one "7" 7 (dg "7" 7 eq_refl ltac:(lia))) (dg "0" 0 eq_refl ltac:(lia))).
Qed.
Lemma signed_sample : signed "+07" 7.
Proof. apply sg_plus. exact (nm_more "0" 0 "7" 7 (nm_one "0" 0 (dg "0" 0 eq_refl ltac:(lia))) (dg "7" 7 eq_refl ltac:(lia))). Qed.
Lemma unsigned_sample : forall z, ~ signed "-" z.
Proof.
  intros z H. inversion H as [t n N|t n N|t n N]; subst; [apply numeral_on in N; cbv in N; discriminate N|exact (numeral_nonempty _ _ N eq_refl)].
Qed.
(** The class Int is a value with fields and a class; null has no class. *)
Lemma class_known s v c : map fst (vm_kinds s) = kind_keys -> kind v <> KdObject -> kind_get (kind v) (vm_kinds s) = Some c -> class_or_any s v c.
Proof. intros N K E. left. apply class_of_other; [exact K|]. apply kind_get_In; [now apply reachable_nodup|exact E]. Qed.
Lemma class_unknown s c : map fst (vm_kinds s) = kind_keys -> kind_get (kind VNull) (vm_kinds s) = None -> vm_any s = c -> class_or_any s VNull c.
Proof.
  intros N E <-. right. split; [|reflexivity]. intros d H. inversion H as [|v c K I]; subst. apply kind_get_In in I; [congruence|now apply reachable_nodup].
Qed.
Lemma new_kinds : map fst (vm_kinds new_vm) = kind_keys.
Proof. vm_compute. reflexivity. Qed.
Lemma int_class_facts : reachable sample_world new_vm /\ live (vm_heap new_vm) (VClass 7) /\ (exists o, carrier (vm_heap new_vm) (VClass 7) = Some o) /\
   own_field (vm_heap new_vm) (VClass 7) "MAX" = Some (VInt (2 ^ 63 - 1)) /\ class_or_any new_vm (VClass 7) 4 /\ class_or_any new_vm VNull 0.
Proof.
  split; [exact (new_vm_reachable sample_world)|]. split; [apply Nat.ltb_lt; vm_compute; reflexivity|].
  split; [exists 7; vm_compute; reflexivity|]. split; [vm_compute; reflexivity|].
  split; [apply (class_known new_vm (VClass 7) 4 new_kinds); [discriminate|vm_compute; reflexivity]|apply (class_unknown new_vm 0 new_kinds); vm_compute; reflexivity].
Qed.
(** A small value without cycles. *)
Definition flat_vm : vm := with_array [VInt 1; VString "a"] new_vm.
Lemma flat_elements : elements (vm_heap flat_vm) 0 = Some [VInt 1; VString "a"].
Proof. vm_compute. reflexivity. Qed.
Lemma flat_length : (0 <? List.length (h_arrays (vm_heap flat_vm))) = true.
Proof. vm_compute. reflexivity. Qed.
Section Flat.
Variable h : heap.
Hypothesis E : elements h 0 = Some [VInt 1; VString "a"].
Lemma flat_within u : within h (VArray 0) u -> u = VArray 0 \/ u = VInt 1 \/ u = VString "a".
Proof.
  assert (N : forall v x, v = VInt 1 \/ v = VString "a" -> within h v x -> x = v).
  { intros v x [-> | ->] H; inversion H as [|r f y|a b c K _]; subst; try reflexivity; inversion K. }
  intros H. inversion H as [|r f y|a b c K W]; subst; [now left|].
  inversion K as [z vs b' E' I| | |]; subst. rewrite E in E'. injection E' as <-. cbn [In] in I.
  destruct I as [<-|[<-|[]]]; right; [left|right]; eapply N; eauto.
Qed.
Lemma flat_parts : (0 <? List.length (h_arrays h)) = true ->
  (forall u, within h (VArray 0) u -> live h u) /\ (forall u, within h (VArray 0) u -> ~ contains h u u).
Proof.
  intros L. split; intros u H; apply flat_within in H as [-> |[-> | ->]].
  - cbn [live]. now apply Nat.ltb_lt.
  - exact I.
  - exact I.
  - assert (H1 : forall z, holds h (VArray 0) z -> z = VInt 1 \/ z = VString "a").
    { intros z K. inversion K as [z' vs b' E' In'| | |]; subst. rewrite E in E'. injection E' as <-. cbn [In] in In'. destruct In' as [<-|[<-|[]]]; auto. }
    intros K. inversion K as [a b K1|a b c K1 K2]; subst.
    + apply H1 in K1 as [K1|K1]; discriminate K1.
    + apply H1 in K1 as [-> | ->]; inversion K2 as [a' b' K3|a' b' c' K3 _]; subst; inversion K3.
  - intros K. inversion K as [a b K1|a b c K1 K2]; subst; inversion K1.
  - intros K. inversion K as [a b K1|a b c K1 K2]; subst; inversion K1.
Qed.
End Flat.
Lemma flat_facts : (forall u, within (vm_heap flat_vm) (VArray 0) u -> live (vm_heap flat_vm) u) /\
  (forall u, within (vm_heap flat_vm) (VArray 0) u -> ~ contains (vm_heap flat_vm) u u).
Proof. exact (flat_parts (vm_heap flat_vm) flat_elements flat_length). Qed.
