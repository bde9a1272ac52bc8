(** Programs for the examples beside the theorems of ConstantP.v. *)
From Verif.Spec Require Export ConstantSpec.
From Verif.Proofs Require Export ModuleSampleP.
From Verif.Proofs Require Import FlowP.
#[local] Open Scope string_scope.
#[local] Open Scope list_scope.
#[local] Open Scope nat_scope.

Lemma some_value w pg S k e m v fuel : value_meant (i_eval (interpreter w pg fuel) S k e m) = Some v -> exists m', evaluates w pg S k e m (AVal v m').
Proof. intros H. eexists. exact (by_eval _ _ _ _ _ _ _ _ H). Qed.
Definition is_object (v : option value) : bool := match v with Some (VObject _) => true | _ => false end.
Lemma some_object w pg S k e m fuel : is_object (value_meant (i_eval (interpreter w pg fuel) S k e m)) = true -> exists o m', evaluates w pg S k e m (AVal (VObject o) m').
Proof.
  destruct (value_meant _) as [v|] eqn:E; [|discriminate]. destruct v; try discriminate. intros _. destruct (some_value _ _ _ _ _ _ _ _ E) as (m' & H). eauto.
Qed.
Lemma not_listed x l : existsb (String.eqb x) l = false -> ~ In x l.
Proof. intros H HI. rewrite (proj2 (existsb_exists _ _)) in H; [discriminate H|]. exists x. split; [exact HI|apply String.eqb_refl]. Qed.

(** The passes of [for i in 2..5]. *)
Lemma squares_passes :
  counting (fun i m m' => pass sample_world (solo squares) (top_scene 200 1) 0 "i" squares_body (VInt i) m m') 2 3 sq_first sq4.
Proof.
  apply (cn_next _ _ _ _ sq2); [apply by_pass; vm_compute; reflexivity|]. change (2 + 1)%Z with 3%Z.
  apply (cn_next _ _ _ _ sq3); [apply by_pass; vm_compute; reflexivity|]. change (3 + 1)%Z with 4%Z.
  apply (cn_next _ _ _ _ sq4); [apply by_pass; vm_compute; reflexivity|]. constructor.
Qed.

Lemma squares_made :
  runnable sample_world (solo squares) (script_of (EFor "i" (EBinary (range_op false) (ELitInt 2) (ELitInt 5)) squares_body)) (coded squares) [] new_vm 200 /\
  evaluates sample_world (solo squares) (top_scene 200 0) 0 (ELitInt 5) (MeaningSpec.start new_vm) (AVal (VInt 5) sq_last) /\
  evaluates sample_world (solo squares) (top_scene 200 1) 0 (ELitInt 2) sq_last (AVal (VInt 2) sq_first) /\
  counting (fun i m m' => pass sample_world (solo squares) (top_scene 200 1) 0 "i" squares_body (VInt i) m m') 2 (count false 2 5) sq_first sq4.
Proof. destruct squares_ok as (A & B & C & _). exact (conj A (conj B (conj C squares_passes))). Qed.

(** A variable that closures capture and that other variables of its name shadow. *)
Definition constant_text : string := "
let mut count = 0
fn bump(n) {
  count += n
  count
}
let x = bump(5)
let f = |y| {
  count = count + x
  x + y
}
for x in 0..3 { bump(x) }
if count > 0 {
  let mut x = 1
  x = f(x) * 100
}
let g = |x| bump(x)
g(7)
x
".
Definition block_of (e : expr) : list expr := match e with EBlock es _ => es | _ => [] end.
Definition constant_items : list expr := block_of (parsed constant_text).
Definition constant_before : list expr := firstn 2 constant_items.
Definition constant_init : expr := match nth_error constant_items 2 with Some (EVarDecl _ _ e _) => e | _ => ELitUnit end.
Definition constant_after : list expr := skipn 3 constant_items.
Lemma constant_checks : checks constant_text 200 = true.
Proof. vm_compute. reflexivity. Qed.
Lemma constant_parsed : parsed constant_text = EBlock (reads_back constant_before "x" constant_init None constant_after) (Some (ELitIdent "x")).
Proof. vm_compute. reflexivity. Qed.
Lemma constant_undeclared : existsb (String.eqb "x") (flat_map declared constant_after) = false.
Proof. vm_compute. reflexivity. Qed.
Lemma constant_means : value_meant (i_eval (interpreter sample_world (solo constant_text) 60) (top_scene 200 0) 0
  (EBlock (reads_back constant_before "x" constant_init None constant_after) (Some (ELitIdent "x"))) (MeaningSpec.start new_vm)) = Some (VInt 5).
Proof. vm_compute. reflexivity. Qed.
Lemma constant_ok :
  runnable sample_world (solo constant_text) (EBlock (reads_back constant_before "x" constant_init None constant_after) (Some (ELitIdent "x"))) (coded constant_text) [] new_vm 200 /\
  ~ In "x" (flat_map declared constant_after) /\ List.length constant_after = 5 /\
  exists m', evaluates sample_world (solo constant_text) (top_scene 200 0) 0 (EBlock (reads_back constant_before "x" constant_init None constant_after) (Some (ELitIdent "x")))
    (MeaningSpec.start new_vm) (AVal (VInt 5) m').
Proof.
  split; [rewrite <- constant_parsed; exact (checks_runnable _ _ _ constant_checks sample_blind)|]. split; [exact (not_listed _ _ constant_undeclared)|].
  split; [vm_compute; reflexivity|exact (some_value _ _ _ _ _ _ _ _ constant_means)].
Qed.

(** [let x = 1] and [class x { }] in one block. *)
Definition replaced : string := "
let x = 1
class x { }
x is Class".
Lemma replaced_ok : (exists bc, compile KScript (parsed replaced) = Ok bc) /\ value_of (run_of sample_world replaced) = Some (VBool true).
Proof. split; [eexists; apply (is_ok_eq _ (MkBytecode [] 0 0 []))|]; vm_compute; reflexivity. Qed.

(** Two modules that import each other, one of them imported twice. *)
Definition ring_a : string := "
import * as b from ""b.dm""
export let one = 1
export let two = || b.get()
".
Definition ring_b : string := "
import * as a from ""a.dm""
export let get = || a.one + 1
".
Definition ring_main : string := "
import * as first from ""a.dm""
import { get } from ""b.dm""
let n = first.two() + get()
import * as again, { one } from ""a.dm""
again
".
Definition ring : texts := [("a.dm", (20, ring_a)); ("b.dm", (40, ring_b))].
Definition ring_before : list expr := firstn 3 (block_of (parsed ring_main)).
Definition ring_root : expr := EBlock (imports_last ring_before "again" ["one"] "a.dm") (Some (ELitIdent "again")).
Lemma ring_checks : program_checks ring_main ring 300 = true.
Proof. vm_compute. reflexivity. Qed.
Lemma ring_parsed : parsed ring_main = ring_root.
Proof. vm_compute. reflexivity. Qed.
Lemma ring_means : is_object (value_meant
  (i_eval (interpreter (text_world ring) (text_program ring_main ring) 60) (top_scene 300 0) 0 ring_root (MeaningSpec.start new_vm))) = true.
Proof. vm_compute. reflexivity. Qed.
Lemma ring_ok : runnable (text_world ring) (text_program ring_main ring) ring_root (coded ring_main) [] new_vm 300 /\
  exists o m', evaluates (text_world ring) (text_program ring_main ring) (top_scene 300 0) 0 ring_root (MeaningSpec.start new_vm) (AVal (VObject o) m').
Proof.
  split; [rewrite <- ring_parsed; exact (proj2 (program_runnable _ _ _ ring_checks))|]. exact (some_object _ _ _ _ _ _ _ ring_means).
Qed.
