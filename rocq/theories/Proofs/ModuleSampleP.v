(** A program of three modules, for the examples beside the theorems on the meaning of compiled code. *)
From Verif.Proofs Require Export FlowSampleP.
From Verif.Proofs Require Import CompileP.
#[local] Open Scope string_scope.
#[local] Open Scope list_scope.
#[local] Open Scope nat_scope.

(** ** Programs given by their texts
    Each module has the number of its first function. *)
Definition texts := list (string * (nat * string)).
Definition module_bytecode (first : nat) (text : string) : outcome bytecode := compile_from first KModule (parsed text).
Definition module_coded (first : nat) (text : string) : bytecode :=
  match module_bytecode first text with Ok b => b | _ => MkBytecode [] 0 0 [] end.
Definition text_world (l : texts) : world :=
  MkWorld true (fun _ name => match assoc_get name l with Some (first, text) => module_bytecode first text | None => Err IO_ERROR end) (fun _ _ _ _ => AnsValue VUnit).
Definition all_functions (main : string) (l : texts) : list fn_bytecode :=
  functions (coded main) ++ flat_map (fun x => functions (module_coded (fst (snd x)) (snd (snd x)))) l.
Definition text_program (main : string) (l : texts) : program :=
  Program (fun n => match find (fun f => Nat.eqb (fn_id f) n) (all_functions main l) with Some f => f | None => MkFn n "" (MkBytecode [] 0 0 []) end)
    (fun _ name => match assoc_get name l with
                   | Some (first, text) => Ok {| md_first := first; md_slots := bc_slot_count (module_coded first text); md_tree := parsed text |}
                   | None => Err IO_ERROR
                   end).

Fixpoint distinct (l : list nat) : bool := match l with [] => true | x :: r => negb (existsb (Nat.eqb x) r) && distinct r end.
Definition module_checks (x : string * (nat * string)) : bool :=
  let '(_, (first, text)) := x in
  is_ok (module_bytecode first text) && supported_module (parsed text) && all_limited (module_coded first text).
Definition program_checks (main : string) (l : texts) (room : nat) : bool :=
  checks main room && forallb module_checks l && distinct (map fn_id (all_functions main l)).

Lemma find_distinct l f : distinct (map fn_id l) = true -> In f l -> find (fun g => Nat.eqb (fn_id g) (fn_id f)) l = Some f.
Proof.
  induction l as [|g l IH]; intros D H; [destruct H|]; destruct H as [->|H]; cbn [find map distinct] in *.
  - now rewrite Nat.eqb_refl.
  - apply andb_prop in D as [D1 D2]. destruct (Nat.eqb (fn_id g) (fn_id f)) eqn:E; [|auto]. apply Nat.eqb_eq in E. rewrite negb_true_iff in D1.
    assert (X : existsb (Nat.eqb (fn_id g)) (map fn_id l) = true) by (apply existsb_exists; exists (fn_id f); split; [now apply in_map|now apply Nat.eqb_eq]). congruence.
Qed.
Lemma assoc_in {A} name (l : list (string * A)) x : assoc_get name l = Some x -> exists n, In (n, x) l.
Proof.
  induction l as [|[n y] l IH]; cbn [assoc_get]; [discriminate|]. destruct (String.eqb _ _).
  - intros [= ->]. exists n. now left.
  - intros H. destruct (IH H) as (n' & H'). exists n'. now right.
Qed.
Lemma program_runnable main l room : program_checks main l room = true ->
  parse (chars main) = Ok (parsed main) /\ runnable (text_world l) (text_program main l) (parsed main) (coded main) [] new_vm room.
Proof.
  unfold program_checks. rewrite !andb_true_iff. intros ((C & M) & D). split; [exact (checks_parse _ _ C)|].
  assert (N : natives_blind (text_world l)) by (intros c m args h cs us; reflexivity).
  destruct (checks_runnable _ _ _ C N) as [[K1 K2 K3 _ _] _ R1 R2]. split; auto.
  assert (F : forall f, In f (all_functions main l) -> pg_lit (text_program main l) (fn_id f) = f).
  { intros f H. cbn [text_program pg_lit]. now rewrite (find_distinct _ _ D H). }
  split; auto.
  - intros f H. apply F. apply in_or_app. now left.
  - intros seen name. cbn [text_program pg_library text_world w_load]. destruct (assoc_get name l) as [[first text]|] eqn:E; [|reflexivity].
    apply assoc_in in E as (n & H). rewrite forallb_forall in M. pose proof (M _ H) as MC. cbn [module_checks] in MC. rewrite !andb_true_iff in MC. destruct MC as ((A & B) & L).
    pose proof (is_ok_eq _ (MkBytecode [] 0 0 []) A) as EQ. fold (module_coded first text) in EQ. exists (module_coded first text). split; [exact EQ|].
    split; cbn [md_first md_slots md_tree]; auto. intros f Hf. apply F. apply in_or_app. right. apply in_flat_map. exists (n, (first, text)). auto.
Qed.

(** ** A counter used by two modules
    counter.dm keeps a variable that its exported functions share; points.dm imports it, exports a class and a variable. *)
Definition counter : string := "
let mut count = 0
export fn bump(n) {
  count += n
  count
}
export let step = 5
export let read = || count
".
Definition points : string := "
import { bump, step } from ""counter.dm""
export class Point {
  fn new(self, x) {
    self.x = x + bump(step)
  }
  fn twice(self) { self.x * 2 }
}
let origin = Point(0)
export origin
".
Definition importer : string := "
import * as points, { Point } from ""points.dm""
import { bump, read } from ""counter.dm""
import * as again from ""counter.dm""
let p = Point(100)
bump(1000)
p.twice() + points.origin.x * 10000 + read() * 1000000 + (if again.step == 5 { again.read() - read() } else { 1 })
".
Definition library : texts := [("counter.dm", (20, counter)); ("points.dm", (40, points))].
Lemma importer_checks : program_checks importer library 300 = true.
Proof. vm_compute. reflexivity. Qed.
Lemma importer_means : value_meant (meaning (text_world library) (text_program importer library) 80 300 (parsed importer) new_vm) = Some (VInt 1010050220).
Proof. vm_compute. reflexivity. Qed.
