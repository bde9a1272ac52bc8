(** A program that imports the prelude, for the examples beside the theorems on ranges. *)
From Verif.Spec Require Import RangeSpec.
From Verif.Proofs Require Import ModuleSampleP RangeP FlowP StackP.
#[local] Open Scope string_scope.
#[local] Open Scope list_scope.
#[local] Open Scope nat_scope.

Definition prelude_items : list expr := match parsed prelude with EBlock es _ => es | _ => [] end.
Definition prelude_last : option expr := match parsed prelude with EBlock _ t => t | _ => None end.
Lemma prelude_parsed : parse (chars prelude) = Ok (EBlock prelude_items prelude_last).
Proof. vm_compute. reflexivity. Qed.
Lemma prelude_ranges : nth_error prelude_items 0 = Some (EExportDecl (range_class false)) /\ nth_error prelude_items 1 = Some (EExportDecl (range_class true)).
Proof. vm_compute. split; reflexivity. Qed.
Lemma prelude_classes : exists es t, parse (chars prelude) = Ok (EBlock es t) /\
  forall inclusive, In (EExportDecl (range_class inclusive)) es.
Proof.
  exists prelude_items, prelude_last. split; [exact prelude_parsed|]. intros [].
  - exact (nth_error_In _ _ (proj2 prelude_ranges)).
  - exact (nth_error_In _ _ (proj1 prelude_ranges)).
Qed.

Definition prelude_library : texts := [("prelude.dm", (50, prelude))].
Definition uses_ranges : string := "import { Range, RangeInclusive } from ""prelude.dm""
[Range, RangeInclusive, Range(2, 5), RangeInclusive(2, 5)]".
Definition rg_world : world := text_world prelude_library.
Definition rg_program : program := text_program uses_ranges prelude_library.
Lemma uses_ranges_checks : program_checks uses_ranges prelude_library 300 = true.
Proof. vm_compute. reflexivity. Qed.
(** The memory it leaves, written out; the stack, which plays no part in what memories mean, is left out. *)
Definition unstacked (m : memory) : memory := set_vm (set_stack (MkStack [] 0) (m_vm m)) m.
Definition rg_memory : memory := Eval vm_compute in unstacked (memory_of (meaning rg_world rg_program 40 300 (parsed uses_ranges) new_vm)).
Lemma rg_memory_is : unstacked (memory_of (meaning rg_world rg_program 40 300 (parsed uses_ranges) new_vm)) = rg_memory.
Proof. vm_compute. reflexivity. Qed.
(** The class Range is number 10, RangeInclusive is 11, the ranges are the objects 16 and 17. *)
Lemma rg_value : match meaning rg_world rg_program 40 300 (parsed uses_ranges) new_vm with
                 | AVal (VArray a) m => array_elements a (vm_heap (m_vm m)) = Ok [VClass 10; VClass 11; VObject 16; VObject 17]
                 | _ => False
                 end.
Proof. vm_compute. reflexivity. Qed.

Lemma rg_function v n src : v = VFnScript (pg_lit rg_program n) ->
  find (fun p => Nat.eqb (fst p) (fn_id (pg_lit rg_program n))) (m_fns rg_memory) = Some (n, src) ->
  (bc_slot_count (fn_code (pg_lit rg_program n)) <=? 8) = true -> plain_function rg_program rg_memory v n src.
Proof. intros A B C. repeat split; auto. now apply Nat.leb_le. Qed.
Lemma not_zero n : Nat.eqb n 0 = false -> n <> 0.
Proof. apply Nat.eqb_neq. Qed.
Lemma rg_class : is_range_class rg_program false rg_memory 10 /\ is_range_class rg_program true rg_memory 11.
Proof.
  split; split.
  - exists (VFnScript (pg_lit rg_program 50)), 50, 50. split; [vm_compute; reflexivity|]. apply rg_function; [reflexivity|vm_compute; reflexivity|vm_compute; reflexivity].
  - exists (VFnScript (pg_lit rg_program 52)), 52, 51. split; [vm_compute; reflexivity|]. split; [apply rg_function; [reflexivity|vm_compute; reflexivity|vm_compute; reflexivity]|].
    split; [apply not_zero; vm_compute; reflexivity|apply Nat.leb_le; vm_compute; reflexivity].
  - exists (VFnScript (pg_lit rg_program 53)), 53, 53. split; [vm_compute; reflexivity|]. apply rg_function; [reflexivity|vm_compute; reflexivity|vm_compute; reflexivity].
  - exists (VFnScript (pg_lit rg_program 55)), 55, 54. split; [vm_compute; reflexivity|]. split; [apply rg_function; [reflexivity|vm_compute; reflexivity|vm_compute; reflexivity]|].
    split; [apply not_zero; vm_compute; reflexivity|apply Nat.leb_le; vm_compute; reflexivity].
Qed.
Lemma rg_objects : is_range_object rg_program false rg_memory 16 (VInt 2) (VInt 5) /\ is_range_object rg_program true rg_memory 17 (VInt 2) (VInt 5) /\
  class_method (vm_any (m_vm rg_memory)) "is_done" (vm_heap (m_vm rg_memory)) = Ok None.
Proof.
  split; [|split; [|vm_compute; reflexivity]].
  - split; [vm_compute; reflexivity|vm_compute; reflexivity|vm_compute; reflexivity|]. exists 10. split; [vm_compute; reflexivity|exact (proj1 rg_class)].
  - split; [vm_compute; reflexivity|vm_compute; reflexivity|vm_compute; reflexivity|]. exists 11. split; [vm_compute; reflexivity|exact (proj2 rg_class)].
Qed.

(** ** for i in r { i }
    The variables r and q hold the two ranges. *)
Definition at_ (n : nat) : memory -> memory := fun m => set_cells (m_cells m ++ [Some (VObject n)]) m.
Definition rg_start (n : nat) : memory := at_ n rg_memory.
Definition rg_scene : scene := Scene [("r", List.length (m_cells rg_memory))] None 200 false.
Lemma more_cells pg inclusive x m o a b : is_range_object pg inclusive m o a b -> is_range_object pg inclusive (set_cells (m_cells m ++ [x]) m) o a b.
Proof. intros [A B C (c & D & [E F])]. split; auto. exists c. split; auto. split; auto. Qed.
Lemma ident_found w pg S k x m l v : enough <= s_room S -> assoc_get x (s_env S) = Some l -> nth_error (m_cells m) l = Some (Some v) -> evaluates w pg S k (ELitIdent x) m (AVal v m).
Proof. intros A B C. split; [discriminate|]. exists 1. rewrite ident_S by exact A. exact (load_cell _ _ _ _ _ B C). Qed.
Lemma last_cell {A} (l : list A) x : nth_error (l ++ [x]) (List.length l) = Some x.
Proof. rewrite nth_error_app2 by lia. now rewrite Nat.sub_diag. Qed.
Lemma start_holds n : evaluates rg_world rg_program (inner rg_scene) 0 (ELitIdent "r") (rg_start n) (AVal (VObject n) (rg_start n)).
Proof.
  apply (ident_found _ _ _ _ _ _ (List.length (m_cells rg_memory))); [apply Nat.leb_le; vm_compute; reflexivity|reflexivity|].
  exact (last_cell (m_cells rg_memory) (Some (VObject n))).
Qed.
Lemma leaves_more inclusive pg next last m x : leaves_range inclusive pg next last m (set_cells (m_cells m ++ [x]) m).
Proof.
  intros i (a & n & k & E & c & l & o & A & B & C & D & F & G & H & I & J). exists a, n, k, E, c, l, o. repeat split; auto; cbn [set_cells m_cells].
  - rewrite nth_error_app1; auto. apply nth_error_Some. congruence.
  - rewrite nth_error_app1; auto. apply nth_error_Some. congruence.
Qed.
Lemma pass_ident w pg S k x v m : enough <= s_room S -> pass w pg S k x (ELitIdent x) v m (set_cells (m_cells m ++ [Some v]) m).
Proof.
  intros R. exists v. apply (ident_found _ _ _ _ _ _ (List.length (m_cells m))); [exact R|cbn [declare s_env assoc_get]; now rewrite String.eqb_refl|].
  exact (last_cell (m_cells m) (Some v)).
Qed.
Lemma drain_idents w pg S k x next last m i : 35 <= s_room S -> (last < i64_max)%Z -> (i64_min <= i)%Z -> (i < i64_max)%Z -> next_gives false pg m next i last ->
  exists m', draining (fun m r m' => calls w pg (s_room S - 1) next [] m (AVal r m'))
    (fun v m m' => pass w pg (deep 1 S) k x (ELitIdent x) v m m' /\ leaves_range false pg next last m m') (integers i (Z.to_nat (last - i))) m m'.
Proof.
  intros R H1 H2 H3 N. destruct (range_drains w pg (s_room S - 1) next last (fun v m => set_cells (m_cells m ++ [Some v]) m) ltac:(lia) H1
    (fun v m => leaves_more false pg next last m (Some v)) (Z.to_nat (last - i)) i m eq_refl N H2 H3) as (m' & D).
  exists m'. eapply draining_mono; [|exact D]. intros v m1 m2 ->. split; [|apply leaves_more]. apply pass_ident. cbn [deep s_room]. unfold enough. lia.
Qed.
Lemma rg_loop : exists next m2, next_gives false rg_program m2 next 2 5 /\
  exists m3, draining (fun m r m' => calls rg_world rg_program (s_room rg_scene - 1) next [] m (AVal r m'))
    (fun v m m' => pass rg_world rg_program (deep 1 rg_scene) 0 "i" (ELitIdent "i") v m m' /\ leaves_range false rg_program next 5 m m') [VInt 2; VInt 3; VInt 4] m2 m3 /\
  evaluates rg_world rg_program rg_scene 0 (EFor "i" (ELitIdent "r") (ELitIdent "i")) (rg_start 16) (AVal VUnit m3).
Proof.
  assert (R : 35 <= s_room rg_scene) by (apply Nat.leb_le; vm_compute; reflexivity).
  destruct (range_for rg_world rg_program rg_scene 0 "i" (ELitIdent "r") (ELitIdent "i") (rg_start 16) 16 2 5 (rg_start 16) R eq_refl ltac:(unfold i64_min, i64_max; lia) ltac:(unfold i64_min, i64_max; lia) ltac:(unfold i64_min, i64_max; lia)
    (start_holds 16) (more_cells _ _ _ _ _ _ _ (proj1 rg_objects))) as (next & m2 & N & H).
  destruct (drain_idents rg_world rg_program rg_scene 0 "i" next 5 m2 2 R ltac:(unfold i64_min, i64_max; lia) ltac:(unfold i64_min, i64_max; lia) ltac:(unfold i64_min, i64_max; lia) N) as (m3 & D).
  exists next, m2. split; [exact N|]. exists m3. split; [exact D|]. exact (proj2 (H _ _ D)).
Qed.
