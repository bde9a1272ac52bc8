(** A program that imports the results of the prelude, for the examples beside the theorems on results. *)
From Verif.Spec Require Import ResultSpec GrammarSpec.
From Verif.Proofs Require Import ModuleSampleP RangeP RangeSampleP ResultP.
#[local] Open Scope string_scope.
#[local] Open Scope list_scope.
#[local] Open Scope nat_scope.

Lemma prelude_has_results : nth_error prelude_items 4 = Some (EExportDecl result_class) /\
  nth_error prelude_items 5 = Some (EExportDecl (case_class true)) /\ nth_error prelude_items 6 = Some (EExportDecl (case_class false)).
Proof. vm_compute. repeat split; reflexivity. Qed.
Lemma prelude_results : exists es t, parse (chars prelude) = Ok (EBlock es t) /\ In (EExportDecl result_class) es /\ forall ok, In (EExportDecl (case_class ok)) es.
Proof.
  exists prelude_items, prelude_last. split; [exact prelude_parsed|]. destruct prelude_has_results as (A & B & C). split; [exact (nth_error_In _ _ A)|]. intros [].
  - exact (nth_error_In _ _ B).
  - exact (nth_error_In _ _ C).
Qed.
Lemma or_parsed : parse (chars "a or e { e }") = Ok (EBlock [] (Some (unwrapped (ELitIdent "a") "e" (EBlock [] (Some (ELitIdent "e")))))).
Proof. vm_compute. reflexivity. Qed.

Definition uses_results : string := "import { Result, Ok, Err } from ""prelude.dm""
[Result, Ok, Err, Ok(2), Err(5), Ok(2).map(|x| x * 3), Err(7).map(|x| x * 3),
 Ok(8) or e { e + 1 }, Err(8) or e { e + 1 },
 (|x| { let y = x!! y + 1 })(Ok(3)), (|x| { let y = x!! y + 1 })(Err(3))]".
Definition rs_world : world := text_world prelude_library.
Definition rs_program : program := text_program uses_results prelude_library.
Lemma uses_results_checks : program_checks uses_results prelude_library 300 = true.
Proof. vm_compute. reflexivity. Qed.
Definition rs_memory : memory := Eval vm_compute in unstacked (memory_of (meaning rs_world rs_program 60 300 (parsed uses_results) new_vm)).
Lemma rs_memory_is : unstacked (memory_of (meaning rs_world rs_program 60 300 (parsed uses_results) new_vm)) = rs_memory.
Proof. vm_compute. reflexivity. Qed.
(** The classes are number 12, 13 and 14; Ok(2) is object 16 and Err(5) is object 17; the last six values are
    Ok(6), Err(7), 8, 9, 4 and Err(3). *)
Definition elements_of (a : answer) : outcome (list value) := match a with AVal (VArray a) m => array_elements a (vm_heap (m_vm m)) | _ => Panic end.
Definition rs_elements : outcome (list value) := elements_of (meaning rs_world rs_program 60 300 (parsed uses_results) new_vm).
Lemma rs_value : rs_elements = Ok [VClass 12; VClass 13; VClass 14; VObject 16; VObject 17; VObject 19; VObject 21; VInt 8; VInt 9; VInt 4; VObject 25].
Proof. vm_compute. reflexivity. Qed.
Definition rs_cases (ok : bool) : nat := if ok then 13 else 14.

Definition closure_at (a : nat) : closure :=
  match nth_error (m_closures rs_memory) a with Some (Some c) => c | _ => Closure 0 (Source "" [] Constructing ELitUnit 0) [] end.
Definition var_at (a : nat) (x : string) : nat := match assoc_get x (cl_env (closure_at a)) with Some l => l | None => 0 end.
Lemma capturing pg m a n src E : nth_error (m_closures m) a = Some (Some (Closure n src E)) -> (bc_slot_count (fn_code (pg_lit pg n)) <=? 8) = true -> capturing_function pg m (VFnClosure a) src E.
Proof. intros A B. exists a, n. repeat split; auto. now apply Nat.leb_le. Qed.
Lemma instance_kind m v c k : as_object v (vm_heap (m_vm m)) = Err INVALID_OBJECT_CONVERSION -> kind_get (kind v) (vm_kinds (m_vm m)) = Some k -> class_is_class k c (vm_heap (m_vm m)) = Ok true -> instance m v c.
Proof. intros A B C. unfold instance, is_value_of_type, rbind, class_of_value. rewrite A, B. unfold heap_get. rewrite C. reflexivity. Qed.
Definition kind_class_in (m : memory) (k : vkind) : nat := match kind_get k (vm_kinds (m_vm m)) with Some c => c | None => 0 end.
Definition kind_class : vkind -> nat := kind_class_in rs_memory.
Definition global_class_in (m : memory) (x : string) : nat := match assoc_get x (vm_globals (m_vm m)) with Some (VClass c) => c | _ => 0 end.
Definition global_class : string -> nat := global_class_in rs_memory.

Lemma rs_bool_ : exists c, assoc_get "Bool" (vm_globals (m_vm rs_memory)) = Some (VClass c) /\ forall b, instance rs_memory (VBool b) c.
Proof.
  exists (global_class "Bool"). split; [vm_compute; reflexivity|]. intros b. apply (instance_kind _ _ _ (kind_class KdBool)); [reflexivity| |].
  - cbn [kind]. vm_compute. reflexivity.
  - vm_compute. reflexivity.
Qed.
Lemma rs_new_ : exists f n k, class_method 12 "new" (vm_heap (m_vm rs_memory)) = Ok (Some f) /\
    plain_function rs_program rs_memory f n (Source "self" result_new_args Constructing result_new_body k).
Proof.
  exists (VFnScript (pg_lit rs_program 58)), 58, 58. split; [vm_compute; reflexivity|]. split; [reflexivity|]. split; [vm_compute; reflexivity|apply Nat.leb_le; vm_compute; reflexivity].
Qed.
Lemma rs_case_ a ok : class_method (rs_cases ok) "new" (vm_heap (m_vm rs_memory)) = Ok (Some (VFnClosure a)) ->
  nth_error (m_closures rs_memory) a = Some (Some (Closure (cl_number (closure_at a)) (Source "self" [arg "result"] Constructing (case_new_body ok) (src_first (cl_source (closure_at a)))) (cl_env (closure_at a)))) ->
  (bc_slot_count (fn_code (pg_lit rs_program (cl_number (closure_at a)))) <=? 8) = true ->
  assoc_get "super" (cl_env (closure_at a)) = Some (var_at a "super") -> nth_error (m_cells rs_memory) (var_at a "super") = Some (Some (VClass 12)) ->
  exists f k E, class_method (rs_cases ok) "new" (vm_heap (m_vm rs_memory)) = Ok (Some f) /\
    capturing_function rs_program rs_memory f (Source "self" [arg "result"] Constructing (case_new_body ok) k) E /\ holds E "super" rs_memory (VClass 12).
Proof.
  intros A B C D E. exists (VFnClosure a), (src_first (cl_source (closure_at a))), (cl_env (closure_at a)). split; [exact A|]. split; [exact (capturing _ _ _ _ _ _ B C)|]. exists (var_at a "super"). split; assumption.
Qed.
Lemma rs_map_ ok : class_method (rs_cases ok) "map" (vm_heap (m_vm rs_memory)) = Ok (Some (VFnClosure 2)) ->
  exists f k E, class_method (rs_cases ok) "map" (vm_heap (m_vm rs_memory)) = Ok (Some f) /\
    capturing_function rs_program rs_memory f (Source "self" map_args (Returning map_type) map_body k) E /\
    assoc_get "Function" E = None /\
    holds E "Ok" rs_memory (VClass 13) /\ holds E "Err" rs_memory (VClass 14) /\ holds E "Result" rs_memory (VClass 12).
Proof.
  intros A. exists (VFnClosure 2), (src_first (cl_source (closure_at 2))), (cl_env (closure_at 2)). split; [exact A|].
  split; [apply (capturing _ _ _ (cl_number (closure_at 2))); vm_compute; reflexivity|]. split; [vm_compute; reflexivity|].
  split; [exists (var_at 2 "Ok"); split; vm_compute; reflexivity|]. split; [exists (var_at 2 "Err"); split; vm_compute; reflexivity|exists (var_at 2 "Result"); split; vm_compute; reflexivity].
Qed.
Lemma rs_classes : result_classes rs_program rs_memory 12 rs_cases.
Proof.
  split.
  - exact rs_bool_.
  - exact rs_new_.
  - intros [].
    + apply (rs_case_ 3); vm_compute; reflexivity.
    + apply (rs_case_ 4); vm_compute; reflexivity.
  - intros []; vm_compute; reflexivity.
  - intros ok. apply rs_map_. destruct ok; vm_compute; reflexivity.
Qed.
Lemma rs_any z : any_value rs_memory (VInt z).
Proof.
  exists (global_class "Any"). split; [vm_compute; reflexivity|]. right. apply (instance_kind _ _ _ (kind_class KdInt)); [reflexivity| |].
  - cbn [kind]. vm_compute. reflexivity.
  - vm_compute. reflexivity.
Qed.
Lemma rs_fn f : a_function rs_memory (VFnScript f).
Proof.
  split; [discriminate|]. exists (global_class "Function"). split; [vm_compute; reflexivity|]. apply (instance_kind _ _ _ (kind_class KdFunction)); [reflexivity| |].
  - cbn [kind]. vm_compute. reflexivity.
  - vm_compute. reflexivity.
Qed.
Lemma rs_made : is_case rs_memory (VObject 16) 13 true (VInt 2) /\ is_case rs_memory (VObject 17) 14 false (VInt 5) /\ 
  is_case rs_memory (VObject 19) 13 true (VInt 6) /\ is_case rs_memory (VObject 21) 14 false (VInt 7) /\ is_case rs_memory (VObject 25) 14 false (VInt 3).
Proof.
  split; [exists 16|split; [exists 17|split; [exists 19|split; [exists 21|exists 25]]]]; (split; [reflexivity|split; [vm_compute; reflexivity|split; [vm_compute; reflexivity|split; vm_compute; reflexivity]]]).
Qed.

(** ** map(|x| x * 3) *)
Definition triple_source (k : nat) : source := Source "" [arg "x"] (Returning None) (EBinary BMultiply (ELitIdent "x") (ELitInt 3)) k.
Lemma triple_call w pg room m g n0 k z : plain_function pg m g n0 (triple_source k) -> 30 <= room -> in_i64 (z * 3) = true ->
  calls w pg room g [VInt z] m (AVal (VInt (z * 3)) (set_cells (m_cells m ++ [Some g; Some (VInt z)]) m)).
Proof.
  intros (-> & F & B) R Z. split; [discriminate|]. exists 3. rewrite call_S. unfold call. cbn [List.length]. replace (room <? 1 + 1) with false by (symmetry; apply Nat.ltb_ge; lia).
  rewrite F. rewrite fn_eqb_refl. unfold run_fn, triple_source. cbn [List.length src_self src_args src_role src_body src_first].
  assert (SP : spare_slots (pg_lit pg n0) 1 <= 8) by (unfold spare_slots; destruct (_ <? _); lia).
  replace (room <? 1 + 1 + spare_slots (pg_lit pg n0) 1 + enough) with false by (symmetry; apply Nat.ltb_ge; unfold enough; lia).
  cbn [alloc body_parts bind_args hd tl alloc check arg fa_type fa_name declare s_env s_fn s_room s_chain set_cells m_cells]. unfold block. cbn [hoisted statements flat_map hoisted_name app hoist items item declaration].
  set (S0 := declare "x" _ _). set (m0 := set_cells _ _). assert (RS : 10 <= s_room S0) by (cbn [S0 declare s_room]; lia).
  rewrite binary_S by (unfold enough; lia). cbn [binary_op]. rewrite ident_S by (cbn [inner s_room]; unfold enough; lia). cbn [inner s_env].
  rewrite (load_cell (s_env S0) "x" m0 (List.length (m_cells m ++ [Some (VFnScript (pg_lit pg n0))])) (VInt z)); [|reflexivity|exact (last_cell _ _)].
  cbn [vbind]. rewrite int_S by (cbn [deep s_room]; unfold enough; lia). cbn [vbind operation operate builtin_binary]. unfold int_result. rewrite Z. cbn [omap of_outcome vbind check]. unfold m0, set_cells. cbn [m_cells m_vm m_closures m_fns]. rewrite <- app_assoc. reflexivity.
Qed.
Lemma adds_leaves pg m m' : only_adds m m' -> leaves_classes pg m m'.
Proof. intros A. split; [intros base cases; now apply adds_results|intros E x c; now apply adds_holds]. Qed.
Lemma adds_plain pg m m' f n src : only_adds m m' -> plain_function pg m f n src -> plain_function pg m' f n src.
Proof. intros (_ & _ & _ & _ & _ & _ & _ & _ & _ & A) (B & C & D). repeat split; auto. now rewrite A. Qed.
Definition triple : value := VFnScript (pg_lit rs_program 0).
Lemma triple_is : plain_function rs_program rs_memory triple 0 (triple_source 1).
Proof. split; [reflexivity|]. split; [vm_compute; reflexivity|apply Nat.leb_le; vm_compute; reflexivity]. Qed.
Lemma triple_maps : exists f r m', field_of (VObject 16) "map" rs_memory f rs_memory /\ calls rs_world rs_program 200 f [triple] rs_memory (AVal r m') /\ is_case m' r 13 true (VInt 6).
Proof.
  destruct (result_map_ok rs_world rs_program rs_memory 12 rs_cases (VObject 16) (VInt 2) triple 200 rs_classes (proj1 rs_made) (rs_fn _) ltac:(lia)) as (f & F & room' & m1 & A & R & H & _).
  pose proof (triple_call rs_world rs_program room' m1 triple 0 1 2 (adds_plain _ _ _ _ _ _ A triple_is) ltac:(lia) eq_refl) as C. set (m2 := set_cells _ _) in C.
  assert (A2 : only_adds m1 m2) by apply add_cells.
  destruct (H _ _ C (adds_leaves _ _ _ A2) (adds_any _ _ _ A2 (adds_any _ _ _ A (rs_any 6)))) as (r & m' & K & I1 & _). exists f, r, m'. auto.
Qed.

(** ** r!! and r or e { e }
    The variable r holds Ok(2), object 16, or Err(5), object 17. *)
Definition rs_start (n : nat) : memory := set_cells (m_cells rs_memory ++ [Some (VObject n); Some (VClass 12)]) rs_memory.
Definition rs_scene : scene := Scene [("r", List.length (m_cells rs_memory)); ("Result", Datatypes.S (List.length (m_cells rs_memory)))] (Some (Returning None)) 200 false.
Lemma two_cells {A} (l : list A) x y : nth_error (l ++ [x; y]) (List.length l) = Some x /\ nth_error (l ++ [x; y]) (Datatypes.S (List.length l)) = Some y.
Proof. split; rewrite nth_error_app2 by lia; [now rewrite Nat.sub_diag|]. now replace (Datatypes.S (List.length l) - List.length l) with 1 by lia. Qed.
Lemma r_holds S n : s_env S = s_env rs_scene -> enough <= s_room S -> evaluates rs_world rs_program S 0 (ELitIdent "r") (rs_start n) (AVal (VObject n) (rs_start n)).
Proof.
  intros E R. apply (ident_found _ _ _ _ _ _ (List.length (m_cells rs_memory))); [exact R|rewrite E; reflexivity|]. exact (proj1 (two_cells (m_cells rs_memory) (Some (VObject n)) (Some (VClass 12)))).
Qed.
Lemma scene_room : enough <= s_room rs_scene.
Proof. apply Nat.leb_le. reflexivity. Qed.
Lemma start_adds n : only_adds rs_memory (rs_start n).
Proof. exact (add_cells rs_memory [Some (VObject n); Some (VClass 12)]). Qed.
Lemma start_case n ok x : is_case rs_memory (VObject n) (rs_cases ok) ok x -> is_case (rs_start n) (VObject n) (rs_cases ok) ok x.
Proof. exact (adds_case _ _ _ _ _ _ (start_adds n)). Qed.
Lemma start_instance n ok x : is_case rs_memory (VObject n) (rs_cases ok) ok x -> instance (rs_start n) (VObject n) 12.
Proof. exact (fun H => case_instance rs_program (rs_start n) 12 rs_cases (VObject n) ok ok x (adds_results _ _ _ _ _ (start_adds n) rs_classes) (start_case n ok x H)). Qed.
Lemma start_result n : load (s_env rs_scene) "Result" (rs_start n) = AVal (VClass 12) (rs_start n).
Proof. apply (load_cell _ _ _ (Datatypes.S (List.length (m_cells rs_memory)))); [reflexivity|]. exact (proj2 (two_cells (m_cells rs_memory) (Some (VObject n)) (Some (VClass 12)))). Qed.
Lemma rs_propagates : evaluates rs_world rs_program rs_scene 0 (EErrorPropagate (ELitIdent "r")) (rs_start 16) (AVal (VInt 2) (rs_start 16)) /\
  evaluates rs_world rs_program rs_scene 0 (EErrorPropagate (ELitIdent "r")) (rs_start 17) (AReturn (VObject 17) (rs_start 17)).
Proof.
  destruct rs_made as (A & B & _). split.
  - apply (propagate_ok _ _ _ _ _ _ (VObject 16)); [exact scene_room|apply r_holds; [reflexivity|exact scene_room]|]. exact (case_result _ _ _ _ _ (start_case 16 true _ A)).
  - apply (propagate_err _ _ _ _ _ _ (VObject 17) (VInt 5) _ None); [exact scene_room|reflexivity|apply r_holds; [reflexivity|exact scene_room]| |discriminate]. exact (case_result _ _ _ _ _ (start_case 17 false _ B)).
Qed.
Definition or_tree : expr := unwrapped (ELitIdent "r") "e" (EBlock [] (Some (ELitIdent "e"))).
Lemma rs_coalesces : exists m2 m3, evaluates rs_world rs_program rs_scene 0 or_tree (rs_start 16) (AVal (VInt 2) m2) /\ evaluates rs_world rs_program rs_scene 0 or_tree (rs_start 17) (AVal (VInt 5) m3).
Proof.
  destruct rs_made as (A & B & _).
  destruct (or_ok rs_world rs_program rs_scene 0 (ELitIdent "r") [] (Some (ELitIdent "e")) "e" (rs_start 16) (rs_start 16) (VObject 16) 12 (VInt 2) scene_room (r_holds _ _ eq_refl scene_room) (start_result 16) ltac:(discriminate)
    (start_instance 16 true _ A) (case_result _ _ _ _ _ (start_case 16 true _ A))) as (m2 & K & _).
  destruct (or_err rs_world rs_program rs_scene 0 (ELitIdent "r") [] (Some (ELitIdent "e")) "e" (rs_start 17) (rs_start 17) (VObject 17) 12 (VInt 5) scene_room (r_holds _ _ eq_refl scene_room) (start_result 17) ltac:(discriminate)
    (start_instance 17 false _ B) (case_result _ _ _ _ _ (start_case 17 false _ B))) as (h & m3 & _ & H).
  exists m2, (set_cells (m_cells m3 ++ [Some (VInt 5)]) m3). split; [exact K|]. apply H. split; [discriminate|]. exists 2. rewrite block_S by exact scene_room. unfold block. cbn [hoisted statements flat_map hoisted_name app hoist items item declaration].
  rewrite ident_S by exact scene_room. cbn [inner s_env declare]. rewrite (load_cell _ "e" _ (List.length (m_cells m3)) (VInt 5)); [reflexivity|reflexivity|exact (last_cell _ _)].
Qed.
(** Without an import of Result. *)
Lemma rs_bare : evaluates rs_world rs_program (inner (Scene [] None 200 false)) 0 (ELitInt 1) rs_memory (AVal (VInt 1) rs_memory) /\ assoc_get "Result" (vm_globals (m_vm rs_memory)) = None.
Proof. split; [|vm_compute; reflexivity]. split; [discriminate|]. exists 1. apply int_S. apply Nat.leb_le. reflexivity. Qed.

(** |q, r| { let y = r!! y }, called with 1 and Err(5). *)
Definition also (x : option value) (c : option closure) (m : memory) : memory := Memory (m_vm m) (m_cells m ++ [x]) (m_closures m ++ [c]) (m_fns m).
Lemma also_case x c m v k ok y : is_case m v k ok y -> is_case (also x c m) v k ok y.
Proof. exact (fun H => H). Qed.
Definition leaving : memory :=
  also None (Some (Closure 0 (Source "" [FnArg "q" None; FnArg "r" None] (Returning None) (begins_with "y" (ELitIdent "r") [] (Some (ELitIdent "y"))) 1) [])) rs_memory.
Lemma rs_leaves : exists m', calls rs_world rs_program 200 (VFnClosure (List.length (m_closures rs_memory))) [VInt 1; VObject 17] leaving (AVal (VObject 17) m').
Proof.
  assert (SP : 1 + 2 + spare_slots (pg_lit rs_program 0) 2 + enough <= 200) by (apply Nat.leb_le; vm_compute; reflexivity).
  assert (U : Forall (fun p => fa_type p = None) [FnArg "q" None; FnArg "r" None]) by (repeat constructor).
  assert (ND : NoDup (map fa_name [FnArg "q" None; FnArg "r" None])).
  { constructor; [intros [H|[]]; discriminate H|]. constructor; [intros []|constructor]. }
  assert (FV : function_value rs_program leaving (VFnClosure (List.length (m_closures rs_memory))) 0 (Source "" [FnArg "q" None; FnArg "r" None] (Returning None) (begins_with "y" (ELitIdent "r") [] (Some (ELitIdent "y"))) 1) [] (VFnClosure (List.length (m_closures rs_memory)))).
  { apply fv_capturing. exact (last_cell (m_closures rs_memory) _). }
  destruct (propagate_leaves rs_world rs_program leaving _ 0 1 _ _ _ _ [VInt 1; VObject 17] "y" (ELitIdent "r") [] (Some (ELitIdent "y")) 200 FV U SP) as (S & m0 & F & C & RM & E & _ & G & A & H).
  destruct (G ND 1 (FnArg "r" None) eq_refl (fun x => x)) as (c & G1 & G2).
  exists m0. apply (H _ (VInt 5)).
  - apply (ident_found _ _ _ _ _ _ c); [exact RM|exact G1|exact G2].
  - destruct rs_made as (_ & B & _). exact (case_result _ _ _ _ _ (adds_case leaving m0 _ _ _ _ A (also_case _ _ _ _ _ _ _ B))).
Qed.
