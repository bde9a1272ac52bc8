(** Property C62: the results of the prelude, !! and or. *)
From Verif.Model Require Import Script.
From Verif.Spec Require Import ResultSpec GrammarSpec.
From Verif.Proofs Require Import ResultP ResultSampleP RangeSampleP ModuleSampleP.
#[local] Open Scope string_scope.
#[local] Open Scope list_scope.
#[local] Open Scope nat_scope.

(** The trees of ResultSpec.v are those of the text of the prelude. *)
Theorem C62_prelude_text : exists es t, parse (chars prelude) = Ok (EBlock es t) /\ In (EExportDecl result_class) es /\ forall ok, In (EExportDecl (case_class ok)) es.
Proof. exact prelude_results. Qed.
Print Assumptions C62_prelude_text.

(** * Ok(v) and Err(v)
    Calling Ok or Err makes an object of that class that says which it is and holds the value.  Nothing that was there changes. *)
Theorem C62_result_made : forall w pg m base cases ok v room,
  result_classes pg m base cases -> any_value m v -> 60 <= room ->
  exists r m', calls w pg room (VClass (cases ok)) [v] m (AVal r m') /\ is_case m' r (cases ok) ok v /\ only_adds m m'.
Proof. exact result_made. Qed.
Print Assumptions C62_result_made.
(** After the prelude is imported, its three classes are such classes; integers may be put into results. *)
Example C62_result_made_nonvacuous : result_classes rs_program rs_memory 12 rs_cases /\ forall z, any_value rs_memory (VInt z).
Proof. exact (conj rs_classes rs_any). Qed.
(** What is made has the two fields that !! and or read, and is an instance of Result. *)
Theorem C62_result_fields : forall pg m base cases r ok x,
  result_classes pg m base cases -> is_case m r (cases ok) ok x -> is_result m r ok x /\ instance m r base.
Proof. exact (fun pg m base cases r ok x RC IC => conj (case_result m r (cases ok) ok x IC) (case_instance pg m base cases r ok ok x RC IC)). Qed.
Print Assumptions C62_result_fields.
(** Ok(2), Err(5), Ok(2).map(|x| x * 3), Err(7).map(|x| x * 3), and what (|x| { let y = x!! y + 1 })(Err(3)) returns. *)
Example C62_result_fields_nonvacuous : is_case rs_memory (VObject 16) 13 true (VInt 2) /\ is_case rs_memory (VObject 17) 14 false (VInt 5) /\
  is_case rs_memory (VObject 19) 13 true (VInt 6) /\ is_case rs_memory (VObject 21) 14 false (VInt 7) /\ is_case rs_memory (VObject 25) 14 false (VInt 3).
Proof. exact rs_made. Qed.

(** * map
    On a success, map calls the function once, with the value, and wraps what it gives; when the function fails, map fails the same way. *)
Theorem C62_map_ok : forall w pg m base cases r x g room,
  result_classes pg m base cases -> is_case m r (cases true) true x -> a_function m g -> 100 <= room ->
  exists f, field_of r "map" m f m /\ exists room' m1, only_adds m m1 /\ room <= room' + 20 /\
  (forall y m2, calls w pg room' g [x] m1 (AVal y m2) -> leaves_classes pg m1 m2 -> any_value m2 y ->
     exists r' m', calls w pg room f [g] m (AVal r' m') /\ is_case m' r' (cases true) true y /\ only_adds m2 m') /\
  (forall e m2, calls w pg room' g [x] m1 (AFail e m2) -> calls w pg room f [g] m (AFail e m2)).
Proof. exact result_map_ok. Qed.
Print Assumptions C62_map_ok.
(** Ok(2).map(|x| x * 3). *)
Example C62_map_ok_nonvacuous : exists f r m', field_of (VObject 16) "map" rs_memory f rs_memory /\
  calls rs_world rs_program 200 f [triple] rs_memory (AVal r m') /\ is_case m' r 13 true (VInt 6).
Proof. exact triple_maps. Qed.
(** On an error, map does not call the function: whatever it is, the answer is a new error with the same value, and nothing else happens. *)
Theorem C62_map_err : forall w pg m base cases r x g room,
  result_classes pg m base cases -> is_case m r (cases false) false x -> any_value m x -> a_function m g -> 100 <= room ->
  exists f r' m', field_of r "map" m f m /\ calls w pg room f [g] m (AVal r' m') /\ is_case m' r' (cases false) false x /\ only_adds m m'.
Proof. exact result_map_err. Qed.
Print Assumptions C62_map_err.
Example C62_map_err_nonvacuous : is_case rs_memory (VObject 17) (rs_cases false) false (VInt 5) /\ any_value rs_memory (VInt 5) /\ a_function rs_memory triple.
Proof. exact (conj (proj1 (proj2 rs_made)) (conj (rs_any 5) (rs_fn _))). Qed.

(** * !!
    On a success, e!! is the value. *)
Theorem C62_propagate_ok : forall w pg S k e m v x m1, enough <= s_room S ->
  evaluates w pg (target S) k e m (AVal v m1) -> is_result m1 v true x ->
  evaluates w pg S k (EErrorPropagate e) m (AVal x m1).
Proof. exact propagate_ok. Qed.
Print Assumptions C62_propagate_ok.
(** On an error, e!! returns the result itself from the function, if it is of the function's return type. *)
Theorem C62_propagate_err : forall w pg S k e m v x m1 t, enough <= s_room S -> s_fn S = Some (Returning t) ->
  evaluates w pg (target S) k e m (AVal v m1) -> is_result m1 v false x ->
  (forall ty, t = Some ty -> exists c, load (s_env S) (ta_name ty) m1 = AVal (VClass c) m1 /\ v <> VNull /\ instance m1 v c) ->
  evaluates w pg S k (EErrorPropagate e) m (AReturn v m1).
Proof. exact propagate_err. Qed.
Print Assumptions C62_propagate_err.
Example C62_propagate_nonvacuous :
  evaluates rs_world rs_program rs_scene 0 (EErrorPropagate (ELitIdent "r")) (rs_start 16) (AVal (VInt 2) (rs_start 16)) /\
  evaluates rs_world rs_program rs_scene 0 (EErrorPropagate (ELitIdent "r")) (rs_start 17) (AReturn (VObject 17) (rs_start 17)).
Proof. exact rs_propagates. Qed.
(** A function or method that begins with let x = e!! gives back the error that e gives, and the rest of its body is not
    run.  There e is read in a scene [S] where the parameters hold the arguments (null where there are too few), the first variable
    holds the receiver, and every other variable is what it was where the function was made. *)
Theorem C62_propagate_leaves : forall w pg m f n0 k E self first ps args x e rest t room,
  function_value pg m f n0 (Source self ps (Returning None) (begins_with x e rest t) k) E first ->
  Forall (fun p => fa_type p = None) ps -> 1 + List.length args + spare_slots (pg_lit pg n0) (List.length args) + enough <= room ->
  exists S m0, s_fn S = Some (Returning None) /\ s_chain S = false /\ enough <= s_room S /\
    (forall z, z <> self -> ~ In z (map fa_name ps) -> ~ In z (hoisted rest t) -> assoc_get z (s_env S) = assoc_get z E) /\
    (~ In self (map fa_name ps) -> ~ In self (hoisted rest t) -> holds (s_env S) self m0 first) /\
    (NoDup (map fa_name ps) -> forall i p, nth_error ps i = Some p -> ~ In (fa_name p) (hoisted rest t) -> holds (s_env S) (fa_name p) m0 (nth i args VNull)) /\
    only_adds m m0 /\
    forall v y m1, evaluates w pg (target S) k e m0 (AVal v m1) -> is_result m1 v false y -> calls w pg room f args m (AVal v m1).
Proof. exact propagate_leaves. Qed.
Print Assumptions C62_propagate_leaves.
Example C62_propagate_leaves_nonvacuous : exists m', calls rs_world rs_program 200 (VFnClosure (List.length (m_closures rs_memory))) [VInt 1; VObject 17] leaving (AVal (VObject 17) m').
Proof. exact rs_leaves. Qed.

(** * or
    The tree of e or x { b }. *)
Example C62_or_text : parse (chars "a or e { e }") = Ok (EBlock [] (Some (unwrapped (ELitIdent "a") "e" (EBlock [] (Some (ELitIdent "e")))))).
Proof. exact or_parsed. Qed.
(** On a success, e or x { b } is the value, and the block is not run. *)
Theorem C62_or_ok : forall w pg S k e bs bt x m m1 v c y, enough <= s_room S -> evaluates w pg (inner S) k e m (AVal v m1) ->
  load (s_env S) "Result" m1 = AVal (VClass c) m1 -> v <> VNull -> instance m1 v c -> is_result m1 v true y ->
  exists m2, evaluates w pg S k (unwrapped e x (EBlock bs bt)) m (AVal y m2) /\ only_adds m1 m2.
Proof. exact or_ok. Qed.
Print Assumptions C62_or_ok.
(** On an error, it is whatever the block is, with x a new variable that holds what the error is about. *)
Theorem C62_or_err : forall w pg S k e bs bt x m m1 v c y, enough <= s_room S -> evaluates w pg (inner S) k e m (AVal v m1) ->
  load (s_env S) "Result" m1 = AVal (VClass c) m1 -> v <> VNull -> instance m1 v c -> is_result m1 v false y ->
  exists hidden m2, let S2 := declare x (List.length (m_cells m2)) (declare "#result" hidden (inner S)) in only_adds m1 m2 /\
    forall a, evaluates w pg S2 (k + fns e) (EBlock bs bt) (set_cells (m_cells m2 ++ [Some y]) m2) a ->
      evaluates w pg S k (unwrapped e x (EBlock bs bt)) m a.
Proof. exact or_err. Qed.
Print Assumptions C62_or_err.
Example C62_or_nonvacuous : exists m2 m3, evaluates rs_world rs_program rs_scene 0 or_tree (rs_start 16) (AVal (VInt 2) m2) /\
  evaluates rs_world rs_program rs_scene 0 or_tree (rs_start 17) (AVal (VInt 5) m3).
Proof. exact rs_coalesces. Qed.
(** Where no variable Result is in scope, or fails, also on a success: the runtime does not load the prelude by itself. *)
Theorem C62_or_without_prelude_refuted : forall w pg S k e b x m m1 v, enough <= s_room S -> evaluates w pg (inner S) k e m (AVal v m1) ->
  assoc_get "Result" (s_env S) = None -> assoc_get "Result" (vm_globals (m_vm m1)) = None ->
  exists m2, evaluates w pg S k (unwrapped e x b) m (AFail GLOBAL_VARIABLE_UNDEFINED m2).
Proof. exact or_missing. Qed.
Print Assumptions C62_or_without_prelude_refuted.
Example C62_or_without_prelude_nonvacuous : evaluates rs_world rs_program (inner (Scene [] None 200 false)) 0 (ELitInt 1) rs_memory (AVal (VInt 1) rs_memory) /\
  assoc_get "Result" (vm_globals (m_vm rs_memory)) = None.
Proof. exact rs_bare. Qed.

(** * A whole script
    What the script of ResultSampleP.v gives; C14 says that the runtime gives the same. *)
Example C62_script_checks : program_checks uses_results prelude_library 300 = true.
Proof. exact uses_results_checks. Qed.
Example C62_script : rs_elements = Ok [VClass 12; VClass 13; VClass 14; VObject 16; VObject 17; VObject 19; VObject 21; VInt 8; VInt 9; VInt 4; VObject 25].
Proof. exact rs_value. Qed.
