(** The interactive tool at the end of its input. *)
From Coq Require Import Lia.
From Verif.Model Require Import Cli.
From Verif.Spec Require Import ParseSpec MeaningSpec FlowSpec CliSpec.
From Verif.Proofs Require Import CompileP MonoP FlowP FlowSampleP RangeP CliP RunP.
From Verif.Spec Require Import VmSpec.
#[local] Open Scope string_scope.
#[local] Open Scope list_scope.
#[local] Open Scope nat_scope.

Definition nothing_code : bytecode := MkBytecode [1] 0 0 [].
Lemma nothing_compiles : compile KScript (EBlock [] None) = Ok nothing_code.
Proof. vm_compute. reflexivity. Qed.
Lemma nothing_parsed : parse [10%N] = Ok (EBlock [] None).
Proof. vm_compute. reflexivity. Qed.
Lemma nothing_means w pg s : meaning w pg 2 10 (EBlock [] None) s = AVal VUnit (MeaningSpec.start s).
Proof. unfold meaning. rewrite block_S by (cbn [inner s_room]; unfold enough; lia). reflexivity. Qed.
Lemma nothing_runs w s : natives_blind w -> ready [] s ->
  exists s', from (fun n => dice_run_script w n [10%N] s) (ROk VUnit s') /\ same_store s s' /\ ready [] s'.
Proof.
  intros N R. assert (L : runnable w (alone w nothing_code) (EBlock [] None) nothing_code [] s 10).
  { split; [apply linked_alone; [exact nothing_compiles|reflexivity|reflexivity]|exact N|exact R|]. pose proof max_stack_big. cbn [List.length bc_slot_count nothing_code]. lia. }
  generalize (text_meaning w _ [10%N] _ _ [] s 2 10 nothing_parsed L). rewrite nothing_means. exact (fun H => H).
Qed.
Lemma end_never w n : natives_blind w -> forall s, ready [] s ->
  exists n0 s', (forall fuel, n0 <= fuel -> repl w fuel n s [] = (repeat (PResult VUnit) n, Waiting s' [])) /\ same_store s s' /\ ready [] s'.
Proof.
  intro N. induction n as [|n IH]; intros s R.
  - exists 0, s. split; [intros; reflexivity|]. split; [constructor; reflexivity|exact R].
  - destruct (nothing_runs w s N R) as (s1 & (n1 & F1) & S1 & R1). destruct (IH s1 R1) as (n2 & s2 & F2 & S2 & R2).
    exists (n1 + n2), s2. split; [|split; [|exact R2]].
    + intros fuel Hf. cbn [repl repeat]. change (read_entry []) with ([10%N], @nil char). cbn [fst snd]. rewrite F1, F2 by lia. reflexivity.
    + destruct S1, S2. constructor; congruence.
Qed.
Lemma entries_sample :
  let es := [[chars "1 + 1 " ++ [13%N]]; [chars "nope"]; [chars "3 // three \ "; chars "* 2"]] in
  Forall2 entry es [chars "1 + 1" ++ [10%N]; chars "nope" ++ [10%N]; chars "3 // three \" ++ [10%N] ++ chars "* 2" ++ [10%N]] /\
  fst (repl sample_world 100 3 new_vm (flat_map typed es)) = [PResult (VInt 2); PError GLOBAL_VARIABLE_UNDEFINED; PResult (VInt 6)].
Proof.
  cbv zeta. split; [|vm_compute; reflexivity]. constructor; [|constructor; [|constructor; [|constructor]]].
  - apply (is_entry_ok [] (chars "1 + 1 " ++ [13%N])); vm_compute; reflexivity.
  - apply (is_entry_ok [] (chars "nope")); vm_compute; reflexivity.
  - apply (is_entry_ok [chars "3 // three \ "] (chars "* 2")); vm_compute; reflexivity.
Qed.
Lemma continuation_sample :
  let t := chars "1 + " ++ chars "\" ++ 10%N :: chars "2" ++ [10%N] in
  entry [chars "1 + \"; chars "2"] t /\ no_backslash (chars "1 + ") /\ no_backslash (chars "2" ++ [10%N]) /\ outside_comment (chars "1 + ") /\ braces_match (tokenize t) /\
  snd (repl sample_world 100 1 new_vm (typed [chars "1 + \"; chars "2"])) = Crashed.
Proof.
  cbv zeta. split; [apply (is_entry_ok [chars "1 + \"] (chars "2")); vm_compute; reflexivity|].
  split; [apply no_code_ok; reflexivity|]. split; [apply no_code_ok; reflexivity|]. split; [apply no_slash_outside; reflexivity|].
  split; [apply no_braces; vm_compute; reflexivity|vm_compute; reflexivity].
Qed.

(** * Entries that have a meaning *)
Lemma dialogue_runs w ts s out alive : natives_blind w -> dialogue w ts s out alive -> ready [] s ->
  exists n0, forall fuel, n0 <= fuel -> forall input, fst (one_by_one w fuel ts s input) = out /\
    if alive then exists s', snd (one_by_one w fuel ts s input) = Waiting s' input else snd (one_by_one w fuel ts s input) = Crashed.
Proof.
  intros N D. induction D as [s|t r root bc pg room fuel s v m out alive P L M E _ IH|t root bc pg room fuel s e m P L M E|t r s e out alive P _ IH|t r root bc pg room fuel s P L M E]; intros R.
  - exists 0. intros fuel _ input. split; [reflexivity|]. now exists s.
  - assert (K : runnable w pg root bc [] s room) by (split; [exact L|exact N|exact R|exact M]).
    generalize (text_meaning w pg t root bc [] s fuel room P K). rewrite E. intros (s1 & (n1 & F) & S1 & R1). destruct (IH s1 S1 R1 R1) as (n2 & H).
    exists (n1 + n2). intros fl Hf input. cbn [one_by_one]. rewrite F by lia. specialize (H fl ltac:(lia) input). destruct (one_by_one w fl r s1 input) as [o l]. cbn [fst snd] in *. destruct H as [-> H]. now split.
  - assert (K : runnable w pg root bc [] s room) by (split; [exact L|exact N|exact R|exact M]).
    generalize (text_meaning w pg t root bc [] s fuel room P K). rewrite E. intros (s1 & (n1 & F) & S1).
    exists n1. intros fl Hf input. cbn [one_by_one]. rewrite F by lia. split; [reflexivity|]. now exists s1.
  - destruct (IH R) as (n2 & H). exists n2. intros fl Hf input. cbn [one_by_one]. unfold dice_run_script. rewrite P. specialize (H fl Hf input). destruct (one_by_one w fl r s input) as [o l]. cbn [fst snd] in *. destruct H as [-> H]. now split.
  - assert (K : runnable w pg root bc [] s room) by (split; [exact L|exact N|exact R|exact M]).
    generalize (text_meaning w pg t root bc [] s fuel room P K). rewrite E. intros (n1 & F).
    exists n1. intros fl Hf input. cbn [one_by_one]. rewrite F by lia. now split.
Qed.
Theorem dialogue_shown w es ts s out alive rest : natives_blind w -> ready [] s -> Forall2 entry es ts -> dialogue w ts s out alive ->
  exists n0, forall fuel, n0 <= fuel -> exists last, repl w fuel (List.length es) s (flat_map typed es ++ rest) = (out, last) /\
    if alive then exists s', last = Waiting s' rest else last = Crashed.
Proof.
  intros N R H D. destruct (dialogue_runs w ts s out alive N D R) as (n0 & K). exists n0. intros fuel Hf. rewrite (session_runs w fuel es ts s rest H).
  destruct (K fuel Hf rest) as [A B]. exists (snd (one_by_one w fuel ts s rest)). split; [|exact B]. rewrite <- A. apply surjective_pairing.
Qed.

(** "2", then a text that is not accepted, then "nope". *)
Definition two_code : bytecode := Eval vm_compute in match compile KScript (EBlock [] (Some (ELitInt 2))) with Ok b => b | _ => nothing_code end.
Definition nope_code : bytecode := Eval vm_compute in match compile KScript (EBlock [] (Some (ELitIdent "nope"))) with Ok b => b | _ => nothing_code end.
Lemma room_ten bc : bc_slot_count bc = 0 -> bc_slot_count bc + 10 <= max_stack_size.
Proof. intros ->. pose proof max_stack_big. lia. Qed.
Lemma dialogue_sample :
  let es := [[chars "2"]; [chars "let 3"]; [chars "nope"]] in
  let ts := [chars "2" ++ [10%N]; chars "let 3" ++ [10%N]; chars "nope" ++ [10%N]] in
  Forall2 entry es ts /\ dialogue sample_world ts new_vm [PResult (VInt 2); PError UNEXPECTED_TOKEN; PError GLOBAL_VARIABLE_UNDEFINED] true.
Proof.
  cbv zeta. split.
  - constructor; [|constructor; [|constructor; [|constructor]]].
    + apply (is_entry_ok [] (chars "2")); vm_compute; reflexivity.
    + apply (is_entry_ok [] (chars "let 3")); vm_compute; reflexivity.
    + apply (is_entry_ok [] (chars "nope")); vm_compute; reflexivity.
  - apply (dl_value _ _ _ (EBlock [] (Some (ELitInt 2))) two_code (alone sample_world two_code) 10 2 _ (VInt 2) (MeaningSpec.start new_vm)).
    + vm_compute. reflexivity.
    + apply linked_alone; vm_compute; reflexivity.
    + apply room_ten. reflexivity.
    + unfold meaning. rewrite block_S by (cbn [s_room]; unfold enough; lia). unfold block. cbn [hoisted statements flat_map hoisted_name app hoist items item declaration].
      rewrite int_S by (cbn [inner s_room]; unfold enough; lia). reflexivity.
    + intros s' S' R'. apply dl_rejected; [vm_compute; reflexivity|].
      apply (dl_error _ _ (EBlock [] (Some (ELitIdent "nope"))) nope_code (alone sample_world nope_code) 10 2 _ _ (MeaningSpec.start s')).
      * vm_compute. reflexivity.
      * apply linked_alone; vm_compute; reflexivity.
      * apply room_ten. reflexivity.
      * unfold meaning. rewrite block_S by (cbn [s_room]; unfold enough; lia). unfold block. cbn [hoisted statements flat_map hoisted_name app hoist items item declaration].
        rewrite ident_S by (cbn [inner s_room]; unfold enough; lia). cbn [inner s_env]. unfold load. cbn [assoc_get MeaningSpec.start m_vm]. rewrite (ss_globals _ _ S'). reflexivity.
Qed.

(** * Mistakes *)
Definition mistake : list char := chars "let x = null nope".
Lemma mistake_entry : entry [mistake] (mistake ++ [10%N]).
Proof. apply (is_entry_ok [] mistake); vm_compute; reflexivity. Qed.
Lemma mistake_code : compile_source KScript (mistake ++ [10%N]) = Ok failing_code.
Proof. vm_compute. reflexivity. Qed.
Lemma mistakes w fuel s ts input : assoc_get "nope" (vm_globals s) = None -> forall k j, j + k + 1 <= max_stack_size ->
  one_by_one w (5 + fuel) (repeat (mistake ++ [10%N]) k ++ ts) (with_stack (repeat VNull j) [] s) input =
  let (out, last) := one_by_one w (5 + fuel) ts (with_stack (repeat VNull (j + k)) [] s) input in (repeat (PError GLOBAL_VARIABLE_UNDEFINED) k ++ out, last).
Proof.
  intros G. induction k as [|k IH]; intros j H.
  - cbn [repeat app]. rewrite Nat.add_0_r. now destruct (one_by_one _ _ ts _ input).
  - cbn [repeat app one_by_one]. unfold dice_run_script at 1. rewrite mistake_code. rewrite (failing_run w fuel (repeat VNull j) s G) by (rewrite repeat_length; lia).
    replace (repeat VNull j ++ [VNull]) with (repeat VNull (Datatypes.S j)) by (apply repeat_cons). rewrite IH by lia. replace (Datatypes.S j + k) with (j + Datatypes.S k) by lia. now destruct (one_by_one _ _ ts _ input).
Qed.
Theorem mistakes_end w fuel s k l t bc rest : w_dbg w = true -> assoc_get "nope" (vm_globals s) = None -> k + 1 = max_stack_size ->
  entry l t -> compile_source KScript t = Ok bc -> 0 < bc_slot_count bc ->
  repl w (5 + fuel) (k + 1) (with_stack [] [] s) (flat_map typed (repeat [mistake] k ++ [l]) ++ rest) = (repeat (PError GLOBAL_VARIABLE_UNDEFINED) k, Crashed).
Proof.
  intros D G K E C B.
  assert (F : Forall2 entry (repeat [mistake] k ++ [l]) (repeat (mistake ++ [10%N]) k ++ [t])).
  { apply Forall2_app; [|constructor; [exact E|constructor]]. clear K. induction k; cbn [repeat]; constructor; [exact mistake_entry|assumption]. }
  replace (k + 1) with (List.length (repeat [mistake] k ++ [l])) by (rewrite app_length, repeat_length; reflexivity).
  rewrite (session_runs w (5 + fuel) _ _ (with_stack [] [] s) rest F). change (with_stack [] [] s) with (with_stack (repeat VNull 0) [] s). rewrite (mistakes w fuel s [t] rest G k 0) by lia.
  cbn [one_by_one Nat.add]. unfold dice_run_script. rewrite C. rewrite (full_stack_panics w _ bc s (repeat VNull k) D) by (try exact B; rewrite repeat_length; lia). now rewrite app_nil_r.
Qed.
Lemma mistakes_sample : w_dbg sample_world = true /\ assoc_get "nope" (vm_globals new_vm) = None /\ new_vm = with_stack [] [] new_vm /\
  entry [chars "let y = 1 y"] (chars "let y = 1 y" ++ [10%N]) /\ exists bc, compile_source KScript (chars "let y = 1 y" ++ [10%N]) = Ok bc /\ 0 < bc_slot_count bc.
Proof.
  split; [reflexivity|split; [exact new_vm_nope|split; [exact new_vm_stack|split; [apply (is_entry_ok [] (chars "let y = 1 y")); vm_compute; reflexivity|]]]].
  eexists. split; [vm_compute; reflexivity|]. apply Nat.ltb_lt. vm_compute. reflexivity.
Qed.
