(** List literals of any length: the count of elements is one byte. *)
From Verif.Proofs Require Import RunP.
From Verif.Model Require Import Compiler Script.
From Verif.Proofs Require Import PrintP.
From Verif.Spec Require Import WideSpec MeaningSpec Encoding.
From Verif.Proofs Require Import CodecP.
Import ListNotations.
#[local] Open Scope list_scope.

Definition push_code (b : bool) : byte := opcode_to_byte (if b then OpPushTrue else OpPushFalse).
Definition wide_code (bs : list bool) : bytecode :=
  MkBytecode (map push_code bs ++ [opcode_to_byte OpCreateArray; u8_of (List.length bs)]) 0 0 [].

Definition at_code (d : list byte) (c : context) (r : list context) (n : nat) : cstate :=
  CState (Context (cx_kind c) (MkAsm (asm_consts (cx_asm c)) d) (cx_upvalues c) (cx_scopes c) (cx_temps c) :: r) n.

Lemma each_pushes : forall bs d c r n,
  each visit (map ELitBool bs) (at_code d c r n) = Ok (tt, at_code (d ++ map push_code bs) c r n).
Proof.
  induction bs as [|b bs IH]; intros d c r n.
  - cbn [map each]. rewrite app_nil_r. reflexivity.
  - cbn [map each]. unfold bind at 1. 
    replace (visit (ELitBool b) (at_code d c r n)) with (Ok (tt, at_code (d ++ [push_code b]) c r n)) by (destruct b; reflexivity).
    rewrite IH, <- app_assoc. reflexivity.
Qed.


Definition ctx0 : context := match m_push_scope KBlock None (CState [context_new KScript] 0) with Ok (_, s) => hd (context_new KScript) (cs_stack s) | _ => context_new KScript end.
Lemma tail_compiles (e : expr) d : scan_expr e = ret tt -> visit e (at_code [] ctx0 [] 0) = Ok (tt, at_code d ctx0 [] 0) ->
  compile KScript (EBlock [] (Some e)) = Ok (MkBytecode d 0 0 []).
Proof.
  intros S V. unfold compile, compile_m. cbn [visit]. unfold visit_block, visit_block_body, scan_item_decls, block_items.
  cbn [app each]. rewrite S. revert V. generalize (visit e). intros v V.
  unfold bind at 1. cbn [ret]. unfold bind at 1. unfold bind at 1. change (m_push_scope KBlock None (CState [context_new KScript] 0)) with (Ok (tt, at_code [] ctx0 [] 0)).
  cbv iota beta. unfold bind at 1. unfold bind at 1. cbn [ret]. unfold bind at 1 2. cbn [ret]. rewrite V. reflexivity.
Qed.
Lemma emit_u8_at o b d c r n : emit_u8 o b (at_code d c r n) = Ok (tt, at_code (d ++ [opcode_to_byte o; b]) c r n).
Proof. change [opcode_to_byte o; b] with ([opcode_to_byte o] ++ [b]). rewrite app_assoc. reflexivity. Qed.
Lemma wide_compiles bs : compile KScript (list_of bs) = Ok (wide_code bs).
Proof.
  apply tail_compiles; [reflexivity|]. cbn [visit]. unfold visit_list, bind. rewrite each_pushes, map_length. cbn [app].
  apply emit_u8_at.
Qed.

(** Running it. *)
Section Run.
Variables (w : world) (b : list value) (s : vm).
Definition pushed (bs : list bool) : list value := rev (map VBool bs).

Lemma pushes_run fr : forall rest done n, List.length b + List.length (done ++ rest) <= max_stack_size ->
  r_loop (machine w (List.length rest + n)) (wide_code (done ++ rest)) fr None (Z.of_nat (List.length done)) (with_stack b (pushed done) s)
  = r_loop (machine w n) (wide_code (done ++ rest)) fr None (Z.of_nat (List.length (done ++ rest))) (with_stack b (pushed (done ++ rest)) s).
Proof.
  induction rest as [|x rest IH]; intros done n L.
  - rewrite !app_nil_r. reflexivity.
  - cbn [List.length Nat.add]. rewrite app_length in L. cbn [List.length] in L.
    rewrite (loop_continue w _ _ fr None _ (INone (if x then OpPushTrue else OpPushFalse)) (Z.of_nat (List.length (done ++ [x]))) (Z.of_nat (List.length (done ++ [x]))) _
               (with_stack b (pushed (done ++ [x])) s)).
    + replace (done ++ x :: rest) with ((done ++ [x]) ++ rest) by (rewrite <- app_assoc; reflexivity).
      apply IH. rewrite !app_length. cbn [List.length]. lia.
    + cbn [bc_constants bc_data wide_code]. rewrite map_app. cbn [map]. rewrite <- app_assoc. cbn [app].
      match goal with |- context [push_code x :: ?r] => change (push_code x :: r) with (encode_instr (INone (if x then OpPushTrue else OpPushFalse)) ++ r) end.
      replace (List.length done) with (List.length (map push_code done)) at 1 by apply map_length.
      rewrite fetch_encoded by (destruct x; reflexivity). rewrite map_length, app_length. reflexivity.
    + unfold pushed. rewrite map_app, rev_app_distr. cbn [map rev app].
      destruct x; cbn [step]; unfold rbind; rewrite push_ws by (unfold fits; rewrite rev_length, map_length; lia); reflexivity.
Qed.

Lemma wide_loop fr bs : List.length b + List.length bs + 1 <= max_stack_size ->
  exists a s', (forall n, r_loop (machine w (List.length bs + (2 + n))) (wide_code bs) fr None 0%Z (with_stack b [] s)
    = ROk tt (with_stack b (VArray a :: pushed (firstn (List.length bs - List.length bs mod 256) bs)) s')) /\
    elements (vm_heap s') a = Some (map VBool (last_elements (List.length bs mod 256) bs)).
Proof.
  intros L. pose proof (pushes_run fr bs []) as P. cbn [app List.length] in P. change (pushed []) with (@nil value) in P. change (Z.of_nat 0) with 0%Z in P.
  assert (F : fetch vm_operands (bc_constants (wide_code bs)) (bc_data (wide_code bs)) (Z.of_nat (List.length bs))
              = Ok (Some (IByte OpCreateArray (u8_of (List.length bs)), Z.of_nat (List.length bs + 2)))).
  { cbn [bc_constants bc_data wide_code].
    change [opcode_to_byte OpCreateArray; u8_of (List.length bs)] with (encode_instr (IByte OpCreateArray (u8_of (List.length bs))) ++ []).
    replace (List.length bs) with (List.length (map push_code bs)) at 2 by apply map_length.
    rewrite fetch_encoded by reflexivity. rewrite map_length. reflexivity. }
  set (k := List.length bs mod 256).
  assert (Lk : k <= List.length bs) by (unfold k; apply Nat.mod_le; lia).
  assert (Sp : pushed bs = pushed (last_elements k bs) ++ pushed (firstn (List.length bs - k) bs)).
  { unfold pushed, last_elements. rewrite <- rev_app_distr, <- map_app, firstn_skipn. reflexivity. }
  assert (Ll : List.length (pushed (last_elements k bs)) = k).
  { unfold pushed, last_elements. rewrite rev_length, map_length, skipn_length. lia. }
  assert (Lf : List.length (pushed (firstn (List.length bs - k) bs)) = List.length bs - k).
  { unfold pushed. rewrite rev_length, map_length, firstn_length. lia. }
  destruct (array_from_vec (map VBool (last_elements k bs)) (vm_heap s)) as [a h] eqn:EA.
  exists a, (set_heap h s). split.
  - intros n. rewrite P by lia. clear P. cbn [Nat.add].
    rewrite (loop_continue w _ _ fr None _ _ _ (Z.of_nat (List.length bs + 2)) _
               (with_stack b (VArray a :: pushed (firstn (List.length bs - k) bs)) (set_heap h s)) F).
    + apply loop_end. apply fetch_end. cbn [bc_data wide_code]. rewrite app_length, map_length. cbn [List.length]. lia.
    + cbn [step]. unfold rbind. change (u8_of (List.length bs)) with k. rewrite Sp.
      rewrite pop_count_ws by (try exact Ll; unfold fits; lia).
      unfold new_array, rbind, heap_alloc. rewrite ws_heap. unfold pushed at 1. rewrite rev_involutive, EA.
      unfold rret. rewrite set_heap_ws, push_ws by (unfold fits; lia). reflexivity.
  - cbn [vm_heap set_heap]. unfold array_from_vec in EA. destruct (object_new None (vm_heap s)) as [o h1]. injection EA as <- <-.
    unfold elements. cbn [h_arrays hset_arrays]. rewrite nth_error_app2, Nat.sub_diag by lia. reflexivity.
Qed.
End Run.

Lemma ptr_ws b t s : st_ptr (vm_stack (with_stack b t s)) = List.length b + List.length t.
Proof. unfold with_stack, set_stack, stack_with. cbn [vm_stack st_ptr]. rewrite ?app_length, ?rev_length. reflexivity. Qed.
Theorem wide_list w bs below s : vm_stack s = stack_with below [] -> List.length below + List.length bs + 1 <= max_stack_size ->
  if w_dbg w && (256 <=? List.length bs) then from (fun n => runtime_run w n (wide_code bs) s) RPanic
  else exists a s', from (fun n => runtime_run w n (wide_code bs) s) (ROk (VArray a) s') /\
         elements (vm_heap s') a = Some (map VBool (last_elements (List.length bs mod 256) bs)).
Proof.
  intros R L. rewrite (ws_id _ _ _ R). set (k := List.length bs mod 256).
  assert (Lk : k <= List.length bs) by (unfold k; apply Nat.mod_le; lia).
  assert (Lf : List.length (pushed (firstn (List.length bs - k) bs)) = List.length bs - k).
  { unfold pushed. rewrite rev_length, map_length, firstn_length. lia. }
  set (fr := Frame (List.length below) (List.length below)).
  destruct (wide_loop w below s fr bs L) as (a & s' & E & EL). fold k in E, EL.
  assert (Rv : on_stack (stack_reserve (w_dbg w) 0) (with_stack below [] s) = ROk fr (with_stack below [] s) ).
  { rewrite reserve_ws by (unfold fits; cbn [List.length]; lia). cbn [rev app repeat List.length]. rewrite app_nil_r, !Nat.add_0_r. reflexivity. }
  assert (Q : forall n, List.length bs + 2 <= n -> runtime_run w n (wide_code bs) (with_stack below [] s) =
     if w_dbg w && (256 <=? List.length bs) then RPanic else
     ROk (VArray a) (with_stack below (pushed (firstn (List.length bs - k) bs)) s')).
  { intros n Hn. replace n with (List.length bs + (2 + (n - List.length bs - 2))) by lia.
    unfold runtime_run, run_script. change (bc_slot_count (wide_code bs)) with 0. unfold rbind at 1. rewrite Rv.
    unfold rbind at 1, execute. unfold rbind at 1. rewrite E.
    rewrite !ptr_ws. cbn [List.length]. rewrite Lf.
    assert (D : negb (List.length below + S (List.length bs - k) =? S (List.length below + 0)) = (256 <=? List.length bs)).
    { destruct (Nat.leb_spec 256 (List.length bs)) as [G|G].
      - apply negb_true_iff, Nat.eqb_neq. pose proof (Nat.mod_upper_bound (List.length bs) 256). unfold k. lia.
      - apply negb_false_iff, Nat.eqb_eq. unfold k. rewrite Nat.mod_small by lia. lia. }
    rewrite D. destruct (w_dbg w && (256 <=? List.length bs)) eqn:DB; [reflexivity|].
    rewrite pop_ws by (unfold fits; lia). unfold rbind, on_stack_, on_stack.
    replace (stack_release VNull (w_dbg w) fr (vm_stack (with_stack below (pushed (firstn (List.length bs - k) bs)) s')))
      with (Ok (vm_stack (with_stack below (pushed (firstn (List.length bs - k) bs)) s'))); [reflexivity|].
    unfold stack_release, fr. cbn [fr_start fr_end]. unfold frame_length. cbn [fr_start fr_end]. rewrite Nat.ltb_irrefl, Nat.sub_diag.
    unfold with_stack, set_stack. cbn [vm_stack]. unfold stack_with. cbn [st_vals st_ptr]. rewrite Nat.sub_0_r.
    unfold stack_clear. rewrite Nat.sub_diag. cbn [repeat app]. rewrite firstn_skipn.
    match goal with |- context [?x <? ?y] => destruct (Nat.ltb_spec x y) as [G|_] end; [rewrite !app_length in G; lia|].
    cbn [orb]. change (?x <? 0) with false. cbv iota.
    match goal with |- context [w_dbg w && negb ?c] => replace (w_dbg w && negb c) with false; [reflexivity|] end.
    destruct (w_dbg w); [|reflexivity]. cbn [andb] in *. apply Nat.leb_gt in DB. symmetry. apply negb_false_iff, Nat.ltb_lt.
    rewrite app_length, rev_length, Lf. assert (k = List.length bs) by (unfold k; apply Nat.mod_small; lia). lia. }
  destruct (w_dbg w && (256 <=? List.length bs)).
  - exists (List.length bs + 2). exact Q.
  - exists a. eexists. split; [exists (List.length bs + 2); exact Q|]. exact EL.
Qed.

Lemma wide_list_source w bs below s : vm_stack s = stack_with below [] -> List.length below + List.length bs + 1 <= max_stack_size ->
  if w_dbg w && (256 <=? List.length bs) then from (fun n => dice_run_script w n (list_text bs) s) RPanic
  else exists a s', from (fun n => dice_run_script w n (list_text bs) s) (ROk (VArray a) s') /\
         elements (vm_heap s') a = Some (map VBool (last_elements (List.length bs mod 256) bs)).
Proof.
  intros R L. pose proof (wide_list w bs below s R L) as W.
  assert (E : forall n, dice_run_script w n (list_text bs) s = runtime_run w n (wide_code bs) s).
  { intros n. unfold dice_run_script, compile_source, list_text. rewrite print_parse.
    - cbn [obind]. fold (list_of bs). rewrite wide_compiles. reflexivity.
    - constructor. intros a I. apply in_map_iff in I as (b & <- & _). constructor. }
  destruct (w_dbg w && _).
  - destruct W as (n0 & W). exists n0. intros n Hn. rewrite E. auto.
  - destruct W as (a & s' & (n0 & W) & H). exists a, s'. split; [|exact H]. exists n0. intros n Hn. rewrite E. auto.
Qed.
Lemma short_list_source w bs below s : vm_stack s = stack_with below [] -> List.length below + List.length bs + 1 <= max_stack_size ->
  List.length bs <= 255 ->
  exists a s', from (fun n => dice_run_script w n (list_text bs) s) (ROk (VArray a) s') /\ elements (vm_heap s') a = Some (map VBool bs).
Proof.
  intros R L H. pose proof (wide_list_source w bs below s R L) as W.
  replace (256 <=? List.length bs) with false in W by (symmetry; apply Nat.leb_gt; lia). rewrite andb_false_r in W.
  rewrite Nat.mod_small in W by lia. unfold last_elements in W. rewrite Nat.sub_diag in W. exact W.
Qed.
