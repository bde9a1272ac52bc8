(** Lemmas about the assembler: layout, constant pool, jump patching. *)
From Verif.Model Require Import Assembler.
From Verif.Spec Require Import Encoding.
From Verif.Proofs Require Import CodecP.
Ltac Zify.zify_post_hook ::= Z.div_mod_to_equations.

Lemma set_nth_app_mid {A} (l r : list A) x y : set_nth (l ++ x :: r) (List.length l) y = l ++ y :: r.
Proof. induction l; cbn; congruence. Qed.

Lemma set_nth_length {A} (l : list A) : forall i x, List.length (set_nth l i x) = List.length l.
Proof. induction l; intros [|i] x; cbn; auto. Qed.

Lemma emit0_data o a : asm_data (emit0 o a) = asm_data a ++ encode_instr (INone o).
Proof. reflexivity. Qed.
Lemma emit1_data o b a : asm_data (emit1 o b a) = asm_data a ++ encode_instr (IByte o b).
Proof. unfold emit1, put_u8. cbn. now rewrite <- app_assoc. Qed.

Lemma emit_jump_spec o a :
  emit_jump o a = (List.length (asm_data a) + 1,
                   MkAsm (asm_consts a) (asm_data a ++ encode_instr (IOffset o 0))).
Proof.
  unfold emit_jump, put_u8, put_i16. cbn [asm_data asm_consts]. rewrite app_length. cbn [List.length].
  f_equal. f_equal. rewrite <- app_assoc. reflexivity.
Qed.

Lemma emit_jump_back_spec position a :
  (- 32768 <= Z.of_nat position - Z.of_nat (List.length (asm_data a) + 3) <= 32767)%Z ->
  emit_jump_back position a =
  MkAsm (asm_consts a)
    (asm_data a ++ encode_instr (IOffset OpJump (Z.of_nat position - Z.of_nat (List.length (asm_data a) + 3)))).
Proof.
  intros H. unfold emit_jump_back, put_i16, put_u8, current_position. cbn [asm_data asm_consts].
  rewrite <- app_assoc. f_equal. f_equal. cbn [encode_instr app]. f_equal.
  rewrite be16_i16_bytes. f_equal. rewrite app_length. cbn [List.length]. unfold i16_of. lia.
Qed.

Lemma patch_jump_general o z0 pre mid consts :
  patch_jump (List.length pre + 1) (MkAsm consts (pre ++ encode_instr (IOffset o z0) ++ mid))
  = Ok (MkAsm consts (pre ++ encode_instr (IOffset o (i16_of (Z.of_nat (List.length mid)))) ++ mid)).
Proof.
  unfold patch_jump, current_position. cbn [asm_data asm_consts].
  rewrite !app_length. cbn [encode_instr be16 List.length].
  destruct (Nat.ltb_spec (List.length pre + (3 + List.length mid)) (List.length pre + 1 + 2)); [lia|].
  replace (List.length pre + (3 + List.length mid) - (List.length pre + 1) - 2) with (List.length mid) by lia.
  cbv zeta. set (z := i16_of (Z.of_nat (List.length mid))). unfold i16_bytes.
  assert (Hg : forall b0 b1 h l, set_nth (set_nth (pre ++ [opcode_to_byte o; b0; b1] ++ mid) (List.length pre + 1) h)
                     (S (List.length pre + 1)) l = pre ++ [opcode_to_byte o; h; l] ++ mid).
  { intros b0 b1 h l. cbn [app].
    replace (pre ++ opcode_to_byte o :: b0 :: b1 :: mid) with ((pre ++ [opcode_to_byte o]) ++ b0 :: b1 :: mid)
      by now rewrite <- app_assoc.
    replace (List.length pre + 1) with (List.length (pre ++ [opcode_to_byte o])) by now rewrite app_length.
    rewrite set_nth_app_mid.
    replace ((pre ++ [opcode_to_byte o]) ++ h :: b1 :: mid) with ((pre ++ [opcode_to_byte o; h]) ++ b1 :: mid)
      by (rewrite <- !app_assoc; reflexivity).
    replace (S (List.length (pre ++ [opcode_to_byte o]))) with (List.length (pre ++ [opcode_to_byte o; h]))
      by (rewrite !app_length; cbn; lia).
    rewrite set_nth_app_mid, <- app_assoc. reflexivity. }
  unfold be16. rewrite Hg. replace (z mod 256)%Z with ((z mod 65536) mod 256)%Z by lia. reflexivity.
Qed.

Lemma i16_of_range z : (-32768 <= i16_of z <= 32767)%Z.
Proof. unfold i16_of. lia. Qed.

Lemma i16_of_small z : (-32768 <= z <= 32767)%Z -> i16_of z = z.
Proof. unfold i16_of. lia. Qed.

(** Patching a jump that was emitted before [mid]. *)
Lemma patch_jump_spec o pre mid consts :
  (Z.of_nat (List.length mid) <= 32767)%Z ->
  patch_jump (List.length pre + 1) (MkAsm consts (pre ++ encode_instr (IOffset o 0) ++ mid))
  = Ok (MkAsm consts (pre ++ encode_instr (IOffset o (Z.of_nat (List.length mid))) ++ mid)).
Proof. intros H. rewrite patch_jump_general, i16_of_small by lia. reflexivity. Qed.

(** Constant pool. *)
Lemma position_spec {A} (p : A -> bool) l i :
  position p l = Some i -> exists x, nth_error l i = Some x /\ p x = true.
Proof.
  revert i; induction l as [|x l IH]; intros i; cbn [position]; [discriminate|].
  destruct (p x) eqn:E.
  - intros [= <-]. exists x. auto.
  - destruct (position p l) as [j|]; cbn; [|discriminate]. intros [= <-]. exact (IH j eq_refl).
Qed.

Lemma position_first {A} (p : A -> bool) l i :
  position p l = Some i -> forall j x, j < i -> nth_error l j = Some x -> p x = false.
Proof.
  revert i; induction l as [|y l IH]; intros i; cbn [position]; [discriminate|].
  destruct (p y) eqn:E.
  - intros [= <-]. lia.
  - destruct (position p l) as [k|]; cbn; [|discriminate]. intros [= <-] [|j] x Hj; cbn.
    + intros [= <-]; exact E.
    + apply IH with (i := k); [reflexivity|lia].
Qed.

Lemma position_none {A} (p : A -> bool) l : position p l = None -> Forall (fun x => p x = false) l.
Proof.
  induction l as [|x l IH]; cbn [position]; [constructor|].
  destruct (p x) eqn:E; [discriminate|].
  destruct (position p l); cbn; [discriminate|]. intros _. constructor; auto.
Qed.

Lemma position_none_iff {A} (p : A -> bool) l : position p l = None <-> Forall (fun x => p x = false) l.
Proof.
  split; [apply position_none|].
  induction 1 as [|x l Hx _ IH]; cbn [position]; [reflexivity|]. now rewrite Hx, IH.
Qed.

Lemma position_app_some {A} (p : A -> bool) l r i : position p l = Some i -> position p (l ++ r) = Some i.
Proof.
  revert i; induction l as [|x l IH]; intros i; cbn [position app]; [discriminate|].
  destruct (p x); [auto|]. destruct (position p l) as [j|]; cbn; [|discriminate].
  intros [= <-]. now rewrite (IH j eq_refl).
Qed.

Lemma position_lt {A} (p : A -> bool) l i : position p l = Some i -> i < List.length l.
Proof. intros H. apply position_spec in H as (x & H & _). apply nth_error_Some. congruence. Qed.

Lemma make_constant_inv c a i a' :
  make_constant c a = Ok (i, a') ->
  asm_data a' = asm_data a /\ i <= 255 /\
  ((position (fun x => const_eqb x c) (asm_consts a) = Some i /\ asm_consts a' = asm_consts a)
   \/ (position (fun x => const_eqb x c) (asm_consts a) = None /\
       i = List.length (asm_consts a) /\ asm_consts a' = asm_consts a ++ [c])).
Proof.
  unfold make_constant. destruct (position _ _) as [p|] eqn:E.
  - destruct (Nat.ltb_spec 255 p); [discriminate|]. intros [= <- <-].
    unfold u8_of. rewrite Nat.mod_small by lia. intuition.
  - cbn [asm_consts asm_data]. rewrite app_length. cbn [List.length].
    destruct (Nat.ltb_spec 255 (List.length (asm_consts a) + 1 - 1)); [discriminate|]. intros [= <- <-].
    unfold u8_of. rewrite Nat.mod_small by lia. cbn [asm_consts asm_data]. split; [reflexivity|]. split; [lia|].
    right. repeat split; lia.
Qed.

Lemma make_constant_extends c a i a' :
  make_constant c a = Ok (i, a') -> exists r, asm_consts a' = asm_consts a ++ r.
Proof.
  intros H. apply make_constant_inv in H as (_ & _ & [[_ ->]|(_ & _ & ->)]).
  - exists []. now rewrite app_nil_r.
  - eauto.
Qed.

Lemma make_constant_entry c a i a' :
  make_constant c a = Ok (i, a') -> exists c', nth_error (asm_consts a') i = Some c' /\ (c' = c \/ const_eqb c' c = true).
Proof.
  intros H. apply make_constant_inv in H as (_ & _ & [[Hp ->]|(_ & -> & ->)]).
  - apply position_spec in Hp as (x & Hx & Hp). eauto.
  - exists c. rewrite nth_error_app2 by lia. rewrite Nat.sub_diag. auto.
Qed.
