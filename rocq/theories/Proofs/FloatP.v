(** Functions of the runtime: methods of numbers. *)
From Coq Require Import Floats.SpecFloat.
From Verif.Model Require Import Text.
From Verif.Spec Require Import HostSpec.
From Verif.Proofs Require Import VmPrimP StackP CallP CompareP HostFnP.
#[local] Open Scope list_scope.
#[local] Open Scope Z_scope.

Lemma one_pos : 0 < one. Proof. unfold one. apply Z.pow_pos_nonneg; lia. Qed.
Lemma one_split e : -1074 <= e < 0 -> one = 2 ^ (e + 1074) * 2 ^ (- e).
Proof. intros H. unfold one. rewrite <- Z.pow_add_r by lia. f_equal. lia. Qed.
Lemma pow_over e : 0 <= e -> 2 ^ (e + 1074) = 2 ^ e * one.
Proof. intros H. unfold one. rewrite <- Z.pow_add_r by lia. reflexivity. Qed.
#[local] Opaque one.

(** ** The float of a whole number of at most 53 bits *)
Lemma digits_shift k p : Zpos (digits2_pos (shift_pos k p)) = Zpos k + Zpos (digits2_pos p).
Proof.
  unfold shift_pos. induction k as [|k IH] using Pos.peano_ind; [cbn [Pos.iter digits2_pos]; lia|].
  rewrite Pos.iter_succ. cbn [digits2_pos]. rewrite !Pos2Z.inj_succ, IH. lia.
Qed.
Lemma shift_value k p : Zpos (shift_pos k p) = Zpos p * 2 ^ Zpos k.
Proof.
  unfold shift_pos. induction k as [|k IH] using Pos.peano_ind; [cbn [Pos.iter]; change (2 ^ 1) with 2; lia|].
  rewrite Pos.iter_succ, Pos2Z.inj_xO, IH, Pos2Z.inj_succ, Z.pow_succ_r by lia. lia.
Qed.
Lemma round_full s m e : Zpos (digits2_pos m) = 53 -> -1074 <= e <= 971 -> binary_round_aux prec64 emax64 s (Zpos m) e loc_Exact = S754_finite s m e.
Proof.
  intros D R. unfold binary_round_aux, shr_fexp. cbn [shr_record_of_loc Zdigits2]. rewrite D.
  replace (fexp prec64 emax64 (53 + e) - e) with 0 by (unfold fexp, emin, prec64, emax64; lia). cbn [shr shr_m loc_of_shr_record round_nearest_even shr_r shr_s shr_record_of_loc Zdigits2]. rewrite D.
  replace (fexp prec64 emax64 (53 + e) - e) with 0 by (unfold fexp, emin, prec64, emax64; lia). cbn [shr shr_m].
  destruct (Z.leb_spec e (emax64 - prec64)) as [|Q]; [reflexivity|unfold emax64, prec64 in Q; lia].
Qed.
Lemma full_ok s m e : Zpos (digits2_pos m) = 53 -> -1074 <= e <= 971 -> f64_ok (S754_finite s m e).
Proof.
  intros D R. unfold f64_ok. cbn [valid_binary]. unfold bounded, canonical_mantissa. rewrite D. apply andb_true_iff. split.
  - apply Zeq_is_eq_bool. unfold fexp, emin, prec64, emax64. lia.
  - apply Z.leb_le. unfold emax64, prec64. lia.
Qed.
Lemma round_whole s p : Zpos p < 2 ^ 53 -> exists m e, binary_round prec64 emax64 s p 0 = S754_finite s m e /\
  Zpos (digits2_pos m) = 53 /\ -1074 <= e <= 971 /\ Zpos m * 2 ^ (e + 1074) = Zpos p * one.
Proof.
  intros L. assert (D : Zpos (digits2_pos p) <= 53).
  { destruct (digits_bounds p) as [B _]. destruct (Z.le_gt_cases (Zpos (digits2_pos p)) 53) as [|Q]; [assumption|].
    assert (2 ^ 53 <= 2 ^ (Zpos (digits2_pos p) - 1)) by (apply Z.pow_le_mono_r; lia). lia. }
  unfold binary_round, shl_align.
  replace (fexp prec64 emax64 (Zpos (digits2_pos p) + 0) - 0) with (Zpos (digits2_pos p) - 53) by (unfold fexp, emin, prec64, emax64; lia).
  replace (fexp prec64 emax64 (Zpos (digits2_pos p) + 0)) with (Zpos (digits2_pos p) - 53) by (unfold fexp, emin, prec64, emax64; lia).
  destruct (Zpos (digits2_pos p) - 53) as [|q|k] eqn:E; [|lia|].
  - exists p, 0. assert (D53 : Zpos (digits2_pos p) = 53) by lia. rewrite round_full by lia. repeat split; try lia.
  - exists (shift_pos k p), (Zneg k). assert (DS : Zpos (digits2_pos (shift_pos k p)) = 53) by (rewrite digits_shift; lia).
    rewrite round_full by lia. split; [reflexivity|]. split; [exact DS|]. split; [lia|]. rewrite shift_value.
    rewrite (one_split (Zneg k)) by lia. change (- Zneg k) with (Zpos k). lia.
Qed.
Lemma whole_exact s a : 0 <= a <= 2 ^ 53 -> equals_int (f64_whole s a) (if s then - a else a).
Proof.
  intros R. unfold f64_whole, equals_int, is_number. destruct (Z.eqb_spec a 0) as [->|N].
  - split; [split; [reflexivity|exact I]|]. destruct s; reflexivity.
  - destruct (Z.eq_dec a (2 ^ 53)) as [->|N2].
    + with_strategy transparent [one] (destruct s; (split; [split; [vm_compute; reflexivity|vm_compute; exact I]|vm_compute; reflexivity])).
    + destruct a as [|p|p]; try lia. destruct (round_whole s p) as (m & e & E & D & Re & V); [lia|].
      assert (EB : binary_normalize prec64 emax64 (if s then - Zpos p else Zpos p) 0 s = S754_finite s m e) by (destruct s; exact E).
      rewrite EB. split; [split; [now apply full_ok|exact I]|]. cbn [scaled]. destruct s; lia.
Qed.
Lemma float_of_int z : Z.abs z <= 2 ^ 53 -> equals_int (f64_of_i64 z) z.
Proof.
  intros R. pose proof (whole_exact (z <? 0) (Z.abs z)) as W. unfold f64_of_i64. destruct (Z.eq_dec z 0) as [->|N].
  - split; [split; [reflexivity|exact I]|reflexivity].
  - unfold f64_whole in W. destruct (Z.eqb_spec (Z.abs z) 0); [lia|]. destruct (Z.ltb_spec z 0).
    + replace (- Z.abs z) with z in W by lia. destruct z as [|p|p]; [lia|lia|]. apply W. lia.
    + replace (Z.abs z) with z in W by lia. destruct z as [|p|p]; [lia| |lia]. apply W. lia.
Qed.

(** ** Whole parts *)
Lemma int_part m e : -1074 <= e -> (if 0 <=? e then Zpos m * 2 ^ e else Zpos m / 2 ^ (- e)) = (Zpos m * 2 ^ (e + 1074)) / one.
Proof.
  intros R. pose proof one_pos. destruct (Z.leb_spec 0 e) as [L|L].
  - rewrite pow_over by exact L. rewrite Z.mul_assoc. now rewrite Z.div_mul by lia.
  - rewrite (one_split e) by lia. rewrite (Z.mul_comm (2 ^ (e + 1074))). symmetry. apply Z.div_mul_cancel_r; apply Z.pow_nonzero; lia.
Qed.
Lemma div_bounds x d : 0 < d -> d * (x / d) <= x < d * (x / d) + d.
Proof. intros H. pose proof (Z.mul_div_le x d H). pose proof (Z.mul_succ_div_gt x d H). lia. Qed.
Lemma to_int_spec x : is_number x -> exists z, whole_part x z /\ f64_to_i64 x = clamp z.
Proof.
  intros (OK & F). pose proof one_pos as P. destruct x as [s|s| |s m e]; try contradiction F.
  - exists 0. split; [|reflexivity]. unfold whole_part, floor_of, ceiling_of. cbn [scaled]. lia.
  - destruct (ok_finite _ _ _ OK) as (R & _). cbn [f64_to_i64]. rewrite (int_part m e R). unfold whole_part, floor_of, ceiling_of. cbn [scaled].
    set (n := Zpos m * 2 ^ (e + 1074)). assert (N : 0 < n) by (unfold n; apply Z.mul_pos_pos; [lia|apply Z.pow_pos_nonneg; lia]).
    pose proof (div_bounds n one P). set (q := n / one) in *. exists (if s then - q else q). split; [destruct s; split; intros; nia|].
    unfold clamp. set (z := if s then - q else q). destruct (Z.ltb_spec z i64_min), (Z.ltb_spec i64_max z); unfold i64_min, i64_max in *; lia.
Qed.
Lemma to_int_exact x z : equals_int x z -> f64_to_i64 x = clamp z.
Proof.
  intros (N & E). destruct (to_int_spec x N) as (z' & (A & B) & ->). f_equal. pose proof one_pos. unfold floor_of, ceiling_of in *. rewrite E in *. nia.
Qed.

(** ** floor, ceil, round *)
Lemma small_mantissa s m e : f64_ok (S754_finite s m e) -> e < 0 -> 1 <= 2 ^ (- e) /\ 0 < Zpos m < 2 ^ 53 /\ 2 <= 2 ^ (- e).
Proof.
  intros OK L. destruct (ok_finite _ _ _ OK) as (_ & B & _). assert (2 ^ 1 <= 2 ^ (- e)) by (apply Z.pow_le_mono_r; lia). change (2 ^ 1) with 2 in *. lia.
Qed.
Section Integral.
Variable round : bool -> Z -> Z -> Z.
Variable good : Z -> Z -> Z -> Prop.
(** [round] answers a number that is right in all that matters: [good num den z]. *)
Hypothesis R1 : forall (s : bool) n d, 0 < n -> 2 <= d -> good (if s then - n else n) d (if s then - round s n d else round s n d).
Hypothesis R2 : forall (s : bool) n d, 0 < n < 2 ^ 53 -> 2 <= d -> 0 <= round s n d <= 2 ^ 53.
Hypothesis R3 : forall z, good (z * one)%Z one z.
Hypothesis R4 : forall n d k z, 0 < k -> good n d z -> good (k * n) (k * d) z.
Lemma integral_spec x : is_number x -> exists z, good (scaled x) one z /\ equals_int (f64_integral round x) z.
Proof.
  intros (OK & F). destruct x as [s|s| |s m e]; try contradiction F.
  - exists 0. split; [exact (R3 0)|]. split; [split; auto|reflexivity].
  - destruct (ok_finite _ _ _ OK) as (R & _). cbn [f64_integral]. destruct (Z.leb_spec 0 e) as [L|L].
    + exists (if s then - (Zpos m * 2 ^ e) else Zpos m * 2 ^ e).
      assert (E : scaled (S754_finite s m e) = (if s then - (Zpos m * 2 ^ e) else Zpos m * 2 ^ e) * one).
      { cbn [scaled]. rewrite pow_over by exact L. destruct s; lia. }
      split; [rewrite E; apply R3|]. split; [split; auto|exact E].
    + destruct (small_mantissa _ _ _ OK L) as (_ & B & D2).
      exists (if s then - round s (Zpos m) (2 ^ (- e)) else round s (Zpos m) (2 ^ (- e))). split; [|apply whole_exact; now apply R2].
      assert (K : 0 < 2 ^ (e + 1074)) by (apply Z.pow_pos_nonneg; lia).
      pose proof (R4 _ _ _ _ K (R1 s (Zpos m) (2 ^ (- e)) ltac:(lia) D2)) as G. rewrite <- one_split in G by lia. cbn [scaled].
      match type of G with good ?a _ _ => match goal with |- good ?b _ _ => replace b with a; [exact G|] end end. destruct s; lia.
Qed.
Lemma integral_other x : (match x with S754_zero _ | S754_finite _ _ _ => False | _ => True end) -> f64_integral round x = x.
Proof. destruct x; try contradiction; reflexivity. Qed.
End Integral.

Lemma up_if_bounds b n d : 0 < n -> 2 <= d -> 0 <= up_if b n d <= n /\ (if b then d * (up_if b n d - 1) < n <= d * up_if b n d else d * up_if b n d <= n < d * up_if b n d + d).
Proof.
  intros N D. unfold up_if. pose proof (div_bounds n d ltac:(lia)) as B. pose proof (Z_div_mod_eq_full n d) as E. pose proof (Z.mod_pos_bound n d ltac:(lia)) as M.
  assert (0 <= n / d) by (apply Z.div_pos; lia). destruct b; cbn [andb]; [|split; nia].
  destruct (Z.eqb_spec (n mod d) 0) as [Z0|Z0]; cbn [negb]; split; nia.
Qed.
Lemma floor_spec x : is_number x -> exists z, floor_of x z /\ equals_int (f64_floor x) z.
Proof.
  intros N. pose proof one_pos. refine (integral_spec up_if (fun n d z => z * d <= n < (z + 1) * d) _ _ _ _ x N).
  - intros s n d Hn Hd. destruct (up_if_bounds s n d Hn Hd) as [_ B]. destruct s; nia.
  - intros s n d Hn Hd. destruct (up_if_bounds s n d ltac:(lia) Hd) as [B _]. lia.
  - intros z. nia.
  - intros n d k z K G. nia.
Qed.
Lemma ceil_spec x : is_number x -> exists z, ceiling_of x z /\ equals_int (f64_ceil x) z.
Proof.
  intros N. pose proof one_pos. refine (integral_spec (fun s => up_if (negb s)) (fun n d z => (z - 1) * d < n <= z * d) _ _ _ _ x N).
  - intros s n d Hn Hd. destruct (up_if_bounds (negb s) n d Hn Hd) as [_ B]. destruct s; cbn [negb] in *; nia.
  - intros s n d Hn Hd. destruct (up_if_bounds (negb s) n d ltac:(lia) Hd) as [B _]. lia.
  - intros z. nia.
  - intros n d k z K G. nia.
Qed.
Lemma round_spec x : is_number x -> exists z, nearest_of x z /\ equals_int (f64_round x) z.
Proof.
  intros N. pose proof one_pos.
  refine (integral_spec (fun _ n d => (2 * n + d) / (2 * d))
    (fun n d z => (0 <= n -> (2 * z - 1) * d <= 2 * n < (2 * z + 1) * d) /\ (n <= 0 -> (2 * z - 1) * d < 2 * n <= (2 * z + 1) * d)) _ _ _ _ x N).
  - intros s n d Hn Hd. pose proof (div_bounds (2 * n + d) (2 * d) ltac:(lia)) as B. set (q := (2 * n + d) / (2 * d)) in *. destruct s; split; intros; nia.
  - intros s n d Hn Hd. pose proof (div_bounds (2 * n + d) (2 * d) ltac:(lia)) as B. set (q := (2 * n + d) / (2 * d)) in *. split; [apply Z.div_pos; lia|]. nia.
  - intros z. split; intros; nia.
  - intros n d k z K [A B]. split; intros H0.
    + destruct A as [A1 A2]; [nia|]. nia.
    + destruct B as [B1 B2]; [nia|]. nia.
Qed.
