(** Functions of the runtime: methods of Int, Float, Any and Class. *)
From Verif.Model Require Import Text.
From Verif.Spec Require Import HostSpec.
From Verif.Proofs Require Import VmPrimP StackP CallP ArithP CompareP ClassP ArrayMethodP HostFnP FloatP TextP.
#[local] Open Scope list_scope.
#[local] Open Scope Z_scope.

(** ** Int *)
Lemma i64_in z : in_i64 z = true <-> i64 z.
Proof. rewrite in_i64_spec. unfold i64, i64_min, i64_max. lia. Qed.
Lemma by_result w n this args s z :
  (forall r below temps, call_native w r n (this :: args) (with_stack below temps s) =
     match int_result (w_dbg w) z with Ok x => ROk (VInt x) (with_stack below temps s) | _ => RPanic end) ->
  computes w n this args s z.
Proof.
  intros H. unfold int_result in H. split; [|split].
  - intros R. apply by_reply. intros r below temps. rewrite H. apply i64_in in R. now rewrite R.
  - intros R D. apply by_panic. intros r below temps. rewrite H. destruct (in_i64 z) eqn:E; [apply i64_in in E; contradiction|]. now rewrite D.
  - intros R D. exists (i64_wrap z). destruct (in_i64 z) eqn:E; [apply i64_in in E; contradiction|].
    pose proof (i64_wrap_spec z) as W. split; [apply W|split; [apply W|]]. apply by_reply. intros r below temps. now rewrite H, D.
Qed.
Lemma int_abs w z s : computes w NIntAbs (VInt z) [] s (Z.abs z).
Proof.
  apply by_result. intros r below temps. cbn [call_native]. unfold rbind, lift. destruct (int_result (w_dbg w) (Z.abs z)) eqn:E; try reflexivity; unfold int_result in E; destruct (in_i64 _), (w_dbg w); discriminate.
Qed.
Lemma int_power w z e s : computes w NIntPow (VInt z) [VInt e] s (z ^ (e mod 2 ^ 32)).
Proof.
  apply by_result. intros r below temps. cbn [call_native]. unfold rbind, lift, int_pow. destruct (int_result (w_dbg w) (z ^ (e mod 2 ^ 32))) eqn:E; try reflexivity; unfold int_result in E; destruct (in_i64 _), (w_dbg w); discriminate.
Qed.
Lemma int_power_small w z e s : 0 <= e < 2 ^ 32 -> computes w NIntPow (VInt z) [VInt e] s (z ^ e).
Proof. intros R. pose proof (int_power w z e s) as H. now rewrite Z.mod_small in H. Qed.
Lemma int_power_negative w z e s : - 2 ^ 32 <= e < 0 -> computes w NIntPow (VInt z) [VInt e] s (z ^ (2 ^ 32 + e)).
Proof. intros R. pose proof (int_power w z e s) as H. replace (e mod 2 ^ 32) with (2 ^ 32 + e) in H; [exact H|]. apply (Z.mod_unique_pos _ _ (-1)); lia. Qed.
Lemma int_order w a b s :
  replies w NIntMin (VInt a) [VInt b] s (VInt (Z.min a b)) /\ replies w NIntMax (VInt a) [VInt b] s (VInt (Z.max a b)).
Proof. split; apply by_reply; reflexivity. Qed.
Lemma int_signs w a s : exists p n, replies w NIntIsPositive (VInt a) [] s (VBool p) /\ replies w NIntIsNegative (VInt a) [] s (VBool n) /\
  (p = true <-> 0 < a) /\ (n = true <-> a < 0).
Proof. exists (0 <? a), (a <? 0). split; [apply by_reply; reflexivity|]. split; [apply by_reply; reflexivity|]. split; apply Z.ltb_lt. Qed.

(** ** Conversions between Int and Float *)
Lemma float_to_int w x s : is_number x -> exists z, whole_part x z /\ converts w NIntNew (VFloat x) s (VInt (clamp z)).
Proof. intros N. destruct (to_int_spec x N) as (z & W & E). exists z. split; [exact W|]. apply by_convert. intros. apply by_reply. intros. cbn [call_native]. now rewrite E. Qed.
Lemma other_to_int w s : converts w NIntNew (VFloat S754_nan) s (VInt 0) /\
  converts w NIntNew (VFloat (S754_infinity false)) s (VInt (2 ^ 63 - 1)) /\ converts w NIntNew (VFloat (S754_infinity true)) s (VInt (- 2 ^ 63)).
Proof. split; [|split]; apply by_convert; intros; apply by_reply; reflexivity. Qed.
Lemma int_to_float w z s : Z.abs z <= 2 ^ 53 -> exists x, equals_int x z /\ converts w NFloatNew (VInt z) s (VFloat x).
Proof. intros R. exists (f64_of_i64 z). split; [now apply float_of_int|]. apply by_convert. intros. apply by_reply. reflexivity. Qed.
Lemma int_float_int w z s s' : Z.abs z <= 2 ^ 53 -> exists x, converts w NFloatNew (VInt z) s (VFloat x) /\ converts w NIntNew (VFloat x) s' (VInt z).
Proof.
  intros R. exists (f64_of_i64 z). split; [apply by_convert; intros; apply by_reply; reflexivity|]. apply by_convert. intros. apply by_reply. intros. cbn [call_native].
  rewrite (to_int_exact _ z (float_of_int z R)). replace (clamp z) with z; [reflexivity|]. unfold clamp, i64_min, i64_max. lia.
Qed.
Lemma int_float_int_lost w s s' : exists x, converts w NFloatNew (VInt (2 ^ 53 + 1)) s (VFloat x) /\ converts w NIntNew (VFloat x) s' (VInt (2 ^ 53)).
Proof. exists (f64_of_i64 (2 ^ 53 + 1)). split; apply by_convert; intros; apply by_reply; reflexivity. Qed.

(** ** Float *)
Lemma float_floor w x s : is_number x -> exists y z, replies w (NFloatFn FFloor) (VFloat x) [] s (VFloat y) /\ floor_of x z /\ equals_int y z.
Proof. intros N. destruct (floor_spec x N) as (z & F & E). exists (f64_floor x), z. split; [apply by_reply; reflexivity|auto]. Qed.
Lemma float_ceil w x s : is_number x -> exists y z, replies w (NFloatFn FCeil) (VFloat x) [] s (VFloat y) /\ ceiling_of x z /\ equals_int y z.
Proof. intros N. destruct (ceil_spec x N) as (z & F & E). exists (f64_ceil x), z. split; [apply by_reply; reflexivity|auto]. Qed.
Lemma float_round w x s : is_number x -> exists y z, replies w (NFloatFn FRound) (VFloat x) [] s (VFloat y) /\ nearest_of x z /\ equals_int y z.
Proof. intros N. destruct (round_spec x N) as (z & F & E). exists (f64_round x), z. split; [apply by_reply; reflexivity|auto]. Qed.
Lemma float_round_other w x s f : In f [FFloor; FCeil; FRound] -> match x with S754_nan | S754_infinity _ => True | _ => False end ->
  replies w (NFloatFn f) (VFloat x) [] s (VFloat x).
Proof. intros I N. apply by_reply. intros r below temps. destruct x; try contradiction; destruct I as [<-|[<-|[<-|[]]]]; reflexivity. Qed.
Lemma float_abs w x s : f64_ok x -> exists y, replies w (NFloatFn FAbs) (VFloat x) [] s (VFloat y) /\ f64_ok y /\
  (is_number x -> is_number y /\ scaled y = Z.abs (scaled x)) /\ (x = S754_nan -> y = S754_nan) /\ (forall b, x = S754_infinity b -> y = S754_infinity false).
Proof.
  intros OK. exists (SFabs x). split; [apply by_reply; reflexivity|]. assert (O : f64_ok (SFabs x)) by (destruct x; exact OK || reflexivity).
  split; [exact O|]. split; [|split].
  - intros (_ & N). destruct x as [b|b| |b m e]; try contradiction; cbn [SFabs].
    + split; [split; auto|reflexivity].
    + split; [split; [exact O|exact N]|]. cbn [scaled]. destruct (ok_finite _ _ _ OK) as (R & _). pose proof (scaled_pos m e R). destruct b; lia.
  - now intros ->.
  - now intros b ->.
Qed.
Lemma ltb_spec x y : f64_ok x -> f64_ok y -> f64_ltb x y = true <-> ieee_lt x y.
Proof.
  intros Hx Hy. pose proof (SFcompare_spec x y Hx Hy) as C. unfold f64_ltb, SFltb. destruct (SFcompare x y) as [[]|]; split; intros H; try discriminate; try reflexivity; tauto.
Qed.
Lemma float_min w x y s : f64_ok x -> f64_ok y -> exists z, replies w (NFloatFn FMin) (VFloat x) [VFloat y] s (VFloat z) /\
  (x = S754_nan -> z = y) /\ (y = S754_nan -> z = x) /\ (z = x \/ z = y) /\ ~ ieee_lt x z /\ ~ ieee_lt y z.
Proof.
  intros Hx Hy. exists (f64_min x y). split; [apply by_reply; reflexivity|]. pose proof (nan_unordered x) as (N1 & _ & N2). pose proof (nan_unordered y) as (N3 & _ & N4).
  assert (IR : forall a, ~ ieee_lt a a) by (intros a; destruct a as [[]|[]| |[] m e]; cbn [ieee_lt]; (tauto || lia || intros ?; discriminate)).
  assert (AS : ieee_lt x y -> ~ ieee_lt y x) by (pose proof (SFcompare_spec x y Hx Hy) as C; destruct (SFcompare x y) as [[]|]; tauto).
  pose proof (ltb_spec y x Hy Hx) as L. unfold f64_min.
  assert (G : let z := if f64_ltb y x then y else x in (z = x \/ z = y) /\ ~ ieee_lt x z /\ ~ ieee_lt y z).
  { destruct (f64_ltb y x); cbn zeta; [assert (T := proj1 L eq_refl)|assert (T : ~ ieee_lt y x) by (intros T; apply L in T; discriminate)]; (split; [auto|]; split; first [apply IR|tauto]). }
  cbn zeta in G. destruct x, y; try (repeat split; try discriminate; now auto);
    try (destruct G as (G1 & G2 & G3); repeat split; try discriminate; assumption).
Qed.
Lemma float_max w x y s : f64_ok x -> f64_ok y -> exists z, replies w (NFloatFn FMax) (VFloat x) [VFloat y] s (VFloat z) /\
  (x = S754_nan -> z = y) /\ (y = S754_nan -> z = x) /\ (z = x \/ z = y) /\ ~ ieee_lt z x /\ ~ ieee_lt z y.
Proof.
  intros Hx Hy. exists (f64_max x y). split; [apply by_reply; reflexivity|]. pose proof (nan_unordered x) as (N1 & _ & N2). pose proof (nan_unordered y) as (N3 & _ & N4).
  assert (IR : forall a, ~ ieee_lt a a) by (intros a; destruct a as [[]|[]| |[] m e]; cbn [ieee_lt]; (tauto || lia || intros ?; discriminate)).
  assert (AS : ieee_lt x y -> ~ ieee_lt y x) by (pose proof (SFcompare_spec x y Hx Hy) as C; destruct (SFcompare x y) as [[]|]; tauto).
  pose proof (ltb_spec x y Hx Hy) as L. unfold f64_max.
  assert (G : let z := if f64_ltb x y then y else x in (z = x \/ z = y) /\ ~ ieee_lt z x /\ ~ ieee_lt z y).
  { destruct (f64_ltb x y); cbn zeta; [assert (T := proj1 L eq_refl)|assert (T : ~ ieee_lt x y) by (intros T; apply L in T; discriminate)]; (split; [auto|]; split; first [apply IR|tauto]). }
  cbn zeta in G. destruct x, y; try (repeat split; try discriminate; now auto);
    try (destruct G as (G1 & G2 & G3); repeat split; try discriminate; assumption).
Qed.
Lemma float_kinds w x s : f64_ok x -> exists finite infinite nan normal,
  replies w (NFloatFn FIsFinite) (VFloat x) [] s (VBool finite) /\ replies w (NFloatFn FIsInfinite) (VFloat x) [] s (VBool infinite) /\
  replies w (NFloatFn FIsNan) (VFloat x) [] s (VBool nan) /\ replies w (NFloatFn FIsNormal) (VFloat x) [] s (VBool normal) /\
  (finite = true <-> is_number x) /\ (infinite = true <-> exists b, x = S754_infinity b) /\ (nan = true <-> x = S754_nan) /\
  (normal = true <-> is_number x /\ 2 ^ 52 <= Z.abs (scaled x)).
Proof.
  intros OK. do 4 eexists. do 4 (split; [apply by_reply; reflexivity|]). unfold is_number. split; [|split; [|split]].
  - destruct x; split; intros H; try discriminate; try reflexivity; try (split; auto; fail); destruct H as [_ []].
  - destruct x; split; intros H; try discriminate; try reflexivity; eauto; destruct H; discriminate.
  - destruct x; split; intros H; try discriminate; reflexivity.
  - destruct x as [b|b| |b m e]; cbn [f64_is_normal scaled]; try (split; intros H; [discriminate|]; destruct H as [[_ H] H2]; try contradiction; lia).
    destruct (ok_finite _ _ _ OK) as (R & B & S). pose proof (digits_bounds m) as D. pose proof (scaled_pos m e R) as SP. rewrite Z.eqb_eq. unfold prec64. 
    assert (AB : Z.abs ((if b then -1 else 1) * Zpos m * 2 ^ (e + 1074)) = Zpos m * 2 ^ (e + 1074)) by (destruct b; lia). rewrite AB. split.
    + intros E. rewrite E in D. change (53 - 1) with 52 in D. split; [split; auto|]. assert (1 <= 2 ^ (e + 1074)) by (assert (0 < 2 ^ (e + 1074)) by (apply Z.pow_pos_nonneg; lia); lia). nia.
    + intros (_ & L). destruct (Z.lt_trichotomy (Zpos (digits2_pos m)) 53) as [Q|[Q|Q]]; [|exact Q|].
      * assert (Zpos m < 2 ^ 52) by (assert (2 ^ Zpos (digits2_pos m) <= 2 ^ 52) by (apply Z.pow_le_mono_r; lia); lia).
        destruct S as [->|S]; [|lia]. change (2 ^ (-1074 + 1074)) with 1 in L. lia.
      * assert (2 ^ 53 <= 2 ^ (Zpos (digits2_pos m) - 1)) by (apply Z.pow_le_mono_r; lia). lia.
Qed.

(** ** Reflection *)
Lemma class_of_ws v below temps s : class_of_value v (with_stack below temps s) =
  match class_of_value v s with ROk c _ => ROk c (with_stack below temps s) | RErr e _ => RErr e (with_stack below temps s) | RPanic => RPanic | RNoFuel => RNoFuel end.
Proof. unfold class_of_value. rewrite ws_heap. change (vm_kinds (with_stack below temps s)) with (vm_kinds s). destruct (as_object v (vm_heap s)); try reflexivity. now destruct (object_class _ _) as [[]| | |]. Qed.
Lemma class_found s v c : state_inv s -> live (vm_heap s) v -> class_or_any s v c ->
  exists oc, class_of_value v s = ROk oc s /\ match oc with Some c => c | None => vm_any s end = c.
Proof.
  intros R L H. destruct (class_of_value_spec s v R L) as (oc & E & K). exists oc. split; [exact E|]. destruct H as [H|[H ->]].
  - apply K in H. now subst oc.
  - destruct oc as [d|]; [|reflexivity]. exfalso. apply (H d). now apply K.
Qed.
Lemma class_reply w v c s : reachable w s -> live (vm_heap s) v -> class_or_any s v c -> replies w NClassOf v [] s (VClass c).
Proof.
  intros R L H. destruct (class_found s v c (reachable_state w s R) L H) as (oc & E & <-). apply by_reply. intros r below temps. cbn [call_native]. unfold rbind.
  rewrite class_of_ws, E. reflexivity.
Qed.
Lemma assoc_names {A} name (m : list (string * A)) : In name (map fst m) <-> assoc_get name m <> None.
Proof.
  induction m as [|[k v] m IH]; cbn [map fst assoc_get In]; [tauto|]. destruct (String.eqb_spec name k) as [->|N].
  - split; [intros _; discriminate|auto].
  - rewrite <- IH. intuition congruence.
Qed.
Lemma by_list w n v s m (names : string -> Prop) : (forall x, names x <-> assoc_get x m <> None) ->
  (forall r below temps, call_native w r n [v] (with_stack below temps s) = new_array (map (fun kv => VString (fst kv)) (m : value_map)) (with_stack below temps s)) ->
  lists w n v s names.
Proof.
  intros K H. exists (map fst m). split; [intros x; rewrite K; apply assoc_names|]. intros k below temps F. rewrite map_map.
  destruct (new_array_ok below temps (map (fun kv => VString (fst kv)) m) s) as (a & s' & E & N). exists a, s'. split; [|exact N].
  apply call_answers; [exact F|]. now rewrite H.
Qed.
Lemma fields_listed w v o s : reachable w s -> live (vm_heap s) v -> carrier (vm_heap s) v = Some o ->
  lists w NFields v s (fun x => own_field (vm_heap s) v x <> None).
Proof.
  intros R L C. pose proof (reachable_inv w s R) as I. unfold own_field. rewrite C.
  assert (X : exists ob m, nth_error (h_objects (vm_heap s)) o = Some ob /\ nth_error (h_fields (vm_heap s)) (ob_fields ob) = Some m).
  { assert (Y : exists ob, nth_error (h_objects (vm_heap s)) o = Some ob).
    { unfold carrier in C. destruct v; try discriminate C.
      - destruct (nth_error (h_arrays (vm_heap s)) addr) as [ar|] eqn:E; [|discriminate C]. injection C as <-. destruct (hi_array_object _ I _ _ E) as (ob & Ho & _). eauto.
      - injection C as <-. cbn [live] in L. destruct L as (ob & Ho & _). eauto.
      - destruct (nth_error (h_classes (vm_heap s)) addr) as [k|] eqn:E; [|discriminate C]. injection C as <-. destruct (hi_class_object _ I _ _ E) as (ob & Ho & _). eauto. }
    destruct Y as (ob & Ho). exists ob. destruct (nth_error (h_fields (vm_heap s)) (ob_fields ob)) as [m|] eqn:E; [eauto|]. apply nth_error_None in E. pose proof (hi_fields _ I _ _ Ho). lia. }
  destruct X as (ob & m & E1 & E2). unfold field. rewrite E1, E2. apply (by_list w NFields v s m); [tauto|].
  intros r below temps. unfold carrier in C. destruct v; try discriminate; cbn [call_native]; unfold rbind, heap_get; rewrite !ws_heap; cbn [as_object].
  - destruct (nth_error (h_arrays (vm_heap s)) addr) as [ar|]; [|discriminate C]. injection C as <-. unfold lift. cbv beta iota. rewrite ?ws_heap. unfold object_map. now rewrite E1, E2.
  - injection C as <-. unfold lift. cbv beta iota. rewrite ?ws_heap. unfold object_map. now rewrite E1, E2.
  - destruct (nth_error (h_classes (vm_heap s)) addr) as [k|]; [|discriminate C]. injection C as <-. unfold lift. cbv beta iota. rewrite ?ws_heap. unfold object_map. now rewrite E1, E2.
Qed.
Lemma no_fields_listed w v s : carrier (vm_heap s) v = None -> match v with VArray _ | VClass _ => False | _ => True end -> replies w NFields v [] s VNull.
Proof. intros C N. apply by_reply. intros r below temps. destruct v; try contradiction; try reflexivity. discriminate C. Qed.
Lemma methods_listed w v c s : reachable w s -> live (vm_heap s) v -> class_or_any s v c ->
  lists w NMethods v s (fun x => method (vm_heap s) c x <> None).
Proof.
  intros R L H. pose proof (reachable_state w s R) as I. destruct (class_found s v c I L H) as (oc & E & C).
  assert (X : exists k, nth_error (h_classes (vm_heap s)) c = Some k).
  { destruct (nth_error (h_classes (vm_heap s)) c) as [k|] eqn:K; [eauto|]. apply nth_error_None in K. exfalso. destruct H as [H|[_ ->]].
    - pose proof (has_class_exists s v c I L H). lia.
    - destruct I as (_ & _ & (_ & I & _)). lia. }
  destruct X as (k & K). unfold method. rewrite K. apply (by_list w NMethods v s (cl_methods k)); [tauto|].
  intros r below temps. cbn [call_native]. unfold rbind at 1. rewrite class_of_ws, E. unfold rbind, lift, class_get. rewrite ws_heap.
  change (vm_any (with_stack below temps s)) with (vm_any s). rewrite C, K. reflexivity.
Qed.
Lemma class_facts w c k s : nth_error (h_classes (vm_heap s)) c = Some k ->
  replies w NClassName (VClass c) [] s (VString (cl_name k)) /\
  replies w NClassBase (VClass c) [] s (match base_of (vm_heap s) c with Some b => VClass b | None => VNull end).
Proof.
  intros K. unfold base_of. rewrite K. split; apply by_reply; intros r below temps; cbn [call_native]; unfold rbind, heap_get, class_get; rewrite ws_heap, K; reflexivity.
Qed.
