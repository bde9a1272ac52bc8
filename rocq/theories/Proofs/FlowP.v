(** Short-circuit operators and [for] loops. *)
From Verif.Model Require Import Script.
From Verif.Spec Require Import FlowSpec.
From Verif.Proofs Require Import MonoP CompileP.
#[local] Open Scope string_scope.
#[local] Open Scope list_scope.
#[local] Open Scope nat_scope.

Theorem runs_agree w pg root bc below s room a : runnable w pg root bc below s room ->
  evaluates w pg (top_scene room 0) 0 root (MeaningSpec.start s) a -> agrees below (fun n => runtime_run w n bc s) a.
Proof.
  intros [A B C D] (N & fuel & H). unfold top_scene in H. rewrite Nat.sub_0_r in H. rewrite <- H. eapply script_meaning; eassumption.
Qed.

Section Eval.
Variables (w : world) (pg : program).

Lemma ev_more S k e m a fuel : evaluates w pg S k e m a -> exists n, fuel <= n /\ forall n', n <= n' -> i_eval (interpreter w pg n') S k e m = a.
Proof.
  intros (N & f & H). exists (Nat.max f fuel). split; [lia|]. intros n' Hn. eapply eval_fuel; [|exact H|exact N]. lia.
Qed.
Lemma cl_more room f args m a : calls w pg room f args m a -> exists n, forall n', n <= n' -> i_call (interpreter w pg n') room f args m = a.
Proof. intros (N & n & H). exists n. intros n' Hn. eapply call_fuel; [|exact H|exact N]. exact Hn. Qed.

(** ** && || ?? *)
Lemma abrupt_vbind a f : abrupt a -> vbind a f = a.
Proof. destruct a; cbn [abrupt]; intros []; reflexivity. Qed.
Lemma abrupt_known a : abrupt a -> a <> AUnknown.
Proof. destruct a; cbn [abrupt]; intros []; discriminate. Qed.
Lemma not_bool_logical v m f : not_bool v -> as_logical v m f = AFail TYPE_ASSERTION_BOOL_FAILURE m.
Proof. destruct v; cbn [not_bool]; intros []; reflexivity. Qed.

Lemma logical_eval (conj : bool) S k l r m L a : enough <= s_room S ->
  evaluates w pg (inner S) k l m L ->
  logical (negb conj) L (fun m1 x => evaluates w pg (inner S) (k + fns l) r m1 x) a ->
  evaluates w pg S k (EBinary (if conj then BLogicalAnd else BLogicalOr) l r) m a.
Proof.
  intros RM HL HG. destruct (ev_more _ _ _ _ _ 0 HL) as (n & _ & EL).
  assert (E : forall n', i_eval (interpreter w pg (Datatypes.S n')) S k (EBinary (if conj then BLogicalAnd else BLogicalOr) l r) m =
    binary_op w (interpreter w pg n') S k (if conj then BLogicalAnd else BLogicalOr) l r m).
  { intros n'. cbn [interpreter i_eval]. unfold eval. rewrite (proj2 (Nat.ltb_ge _ _) RM). destruct conj; reflexivity. }
  destruct HG as [m1 E1|m1 b m2 E1 E2|v m1 E1 NB|m1 v m2 E1 E2 NB|AB|m1 x E1 E2 AB]; subst.
  - split; [discriminate|]. exists (Datatypes.S n). rewrite E. destruct conj; cbn [binary_op negb]; rewrite EL by lia; reflexivity.
  - destruct (ev_more _ _ _ _ _ n E2) as (n2 & L2 & ER). split; [discriminate|]. exists (Datatypes.S n2). rewrite E.
    destruct conj; cbn [binary_op negb]; rewrite EL by lia; cbn [vbind as_logical negb]; rewrite ER by lia; reflexivity.
  - split; [discriminate|]. exists (Datatypes.S n). rewrite E.
    destruct conj; cbn [binary_op]; rewrite EL by lia; cbn [vbind]; now apply not_bool_logical.
  - destruct (ev_more _ _ _ _ _ n E2) as (n2 & L2 & ER). split; [discriminate|]. exists (Datatypes.S n2). rewrite E.
    destruct conj; cbn [binary_op negb]; rewrite EL by lia; cbn [vbind as_logical negb]; rewrite ER by lia; cbn [vbind]; now apply not_bool_logical.
  - split; [now apply abrupt_known|]. exists (Datatypes.S n). rewrite E. destruct conj; cbn [binary_op]; rewrite EL by lia; now apply abrupt_vbind.
  - destruct (ev_more _ _ _ _ _ n E2) as (n2 & L2 & ER). split; [now apply abrupt_known|]. exists (Datatypes.S n2). rewrite E.
    destruct conj; cbn [binary_op negb]; rewrite EL by lia; cbn [vbind as_logical negb]; rewrite ER by lia; now apply abrupt_vbind.
Qed.
Lemma coalesce_eval S k l r m L a : enough <= s_room S ->
  evaluates w pg (inner S) k l m L -> coalesced L (fun m1 x => evaluates w pg (inner S) (k + fns l) r m1 x) a ->
  evaluates w pg S k (EBinary BCoalesce l r) m a.
Proof.
  intros RM HL HG. destruct (ev_more _ _ _ _ _ 0 HL) as (n & _ & EL).
  assert (E : forall n', i_eval (interpreter w pg (Datatypes.S n')) S k (EBinary BCoalesce l r) m =
    binary_op w (interpreter w pg n') S k BCoalesce l r m).
  { intros n'. cbn [interpreter i_eval]. unfold eval. rewrite (proj2 (Nat.ltb_ge _ _) RM). reflexivity. }
  destruct HG as [v m1 E1 NN|m1 x E1 E2|AB]; subst.
  - split; [discriminate|]. exists (Datatypes.S n). rewrite E. cbn [binary_op]. rewrite EL by lia. cbn [vbind]. destruct v; try reflexivity. now destruct NN.
  - destruct (ev_more _ _ _ _ _ n E2) as (n2 & L2 & ER). split; [exact (proj1 E2)|]. exists (Datatypes.S n2). rewrite E. cbn [binary_op]. rewrite EL by lia. cbn [vbind]. apply ER. lia.
  - split; [now apply abrupt_known|]. exists (Datatypes.S n). rewrite E. cbn [binary_op]. rewrite EL by lia. now apply abrupt_vbind.
Qed.

(** ** for over a range *)
Definition in_range (inclusive : bool) (a b : Z) : bool := if inclusive then (a <=? b)%Z else (a <? b)%Z.

Lemma range_eval inclusive S k x body b : enough + 1 <= s_room S -> (b < i64_max)%Z ->
  forall n a m m', (i64_min <= a)%Z -> n = count inclusive a b ->
  counting (fun i m m1 => pass w pg (deep 1 S) k x body (VInt i) m m1 /\ kept (VInt i) m m1) a n m m' ->
  exists f, forall f', f <= f' -> i_range (interpreter w pg f') S k inclusive x body (VInt a) (VInt b) m = AVal VUnit m'.
Proof.
  intros RM HB. induction n as [|n IH]; intros a m m' HA HN HC.
  - inversion HC; subst. exists 1. intros f' Hf. destruct f' as [|f']; [lia|]. cbn [interpreter i_range]. unfold EvalSpec.range.
    rewrite (proj2 (Nat.ltb_ge _ _) RM). unfold count in HN.
    destruct inclusive; cbn [operate builtin_binary of_outcome vbind as_condition].
    + rewrite (proj2 (Z.leb_gt _ _)) by lia. reflexivity.
    + rewrite (proj2 (Z.ltb_ge _ _)) by lia. reflexivity.
  - inversion HC as [|? ? ? m1 ? ((r & HP) & HK) HC']; subst.
    assert (AB : (a <= b)%Z /\ in_range inclusive a b = true /\ n = count inclusive (a + 1) b).
    { unfold count, in_range in *. destruct inclusive; [split; [lia|]; split; [apply Z.leb_le; lia|lia]|split; [lia|]; split; [apply Z.ltb_lt; lia|lia]]. }
    destruct AB as (AB & IR & HN').
    destruct (IH (a + 1)%Z m1 m' ltac:(lia) HN' HC') as (f1 & E1).
    destruct (ev_more _ _ _ _ _ 0 HP) as (f2 & _ & E2).
    exists (Datatypes.S (Nat.max f1 f2)). intros f' Hf. destruct f' as [|f']; [lia|]. cbn [interpreter i_range]. unfold EvalSpec.range.
    rewrite (proj2 (Nat.ltb_ge _ _) RM).
    assert (C : operate w (interpreter w pg f') (s_room S - 1) (if inclusive then OpLessThanOrEqual else OpLessThan) (VInt a) (VInt b) m = AVal (VBool true) m).
    { unfold in_range in IR. destruct inclusive; cbn [operate builtin_binary of_outcome]; rewrite IR; reflexivity. }
    rewrite C. cbn [vbind as_condition alloc]. rewrite E2 by lia. unfold kept in HK. rewrite HK.
    assert (A : operate w (interpreter w pg f') (s_room S - 1) OpAdd (VInt a) (VInt 1) m1 = AVal (VInt (a + 1)) m1).
    { cbn [operate builtin_binary]. unfold int_result. assert (X : in_i64 (a + 1) = true) by (unfold in_i64; apply andb_true_iff; split; apply Z.leb_le; lia). rewrite X. reflexivity. }
    rewrite A. cbn [vbind]. apply E1. lia.
Qed.

Lemma for_range_eval inclusive S k x first last body m m1 m2 m3 a b : enough + 1 <= s_room S ->
  evaluates w pg (inner S) k last m (AVal (VInt b) m1) -> evaluates w pg (deep 1 S) (k + fns last) first m1 (AVal (VInt a) m2) ->
  (i64_min <= a)%Z -> (b < i64_max)%Z ->
  counting (fun i m m1 => pass w pg (deep 1 S) (k + fns last + fns first) x body (VInt i) m m1 /\ kept (VInt i) m m1) a (count inclusive a b) m2 m3 ->
  evaluates w pg S k (EFor x (EBinary (range_op inclusive) first last) body) m (AVal VUnit m3).
Proof.
  intros RM HL HF HA HB HC.
  destruct (ev_more _ _ _ _ _ 0 HL) as (f1 & _ & E1). destruct (ev_more _ _ _ _ _ 0 HF) as (f2 & _ & E2).
  destruct (range_eval inclusive (inner S) _ x body b RM HB _ a m2 m3 HA eq_refl HC) as (f3 & E3).
  split; [discriminate|]. exists (Datatypes.S (f1 + f2 + f3)). cbn [interpreter i_eval]. unfold eval.
  rewrite (proj2 (Nat.ltb_ge _ _)) by lia.
  destruct inclusive; cbn [range_op]; rewrite E1 by lia; cbn [vbind]; rewrite E2 by lia; cbn [vbind]; apply E3; lia.
Qed.

(** ** for over an iterator *)
Lemma iter_eval S k x body next : enough + 1 <= s_room S ->
  forall vs m m', draining (fun m r m1 => calls w pg (s_room S - 1) next [] m (AVal r m1)) (pass w pg (deep 1 S) k x body) vs m m' ->
  exists f, forall f', f <= f' -> i_iter (interpreter w pg f') S k x body next m = AVal VUnit m'.
Proof.
  intros RM vs m m' D. induction D as [m r m1 m2 HN (s & G & ->)|m r m1 m2 v m3 m4 vs m5 HN (s & G & ->) (s' & G' & ->) (y & HP) _ (f0 & IH)].
  - destruct (cl_more _ _ _ _ _ HN) as (f & E). exists (Datatypes.S f). intros f' Hf. destruct f' as [|f']; [lia|]. cbn [interpreter i_iter]. unfold EvalSpec.iter.
    rewrite (proj2 (Nat.ltb_ge _ _) RM). rewrite E by lia. cbn [vbind]. unfold with_vm. rewrite G. reflexivity.
  - destruct (cl_more _ _ _ _ _ HN) as (f & E). destruct (ev_more _ _ _ _ _ 0 HP) as (f2 & _ & E2).
    exists (Datatypes.S (f0 + f + f2)). intros f' Hf. destruct f' as [|f']; [lia|]. cbn [interpreter i_iter]. unfold EvalSpec.iter.
    rewrite (proj2 (Nat.ltb_ge _ _) RM). rewrite E by lia. cbn [vbind]. unfold with_vm. rewrite G. cbn [as_condition]. rewrite G'. cbn [alloc].
    rewrite E2 by lia. apply IH. lia.
Qed.
Lemma for_iter_eval S k x e body m v m1 f m2 it m3 next m4 vs m5 : enough + 1 <= s_room S -> is_range e = false ->
  evaluates w pg (inner S) k e m (AVal v m1) -> field_of v "iter" m1 f m2 ->
  calls w pg (s_room S) f [] m2 (AVal it m3) -> field_of it "next" m3 next m4 ->
  draining (fun m r m1 => calls w pg (s_room S - 1) next [] m (AVal r m1)) (pass w pg (deep 1 S) (k + fns e) x body) vs m4 m5 ->
  evaluates w pg S k (EFor x e body) m (AVal VUnit m5).
Proof.
  intros RM NR HE (s1 & G1 & ->) HC (s2 & G2 & ->) HD.
  destruct (ev_more _ _ _ _ _ 0 HE) as (f1 & _ & E1). destruct (cl_more _ _ _ _ _ HC) as (f2 & E2).
  destruct (iter_eval (inner S) _ x body next RM _ _ _ HD) as (f3 & E3).
  split; [discriminate|]. exists (Datatypes.S (f1 + f2 + f3)).
  assert (E : forall n, i_eval (interpreter w pg (Datatypes.S n)) S k (EFor x e body) m =
    vbind (i_eval (interpreter w pg n) (inner S) k e m) (fun v m1 =>
      with_vm (get_field "iter" v) m1 (fun f m2 =>
      vbind (i_call (interpreter w pg n) (s_room S) f [] m2) (fun it m3 =>
      with_vm (get_field "next" it) m3 (fun next m4 => i_iter (interpreter w pg n) (inner S) (k + fns e) x body next m4))))).
  { intros n. cbn [interpreter i_eval]. unfold eval. rewrite (proj2 (Nat.ltb_ge _ _)) by lia. destruct e; try reflexivity. destruct op; try reflexivity; discriminate NR. }
  rewrite E. rewrite E1 by lia. cbn [vbind]. unfold with_vm at 1. rewrite G1. rewrite E2 by lia. cbn [vbind]. unfold with_vm. rewrite G2. apply E3. lia.
Qed.
End Eval.

(** ** Scripts that are one expression *)
Definition plain (e : expr) : bool := match e with EVarDecl _ _ _ _ | EFnDecl _ _ _ _ | EOpDecl _ _ _ _ | EClassDecl _ _ _ | EImportDecl _ _ _ | EExportDecl _ => false | _ => true end.
Lemma script_eval w pg room e m a : enough <= room -> plain e = true -> evaluates w pg (top_scene room 0) 0 e m a ->
  evaluates w pg (top_scene room 0) 0 (script_of e) m a.
Proof.
  intros RM PL (N & fuel & H). split; [exact N|]. exists (Datatypes.S fuel).
  assert (E : i_eval (interpreter w pg (Datatypes.S fuel)) (top_scene room 0) 0 (script_of e) m =
    vbind (i_eval (interpreter w pg fuel) (top_scene room 0) 0 e m) (fun v m1 => AVal v m1)).
  { cbn [interpreter i_eval]. unfold eval, script_of. rewrite (proj2 (Nat.ltb_ge _ _)) by (cbn [s_room top_scene]; lia).
    unfold block. destruct e; try discriminate PL; reflexivity. }
  rewrite E, H. destruct a; reflexivity.
Qed.
Theorem expression_runs w pg e bc below s room a : runnable w pg (script_of e) bc below s room -> enough <= room -> plain e = true ->
  evaluates w pg (top_scene room 0) 0 e (MeaningSpec.start s) a -> agrees below (fun n => runtime_run w n bc s) a.
Proof. intros R RM PL H. eapply runs_agree; [exact R|]. now apply script_eval. Qed.

Theorem logical_runs w pg (conj : bool) l r bc below s room L a :
  runnable w pg (script_of (EBinary (if conj then BLogicalAnd else BLogicalOr) l r)) bc below s room -> enough <= room ->
  evaluates w pg (top_scene room 0) 0 l (MeaningSpec.start s) L ->
  logical (negb conj) L (fun m x => evaluates w pg (top_scene room 0) (fns l) r m x) a ->
  agrees below (fun n => runtime_run w n bc s) a.
Proof.
  intros R RM HL HG. eapply expression_runs; [exact R|exact RM|reflexivity|]. eapply logical_eval; [cbn [s_room top_scene]; lia|exact HL|exact HG].
Qed.
Theorem coalesce_runs w pg l r bc below s room L a :
  runnable w pg (script_of (EBinary BCoalesce l r)) bc below s room -> enough <= room ->
  evaluates w pg (top_scene room 0) 0 l (MeaningSpec.start s) L ->
  coalesced L (fun m x => evaluates w pg (top_scene room 0) (fns l) r m x) a ->
  agrees below (fun n => runtime_run w n bc s) a.
Proof.
  intros R RM HL HG. eapply expression_runs; [exact R|exact RM|reflexivity|]. eapply coalesce_eval; [cbn [s_room top_scene]; lia|exact HL|exact HG].
Qed.
Theorem range_runs w pg inclusive x first last body bc below s room a b m1 m2 m3 :
  runnable w pg (script_of (EFor x (EBinary (range_op inclusive) first last) body)) bc below s room -> enough + 1 <= room ->
  evaluates w pg (top_scene room 0) 0 last (MeaningSpec.start s) (AVal (VInt b) m1) ->
  evaluates w pg (top_scene room 1) (fns last) first m1 (AVal (VInt a) m2) ->
  (i64_min <= a)%Z -> (b < i64_max)%Z ->
  counting (fun i m m' => pass w pg (top_scene room 1) (fns last + fns first) x body (VInt i) m m' /\ kept (VInt i) m m') a (count inclusive a b) m2 m3 ->
  exists s', from (fun n => runtime_run w n bc s) (ROk VUnit s') /\ same_store (m_vm m3) s' /\ ready below s'.
Proof.
  intros R RM HL HF HA HB HC.
  assert (E1 : deep 1 (top_scene room 0) = top_scene room 1) by (unfold deep, top_scene; cbn [s_env s_fn s_room]; now rewrite Nat.sub_0_r).
  refine (expression_runs w pg _ bc below s room (AVal VUnit m3) R _ eq_refl _); [lia|].
  eapply for_range_eval; [cbn [s_room top_scene]; lia|exact HL|rewrite E1; exact HF|exact HA|exact HB|]. rewrite E1. exact HC.
Qed.
Theorem iterator_runs w pg x e body bc below s room v m1 f m2 it m3 next m4 vs m5 :
  runnable w pg (script_of (EFor x e body)) bc below s room -> enough + 1 <= room -> is_range e = false ->
  evaluates w pg (top_scene room 0) 0 e (MeaningSpec.start s) (AVal v m1) -> field_of v "iter" m1 f m2 ->
  calls w pg room f [] m2 (AVal it m3) -> field_of it "next" m3 next m4 ->
  draining (fun m r m' => calls w pg (room - 1) next [] m (AVal r m')) (pass w pg (top_scene room 1) (fns e) x body) vs m4 m5 ->
  exists s', from (fun n => runtime_run w n bc s) (ROk VUnit s') /\ same_store (m_vm m5) s' /\ ready below s'.
Proof.
  intros R RM NR HE HF HC HX HD.
  assert (E1 : deep 1 (top_scene room 0) = top_scene room 1) by (unfold deep, top_scene; cbn [s_env s_fn s_room]; now rewrite Nat.sub_0_r).
  refine (expression_runs w pg _ bc below s room (AVal VUnit m5) R _ eq_refl _); [lia|].
  eapply for_iter_eval; [cbn [s_room top_scene]; lia|exact NR|exact HE|exact HF| |exact HX|].
  - cbn [s_room top_scene]. rewrite Nat.sub_0_r. exact HC.
  - cbn [s_room top_scene]. rewrite Nat.sub_0_r, E1. exact HD.
Qed.
Lemma short_circuits_anywhere w pg S k l r m L a : enough <= s_room S -> evaluates w pg (inner S) k l m L ->
  (logical false L (fun m x => evaluates w pg (inner S) (k + fns l) r m x) a -> evaluates w pg S k (EBinary BLogicalAnd l r) m a) /\
  (logical true L (fun m x => evaluates w pg (inner S) (k + fns l) r m x) a -> evaluates w pg S k (EBinary BLogicalOr l r) m a) /\
  (coalesced L (fun m x => evaluates w pg (inner S) (k + fns l) r m x) a -> evaluates w pg S k (EBinary BCoalesce l r) m a).
Proof.
  intros RM HL. split; [|split]; intros HG.
  - exact (logical_eval w pg true S k l r m L a RM HL HG).
  - exact (logical_eval w pg false S k l r m L a RM HL HG).
  - exact (coalesce_eval w pg S k l r m L a RM HL HG).
Qed.
Lemma meaning_stable w pg room root s n n' :
  n <= n' -> meaning w pg n room root s <> AUnknown -> meaning w pg n' room root s = meaning w pg n room root s.
Proof. intros L N. unfold meaning in *. eapply eval_fuel; [exact L|reflexivity|exact N]. Qed.
Lemma from_ext {A} (r r' : nat -> res A) x : (forall n, r n = r' n) -> from r x -> from r' x.
Proof. intros E (n0 & H). exists n0. intros n Hn. rewrite <- E. now apply H. Qed.
Lemma agrees_ext below r r' a : (forall n, r n = r' n) -> agrees below r a -> agrees below r' a.
Proof.
  intros E. destruct a; cbn [agrees]; auto; try (intros (s' & H & R); exists s'; split; [now apply (from_ext r)|exact R]). now apply from_ext.
Qed.
Lemma text_meaning w pg text root bc below s fuel room : parse text = Ok root -> runnable w pg root bc below s room ->
  agrees below (fun n => dice_run_script w n text s) (meaning w pg fuel room root s).
Proof.
  intros HP [A B C D]. eapply agrees_ext; [|eapply script_meaning; eassumption]. intros n. unfold dice_run_script, compile_source. rewrite HP. cbn [obind]. rewrite (lk_code _ _ _ _ A). reflexivity.
Qed.
