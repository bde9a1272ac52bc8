(** The compiler leaves the code of every supported expression. *)
From Verif.Model Require Import Compiler Assembler.
From Verif.Spec Require Import Encoding SupportSpec.
From Verif.Proofs Require Import ExprInd ReachP CodeP CodecP AssemblerP PoolP WellFormedP WellFormedPrimP CaptureP StackP EmitP VisitMonoP FitsP JumpsP ScopesP DeclsP FnCodeP BodyCodeP.
#[local] Open Scope string_scope.
#[local] Open Scope list_scope.
#[local] Open Scope nat_scope.

(** What the place promises about variables left by a jump out of [e]. *)
Definition kept (P : place) (e : expr) (vs : vars) (lo : option loopinfo) : Prop :=
  (pl_exact P = true -> returns e = true -> unflagged vs /\ incl (captures e) (pl_kept P)) /\
  (pl_exit P = true -> breaks e = true -> (forall l, lo = Some l -> unflagged (firstn (List.length vs - lp_vars l) vs)) /\ incl (captures e) (pl_kept P)).
Lemma kept_none P e vs lo : pl_exact P = false -> pl_exit P = false -> kept P e vs lo.
Proof. intros H1 H2. split; rewrite ?H1, ?H2; discriminate. Qed.
Lemma kept_sub P Q e e' vs lo : (pl_exact Q = true -> pl_exact P = true) -> (pl_exit Q = true -> pl_exit P = true) -> pl_kept Q = pl_kept P ->
  (returns e' = true -> returns e = true) -> (breaks e' = true -> breaks e = true) -> incl (captures e') (captures e) -> kept P e vs lo -> kept Q e' vs lo.
Proof.
  intros H1 H2 H3 H4 H5 H6 (K1 & K2). split; intros A B; rewrite H3.
  - destruct (K1 (H1 A) (H4 B)) as (X & Y). split; [exact X|]. eapply incl_tran; eauto.
  - destruct (K2 (H2 A) (H5 B)) as (X & Y). split; [exact X|]. eapply incl_tran; eauto.
Qed.
Lemma unflagged_skip d vs : unflagged vs -> unflagged (skipn d vs).
Proof. unfold unflagged. intros H. rewrite <- (firstn_skipn d vs) in H. apply Forall_app in H. tauto. Qed.
Lemma kept_skip P e vs lo d : kept P e vs lo -> kept P e (skipn d vs) lo.
Proof.
  intros (K1 & K2). split; intros A B.
  - destruct (K1 A B) as (X & Y). split; [apply unflagged_skip; exact X|exact Y].
  - destruct (K2 A B) as (X & Y). split; [|exact Y]. intros l El. specialize (X l El). apply (unflagged_skip d) in X. rewrite skipn_firstn_comm in X. rewrite skipn_length.
    replace (List.length vs - d - lp_vars l) with (List.length vs - lp_vars l - d) by lia. exact X.
Qed.
Lemma fresh_in xs kept x : fresh_names xs kept = true -> In x xs -> In x kept -> False.
Proof.
  unfold fresh_names. rewrite forallb_forall. intros H H1 H2. specialize (H x H1). apply negb_true_iff in H. unfold mem in H.
  assert (existsb (String.eqb x) kept = true); [|congruence]. apply existsb_exists. exists x. split; [exact H2|apply String.eqb_refl].
Qed.
(** More variables, none of them both new and captured. *)
Lemma kept_more P e vs' vs lo : (forall x, In (x, true) vs' -> In x (captures e)) -> fresh_names (map fst vs') (pl_kept P) = true -> kept P e vs lo -> kept P e (vs' ++ vs) lo.
Proof.
  intros HF HN (K1 & K2). assert (U : incl (captures e) (pl_kept P) -> unflagged vs').
  { intros I. apply Forall_forall. intros [x [|]] Hx; [|reflexivity]. exfalso. eapply (fresh_in _ _ x); [exact HN|apply (in_map fst) in Hx; exact Hx|]. apply I. apply HF. exact Hx. }
  split; intros A B.
  - destruct (K1 A B) as (X & Y). split; [|exact Y]. apply Forall_app. split; [exact (U Y)|exact X].
  - destruct (K2 A B) as (X & Y). split; [|exact Y]. intros l El. specialize (X l El). rewrite app_length, firstn_app. apply Forall_app. split.
    + specialize (U Y). unfold unflagged in *. rewrite <- (firstn_skipn (List.length vs' + List.length vs - lp_vars l) vs') in U. apply Forall_app in U. tauto.
    + replace (List.length vs' + List.length vs - lp_vars l - List.length vs') with (List.length vs - lp_vars l) by lia. exact X.
Qed.

(** A block declares what its statements declare. *)
Lemma adds_declared : forall e x, In x (adds e) -> In x (declared e).
Proof.
  fix IH 1. intros e x. destruct e; try exact (IH e x); cbn; try contradiction.
  - destruct kind; cbn; [auto|]. intros H. apply in_rev. exact H.
  - rewrite !in_app_iff, <- in_rev. auto.
Qed.
Lemma hoisted_declared : forall e x, In x (hoisted_name e) -> In x (declared e).
Proof. fix IH 1. intros e x. destruct e; try exact (IH e x); cbn; try contradiction; auto. Qed.
Lemma block_names_in es t x : In x (block_names es t) -> exists e, In e (statements es t) /\ In x (declared e).
Proof.
  unfold block_names, adds_all, hoisted. rewrite in_app_iff, <- in_rev, !in_flat_map. intros [(e & H1 & H2)|(e & H1 & H2)]; exists e.
  - rewrite in_rev. split; [exact H1|apply adds_declared; exact H2].
  - split; [exact H1|apply hoisted_declared; exact H2].
Qed.
Lemma supported_declared : forall e P, supported P e = true -> fresh_names (declared e) (pl_kept P) = true.
Proof.
  fix IH 1. intros e P. destruct e; try reflexivity.
  - cbn [supported]. destruct kind; intros H; apply andb_prop in H; destruct H as (H & _); apply andb_prop in H; apply H.
  - cbn [supported]. intros H. apply andb_prop in H. destruct H as (H & _). apply andb_prop in H. destruct H as (H & _). apply andb_prop in H. apply H.
  - cbn [supported]. intros H. apply andb_prop in H. destruct H as (H & _). apply andb_prop in H. destruct H as (H & _). apply andb_prop in H. apply H.
  - cbn [supported]. intros H. apply andb_prop in H. apply H.
  - cbn [supported declared]. intros H. apply andb_prop in H. destruct H as (_ & H). destruct (exported e); [|discriminate]. exact (IH e _ H).
Qed.
Lemma fresh_block P es t : (forall e, In e (statements es t) -> supported P e = true) -> fresh_names (block_names es t) (pl_kept P) = true.
Proof.
  intros H. apply forallb_forall. intros x Hx. destruct (block_names_in _ _ _ Hx) as (e & H1 & H2). pose proof (supported_declared _ _ (H e H1)) as F. unfold fresh_names in F. rewrite forallb_forall in F. exact (F x H2).
Qed.
Lemma statement_returns es t e : In e (statements es t) -> returns e = true -> returns (EBlock es t) = true.
Proof.
  unfold statements. rewrite in_app_iff. cbn [returns]. intros [H|H] E; apply orb_true_iff; [left; apply existsb_exists; eauto|]. right. destruct t; [|destruct H]. destruct H as [<-|[]]. exact E.
Qed.
Lemma statement_breaks es t e : In e (statements es t) -> breaks e = true -> breaks (EBlock es t) = true.
Proof.
  unfold statements. rewrite in_app_iff. cbn [breaks]. intros [H|H] E; apply orb_true_iff; [left; apply existsb_exists; eauto|]. right. destruct t; [|destruct H]. destruct H as [<-|[]]. exact E.
Qed.
Lemma statement_captures es t e : In e (statements es t) -> incl (captures e) (captures (EBlock es t)).
Proof. intros H x Hx. rewrite <- statements_captures. apply in_flat_map. eauto. Qed.
Lemma kept_block P es t vs lo vs' : (forall e, In e (statements es t) -> supported (stmt_of P) e = true) -> kept P (EBlock es t) vs lo ->
  map fst vs' = block_names es t -> (forall x, In (x, true) vs' -> In x (captures (EBlock es t))) -> all_kept (kept (stmt_of P)) (statements es t) (vs' ++ vs) lo.
Proof.
  intros HS HK V1 V2 e d He. apply kept_skip. eapply (kept_sub P (stmt_of P) (EBlock es t)); auto.
  - apply statement_returns. exact He.
  - apply statement_breaks. exact He.
  - apply statement_captures. exact He.
  - apply kept_more; [exact V2| |exact HK]. rewrite V1. exact (fresh_block (stmt_of P) es t HS).
Qed.

Section VisitCode.
Variable lit : nat -> fn_bytecode.
Local Notation fits := (fits lit).
Local Notation ED := (ED lit).
Local Notation EE := (EE lit).
Local Notation code := (code lit).

Definition code_at (e : expr) : Prop :=
  (forall P, supported P e = true -> pl_stmt P = false -> EE P (captures e) (fns e) (visit e) (fun G k _ p q => kept P e (g_vars G) (g_loop G) -> code G k e p q)) /\
  (forall P, supported P e = true -> pl_stmt P = true -> pl_chain P = Fresh -> stmt_code lit (kept P) P (captures e) e).

(** ** Parts in their places *)
Lemma placed_beside P st ex ei kp s : placed P s -> placed (Place st (beside (pl_chain P)) (pl_fn P) ex ei kp) s.
Proof. unfold placed. cbn. destruct (pl_chain P); auto. Qed.
Lemma deep_beside c : deep_ok (beside c). Proof. destruct c; discriminate. Qed.
Lemma EE_all {A X} P C n (m : M A) (R : X -> ctx -> nat -> A -> nat -> nat -> Prop) (x0 : X) : (forall x, EE P C n m (R x)) -> EE P C n m (fun G k a p q => forall x, R x G k a p q).
Proof. intros H s a s' W PL E. split; [exact (proj1 (H x0 s a s' W PL E))|]. intros G S F x. exact (proj2 (H x s a s' W PL E) G S F). Qed.
Lemma EE_first P C e : code_at e -> supported (first_of P) e = true -> incl (captures e) C ->
  EE P C (fns e) (visit e) (fun G k _ p q => kept (first_of P) e (g_vars G) (g_loop G) -> code (g_in G) k e p q).
Proof.
  intros (H & _) S I. apply (ED_incl lit P [] (captures e) C); [exact I|]. eapply (EE_sub lit P (first_of P) _ _ _ (fun G k _ p q => kept (first_of P) e (g_vars G) (g_loop G) -> code G k e p q) g_in); [exact (H (first_of P) S eq_refl)|..].
  - intros s. apply placed_beside.
  - intros G s [S1 S2 S3 S4 S5]. split; cbn [first_of pl_fn pl_exact pl_exit pl_chain g_in g_deep g_depth g_loop g_vars g_null]; rewrite ?Nat.add_0_r; auto. destruct (pl_chain P); cbn; auto.
  - intros G b s. apply fits_deep. apply deep_beside.
Qed.
Lemma EE_later P C e : code_at e -> supported (later_of P) e = true -> incl (captures e) C ->
  EE P C (fns e) (visit e) (fun G k _ p q => forall n, code (g_deep n G) k e p q).
Proof.
  intros (H & _) S I. apply (EE_all P C (fns e) (visit e) (fun n G k _ p q => code (g_deep n G) k e p q) 0). intros n. apply (ED_incl lit P [] (captures e) C); [exact I|].
  eapply ED_post; [eapply (EE_sub lit P (later_of P) _ _ _ (fun G k _ p q => kept (later_of P) e (g_vars G) (g_loop G) -> code G k e p q) (g_deep n)); [exact (H (later_of P) S eq_refl)|..]|].
  - intros s. apply placed_beside.
  - intros G s [S1 S2 S3 S4 S5]. split; cbn [later_of pl_fn pl_exact pl_exit pl_chain g_deep g_depth g_loop g_vars g_null]; try discriminate; auto. destruct (pl_chain P); cbn; auto.
  - intros G b s. apply fits_deep. apply deep_beside.
  - cbn beta. intros G k a p q X. apply X. apply kept_none; reflexivity.
Qed.
Lemma EE_target P C e : code_at e -> supported (target_of P) e = true -> incl (captures e) C ->
  EE (target_of P) C (fns e) (visit e) (fun G k _ p q => kept (target_of P) e (g_vars G) (g_loop G) -> code G k e p q).
Proof. intros (H & _) S I. apply (ED_incl lit _ [] (captures e) C); [exact I|]. exact (H _ S eq_refl). Qed.
Lemma EE_arg P C e : code_at e -> supported (arg_of P) e = true -> incl (captures e) C ->
  EE (arg_of P) C (fns e) (visit e) (fun G k _ p q => kept (arg_of P) e (g_vars G) (g_loop G) -> code G k e p q).
Proof. intros (H & _) S I. apply (ED_incl lit _ [] (captures e) C); [exact I|]. exact (H _ S eq_refl). Qed.

(** Statements that declare nothing. *)
Definition no_decl (e : expr) : Prop := match e with EVarDecl _ _ _ _ | EFnDecl _ _ _ _ | EOpDecl _ _ _ _ | EClassDecl _ _ _ | EImportDecl _ _ _ | EExportDecl _ => False | _ => True end.
Lemma supported_first P e : no_decl e -> pl_chain P = Fresh -> supported P e = true -> supported (first_of P) e = true.
Proof. destruct P as [st c f x ei kp]. cbn [pl_chain]. intros N -> S. destruct e; cbn in N; try contradiction; exact S. Qed.
Lemma stmt_of_expr e : no_decl e -> (forall P, supported P e = true -> pl_stmt P = false -> EE P (captures e) (fns e) (visit e) (fun G k _ p q => kept P e (g_vars G) (g_loop G) -> code G k e p q)) -> code_at e.
Proof.
  intros N H. split; [exact H|]. intros P S ST CH. unfold stmt_code. assert (A : adds e = []) by (destruct e; try reflexivity; destruct N). rewrite A.
  assert (X : EE P (captures e) (fns e) (visit e) (fun G k _ p q => kept (first_of P) e (g_vars G) (g_loop G) -> code (g_in G) k e p q)).
  { eapply (EE_sub lit P (first_of P) _ _ _ (fun G k _ p q => kept (first_of P) e (g_vars G) (g_loop G) -> code G k e p q) g_in); [exact (H (first_of P) (supported_first P e N CH S) eq_refl)|..].
    - intros s. apply placed_beside.
    - intros G s [S1 S2 S3 S4 S5]. split; cbn [first_of pl_fn pl_exact pl_exit pl_chain g_in g_deep g_depth g_loop g_vars g_null]; rewrite ?Nat.add_0_r; auto. destruct (pl_chain P); cbn; auto.
    - intros G b s. apply fits_deep. apply deep_beside. }
  eapply ED_post; [exact X|]. cbn beta. intros G k u p q Y HK. cbn [List.length]. rewrite drop_0. assert (Z : code (g_in G) k e p q) by (apply Y; eapply (kept_sub P (first_of P)); eauto using incl_refl).
  destruct e; cbn in N; try contradiction; exact (conj Z eq_refl).
Qed.

(** Facts that hold wherever an expression stands. *)
Lemma EE_in_fn {A} P C n (m : M A) R : pl_fn P = true -> EE P C n m R -> EE P C n m (fun G k a p q => (exists r, g_fn G = Some r) /\ R G k a p q).
Proof.
  intros HF H s a s' W PL E. destruct (H s a s' W PL E) as (M & X). split; [exact M|]. intros G S F. split; [|exact (X G S F)].
  destruct (st_fn _ _ _ S HF) as (r & Hr). exists r. pose proof (f_fn _ _ _ _ _ F) as FF. destruct M as [_ (N & MM) _ _]. rewrite (m_kind _ _ _ _ _ MM), Hr in FF. exact FF.
Qed.
Lemma moving_visit P e : supported P e = true -> pl_stmt P = false -> moving [] (captures e) (fns e) (visit e).
Proof. intros S ST s a s' W E. eapply (T_moves (names e) [] (captures e) (fns e) (visit e) (fun _ => True) s a s'); auto. intros b N I. eapply mono_expr; eauto using visit_mono, incl_refl. Qed.
Lemma T_sub P e C : supported P e = true -> pl_stmt P = false -> incl (captures e) C -> forall b N, incl (names e) N -> T b [] C N (fns e) (visit e) (fun _ => True).
Proof. intros S ST I b N IN. eapply mono_expr; eauto using visit_mono. Qed.
Lemma list_code_post (cd cd' : ctx -> nat -> expr -> nat -> nat -> Prop) G k es p q : (forall d k e p q, In e es -> cd (g_deep d G) k e p q -> cd' (g_deep d G) k e p q) ->
  forall d, list_code cd (g_deep d G) k es p q -> list_code cd' (g_deep d G) k es p q.
Proof.
  revert k p. induction es as [|e r IH]; intros k p H d X; [exact X|]. destruct X as (p1 & X1 & X2). exists p1. split; [apply H; [left; reflexivity|exact X1]|]. rewrite deep_deep in *. apply IH; [|exact X2]. intros. apply H; [right|]; auto.
Qed.
End VisitCode.

Ltac inc1 := let y := fresh in let K := fresh in intros y K; cbn [captures]; rewrite ?in_app_iff; first [solve [auto 6]|cbn [captures] in K; rewrite ?in_app_iff in K; tauto].
Ltac flag := cbn [returns breaks]; let H := fresh in intros H; rewrite ?H, ?orb_true_r; cbn [orb]; rewrite ?orb_true_r; reflexivity.
Ltac kp HK := eapply kept_sub; [| | | | | |exact HK]; [solve [auto|discriminate]|solve [auto|discriminate]|reflexivity|flag|flag|inc1].
Ltac prm0 := first [ apply EE_emit; reflexivity | apply EE_emit_u8; reflexivity | apply EE_emit_c; [reflexivity|discriminate|apply symbol_exact] | apply EE_operator | apply EE_ident ].
Ltac prm IH := first
  [ prm0 | eapply EE_first; [apply IH; sz|eassumption|inc1] | eapply EE_later; [apply IH; sz|eassumption|inc1]
  | eapply EE_target; [apply IH; sz|eassumption|inc1] ].
Ltac chn IH := first [prm IH | eapply EE_bind; [prm IH|intros ?; chn IH]].
Ltac walk IH := eapply ED_post; [eapply ED_num; [|chn IH]|cbn beta].

Ltac reassoc := let s := fresh in intros s; unfold bind, ret; repeat (match goal with |- context [match ?x with Ok _ => _ | _ => _ end] => lazymatch x with match _ with _ => _ end => fail | _ => destruct x as [[? ?]| | |] end end; [|reflexivity..]); try reflexivity.

Section Pieces.
Variable lit : nat -> fn_bytecode.
Local Notation ED := (ED lit).
Local Notation EE := (EE lit).
Local Notation code := (code lit).
Local Notation code_at := (code_at lit).
Lemma EE_error P C x : code_at x -> pl_fn P = true -> pl_exact P = true -> supported (target_of P) x = true -> incl (captures x) C ->
  EE (target_of P) C (fns x) (visit_error_propagate visit x) (fun G k _ p q => exists p1 p2 p3 p4 p5 p6, (kept (target_of P) x (g_vars G) (g_loop G) -> code G k x p p1) /\ at_ (g_bc G) p1 (IByte OpDup 0) p2 /\
    at_const (g_bc G) OpLoadField (CSymbol IS_OK) p2 p3 /\ jumps (g_bc G) OpJumpIfTrue p3 p4 p6 /\ drops (g_bc G) (g_depth G) p4 p5 /\ rets G p5 p6 /\ at_const (g_bc G) OpLoadField (CSymbol RESULT) p6 q).
Proof.
  intros HX HF HE S I.
  assert (Y : forall n, EE (target_of P) C 0 (drop_temps n ;;; visit_return) (fun G _ _ p q => exists p1, drops (g_bc G) n p p1 /\ rets G p1 q)).
  { intros n. eapply ED_post; [apply EE_in_fn; [assumption|]; apply (EE_bind lit (target_of P) _ 0 0); [apply EE_drops|intros ?; apply EE_return]|]. cbn beta. intros G k a p q (Hr & _ & p1 & X1 & X2). eauto. }
  assert (Z : forall n, EE (target_of P) C 0 (j <- jump OpJumpIfTrue ;; (drop_temps n ;;; visit_return) ;;; patch j ;;; emit_c OpLoadField (CSymbol RESULT))
    (fun G _ _ p q => exists p4 p5 p6, jumps (g_bc G) OpJumpIfTrue p p4 p6 /\ drops (g_bc G) n p4 p5 /\ rets G p5 p6 /\ at_const (g_bc G) OpLoadField (CSymbol RESULT) p6 q)).
  { intros n. eapply (ED_jump_over lit (target_of P) [] _ 0 0); [reflexivity|apply Y|prm0|reflexivity|]. cbn beta. intros G k a p q p1 p2 H1 (p3 & H2 & H3) H4. rewrite drop_0 in *. eauto 10. }
  assert (X : EE (target_of P) C (fns x) (visit x ;;; n <- get_temps ;; emit_u8 OpDup 0 ;;; emit_c OpLoadField (CSymbol IS_OK) ;;; j <- jump OpJumpIfTrue ;; (drop_temps n ;;; visit_return) ;;; patch j ;;; emit_c OpLoadField (CSymbol RESULT))
    (fun G k _ p q => exists p1 p2 p3 p4 p5 p6, (kept (target_of P) x (g_vars G) (g_loop G) -> code G k x p p1) /\ at_ (g_bc G) p1 (IByte OpDup 0) p2 /\
    at_const (g_bc G) OpLoadField (CSymbol IS_OK) p2 p3 /\ jumps (g_bc G) OpJumpIfTrue p3 p4 p6 /\ drops (g_bc G) (g_depth G) p4 p5 /\ rets G p5 p6 /\ at_const (g_bc G) OpLoadField (CSymbol RESULT) p6 q)).
  { eapply ED_post; [eapply ED_num; [|eapply EE_bind; [eapply EE_target; eassumption|intros ?]; eapply EE_bind; [apply EE_get_temps; assumption|intros n]; do 2 (eapply EE_bind; [prm0|intros ?]); apply Z]|]; [cbn [fns]; lia|].
    cbn beta. intros G k u p q (a1 & p1 & H1 & n & p1' & (<- & ->) & a2 & p2 & H2 & a3 & p3 & H3 & p4 & p5 & p6 & H4 & H5 & H6 & H7). exists p1, p2, p3, p4, p5, p6. auto 10. }
  unfold visit_error_propagate. eapply ED_post; [apply (EE_bind lit (target_of P) C 0 (fns x)) with (R2 := fun _ G k _ p q => exists p1 p2 p3 p4 p5 p6, (kept (target_of P) x (g_vars G) (g_loop G) -> code G k x p p1) /\ at_ (g_bc G) p1 (IByte OpDup 0) p2 /\
    at_const (g_bc G) OpLoadField (CSymbol IS_OK) p2 p3 /\ jumps (g_bc G) OpJumpIfTrue p3 p4 p6 /\ drops (g_bc G) (g_depth G) p4 p5 /\ rets G p5 p6 /\ at_const (g_bc G) OpLoadField (CSymbol RESULT) p6 q); [apply EE_get_kind|]|].
  - intros kd. destruct kd; try apply ED_fail; (eapply ED_ext; [|exact X]; reassoc).
  - cbn beta. intros G k b p q (kd & p1 & -> & H). rewrite Nat.add_0_r in H. exact H.
Qed.
End Pieces.

Section Cases.
Variable lit : nat -> fn_bytecode.
Local Notation ED := (ED lit).
Local Notation EE := (EE lit).
Local Notation code := (code lit).
Local Notation code_at := (code_at lit).
Variable e0 : expr.
Hypothesis IH : forall e, esize e < esize e0 -> code_at e.

Lemma at_prefix op x : e0 = EPrefix op x -> code_at e0.
Proof.
  intros E. rewrite E in *. apply stmt_of_expr; [exact Logic.I|]. intros P S _. cbn [supported] in S. cbn [visit]. unfold visit_prefix.
  eapply ED_post; [eapply ED_num; [|eapply EE_bind; [prm IH|intros ?; apply EE_emit; destruct op; reflexivity]]|cbn beta]; [cbn [fns]; lia|].
  intros G k u p q (a & p1 & H1 & H2) HK. cbn [code]. exists p1. split; [apply H1; kp HK|exact H2].
Qed.

Ltac start E := rewrite E in *; apply stmt_of_expr; [exact Logic.I|]; let P := fresh "P" in let S := fresh "S" in let ST := fresh "ST" in intros P S ST; cbn [supported] in S; ands; cbn [visit].
Ltac zero := rewrite ?Nat.add_0_r in *.
Lemma at_atom : match e0 with ELitIdent _ | ELitUnit | ELitNull | ELitBool _ | ELitInt _ | ELitFloat _ | ELitString _ => True | _ => False end -> code_at e0.
Proof.
  intros H. apply stmt_of_expr; [destruct e0; try contradiction; exact Logic.I|]. intros P S _. destruct e0; try contradiction; cbn [visit fns].
  - eapply ED_post; [apply EE_ident|]. auto.
  - eapply ED_post; [apply EE_emit; reflexivity|]. auto.
  - eapply ED_post; [apply EE_emit; reflexivity|]. auto.
  - eapply ED_post; [apply EE_int|]. auto.
  - eapply ED_post; [apply EE_float|]. auto.
  - eapply ED_post; [apply EE_string|]. auto.
  - eapply ED_post; [unfold push_bool; apply EE_emit; match goal with |- context [if ?b then _ else _] => destruct b end; reflexivity|]. auto.
Qed.
Lemma at_field x f : e0 = EFieldAccess x f -> code_at e0.
Proof.
  intros E. pose proof (fun P S => moving_visit P e0 S) as MV. start E. eapply ED_post; [apply (EE_in_call lit P _ _ (visit_field_access visit x f)); [exact (MV P S ST)|]|].
  - unfold visit_field_access. eapply ED_num; [|chn IH]. cbn [fns]. lia.
  - cbn beta. intros G k u p q (a & p1 & H1 & H2) HK. cbn [code]. unfold chain_code. exists p1. split; [|exact H2]. apply H1. kp HK.
Qed.

Lemma at_null x : e0 = ENullPropagate x -> code_at e0.
Proof.
  intros E. pose proof (fun P S => moving_visit P e0 S) as MV. start E. specialize (MV P S ST). cbn [supported] in S. assert (CH : pl_chain P <> Aside /\ supported (target_of P) x = true) by (destruct (pl_chain P); [..|discriminate]; split; auto; discriminate). clear S. destruct CH as (CH & S).
  eapply ED_post; [apply (EE_in_call lit P _ _ (visit_null_propagate visit x)); [exact MV|]|].
  - unfold visit_null_propagate. eapply ED_num; [|do 4 (eapply EE_bind; [prm IH|intros ?]); apply EE_null_exit; cbn; destruct (pl_chain P); [reflexivity..|congruence]]. cbn [fns]. lia.
  - cbn beta. intros G k u p q (a1 & p1 & H1 & a2 & p2 & H2 & a3 & p3 & H3 & a4 & p4 & H4 & t & H5 & H6) HK. cbn [code]. unfold chain_code. exists p1, p4, t. split; [apply H1; kp HK|]. split; [exists p2, p3; auto|auto].
Qed.

Lemma at_error x : e0 = EErrorPropagate x -> code_at e0.
Proof.
  intros E. pose proof (fun P S => moving_visit P e0 S) as MV. rewrite E in *; apply stmt_of_expr; [exact Logic.I|]. intros P S ST. specialize (MV P S ST). cbn [supported] in S; ands; cbn [visit].
  eapply ED_post; [apply (EE_in_call lit P _ _ (visit_error_propagate visit x)); [exact MV|apply (EE_error lit P (captures (EErrorPropagate x)) x); [apply IH; sz|assumption|assumption|assumption|inc1]]|].
  cbn beta. intros G k u p q (p1 & p2 & p3 & p4 & p5 & p6 & H1 & H2 & H3 & H4 & H5 & H6 & H7) HK. cbn [code]. unfold chain_code. exists p1, p2, p3, p4, p5, p6. split; [apply HK; auto|]. split; [apply H1; kp HK|]. auto 10.
Qed.

Ltac start2 E MV := pose proof (fun P S => moving_visit P e0 S) as MV; rewrite E in *; apply stmt_of_expr; [exact Logic.I|]; let P := fresh "P" in let S := fresh "S" in let ST := fresh "ST" in intros P S ST; specialize (MV P S ST); cbn [supported] in S; ands; cbn [visit].
Lemma in_captures x l : In x l -> incl (captures x) (flat_map captures l).
Proof. intros H y Hy. apply in_flat_map. eauto. Qed.
Lemma in_flags (f : expr -> bool) x l : In x l -> f x = true -> existsb f l = true.
Proof. intros H E. apply existsb_exists. eauto. Qed.
Lemma at_call t args : e0 = EFnCall t args -> code_at e0.
Proof.
  intros E. start2 E MV. rewrite forallb_forall in S0.
  eapply ED_post; [apply (EE_in_call lit P _ _ (visit_fn_call visit t args)); [exact MV|]|].
  - unfold visit_fn_call. eapply ED_num; [|eapply EE_bind; [prm IH|intros ?]; eapply EE_bind; [apply (EE_call_args lit (target_of P) _ (fun G k e p q => kept (arg_of P) e (g_vars G) (g_loop G) -> code G k e p q))|intros ?; prm0]].
    + cbn [fns]. lia.
    + intros e He. split; [apply (T_sub (arg_of P) e _ (S0 e He) eq_refl)|apply (EE_arg lit P _ e); [apply IH; sz; pose proof (lsize_in _ _ He); lia|exact (S0 e He)|]].
      * cbn [captures]. apply incl_appr. apply in_captures. exact He.
      * cbn [captures]. apply incl_appr. apply in_captures. exact He.
  - cbn beta. intros G k u p q (a1 & p1 & H1 & a2 & p2 & H2 & H3) HK. cbn [code]. unfold chain_code. exists p1, p2. split; [apply H1; kp HK|]. split.
    + refine (list_code_post _ _ G _ _ _ _ _ 1 H2). intros d k' e p' q' He X. apply X. eapply kept_sub; [| | | | | |exact HK]; [solve [auto|discriminate]|solve [auto|discriminate]|reflexivity|..].
      * cbn [returns]. intros R. rewrite (in_flags returns e args He R). apply orb_true_r.
      * cbn [breaks]. intros R. rewrite (in_flags breaks e args He R). apply orb_true_r.
      * cbn [captures]. apply incl_appr. apply in_captures. exact He.
    + replace (u8_of (List.length args)) with (List.length args) in H3; [exact H3|]. unfold byte_sized in *. symmetry. apply u8_small. match goal with H : (_ <=? 255) = true |- _ => apply Nat.leb_le in H; clear - H; lia end.
Qed.

Lemma at_index x i : e0 = EIndex x i -> code_at e0.
Proof.
  intros E. start2 E MV.
  eapply ED_post; [apply (EE_in_call lit P _ _ (visit_index visit x i)); [exact MV|]|].
  - unfold visit_index. eapply ED_ext with (m := visit x ;;; (visit_isolated visit i ;;; n <- get_temps ;; put_temps (n - 1)) ;;; emit OpLoadIndex); [reassoc|].
    eapply ED_num; [|eapply EE_bind; [prm IH|intros ?]; eapply EE_bind; [apply (EE_index_arg lit (target_of P) _ (fns i)); [apply (T_sub (arg_of P) i _ S0 eq_refl); inc1|reflexivity|apply (EE_arg lit P _ i); [apply IH; sz|exact S0|inc1]]|intros ?; prm0]].
    cbn [fns]. lia.
  - cbn beta. intros G k u p q (a1 & p1 & H1 & a2 & p2 & H2 & H3) HK. cbn [code]. unfold chain_code. exists p1, p2. split; [apply H1; kp HK|]. split; [|exact H3]. apply H2. kp HK.
Qed.
Lemma at_list items : e0 = ELitList items -> code_at e0.
Proof.
  intros E. start E. rewrite forallb_forall in S0. unfold visit_list. eapply ED_post; [eapply ED_num; [|eapply EE_bind; [apply (EE_items lit P _ code items) with (d := 0)|intros ?; prm0]]|].
  - cbn [fns]. lia.
  - intros e d He. eapply ED_post; [apply (EE_later lit P _ e); [apply IH; sz; pose proof (lsize_in _ _ He); lia|exact (S0 e He)|apply in_captures; exact He]|]. cbn beta. auto.
  - cbn beta. intros G k u p q (a1 & p1 & H1 & H2) _. cbn [code]. exists p1. split; [exact H1|]. rewrite u8_small in H2; [exact H2|]. unfold byte_sized in S. apply Nat.leb_le in S. clear - S. lia.
Qed.
Lemma at_object items : e0 = ELitObject items -> code_at e0.
Proof.
  intros E. start E. rewrite forallb_forall in S. unfold visit_object. eapply ED_post; [eapply ED_num; [|eapply EE_bind; [prm0|intros ?; apply (EE_fields lit P _ code items)]]|].
  - cbn [fns]. lia.
  - intros x e He. eapply ED_post; [apply (EE_later lit P _ e); [apply IH; sz; pose proof (fsize_in _ _ _ He); lia|exact (S (x, e) He)|]|cbn beta; auto]. intros y Hy. cbn [captures]. apply in_flat_map. exists (x, e). auto.
  - cbn beta. intros G k u p q (a1 & p1 & H1 & H2) _. cbn [code]. exists p1. zero. auto.
Qed.
Lemma at_block es t : e0 = EBlock es t -> code_at e0.
Proof.
  intros E. start2 E MV. assert (HS : forall e, In e (statements es t) -> supported (stmt_of P) e = true) by (intros e He; eapply supported_statements; [|exact He]; cbn [supported]; rewrite S, S0; reflexivity).
  eapply ED_post; [apply (EE_block_code lit (kept (stmt_of P)) P _ es t false); [exact MV|..]|].
  - intros e He. destruct (IH e) as (_ & X); [apply statements_size; exact He|]. unfold stmt_code. eapply ED_incl; [apply statement_captures; exact He|]. exact (X (stmt_of P) (HS e He) eq_refl eq_refl).
  - cbn beta. intros G k u p q X HK. cbn [code]. apply X. intros vs V1 V2. apply kept_block; auto.
Qed.

Lemma EE_logical P C o lhs rhs : vm_operands o = OffsetOperand -> code_at lhs -> code_at rhs -> supported (first_of P) lhs = true -> supported (first_of P) rhs = true -> incl (captures lhs) C -> incl (captures rhs) C ->
  EE P C (fns lhs + fns rhs) (visit_logical visit o lhs rhs) (fun G k _ p q => exists p1 p2 p3 p4 p5 p6,
    (kept (first_of P) lhs (g_vars G) (g_loop G) -> code (g_in G) k lhs p p1) /\ at_ (g_bc G) p1 (IByte OpDup 0) p2 /\ at_ (g_bc G) p2 (INone OpAssertBool) p3 /\ jumps (g_bc G) o p3 p4 q /\
    at_ (g_bc G) p4 (INone OpPop) p5 /\ (kept (first_of P) rhs (g_vars G) (g_loop G) -> code (g_in G) (k + fns lhs) rhs p5 p6) /\ at_ (g_bc G) p6 (INone OpAssertBool) q).
Proof.
  clear. intros HO H1 H2 S1 S2 I1 I2. unfold visit_logical.
  eapply ED_ext with (m := visit lhs ;;; emit_u8 OpDup 0 ;;; emit OpAssertBool ;;; (j <- jump o ;; (emit OpPop ;;; visit rhs ;;; emit OpAssertBool) ;;; patch j)); [reassoc|].
  assert (X : EE P C (fns rhs) (j <- jump o ;; (emit OpPop ;;; visit rhs ;;; emit OpAssertBool) ;;; patch j) (fun G k _ p q => exists p4 p5 p6, jumps (g_bc G) o p p4 q /\
    at_ (g_bc G) p4 (INone OpPop) p5 /\ (kept (first_of P) rhs (g_vars G) (g_loop G) -> code (g_in G) k rhs p5 p6) /\ at_ (g_bc G) p6 (INone OpAssertBool) q)).
  { eapply EE_jump_last; [exact HO|eapply ED_num; [|eapply EE_bind; [prm0|intros ?]; eapply EE_bind; [apply (EE_first lit P C rhs); assumption|intros ?; prm0]]; lia|].
    cbn beta. intros G k a p q p1 X (_ & p2 & Y1 & _ & p3 & Y2 & Y3). rewrite Nat.add_0_r in *. exists p1, p2, p3. auto. }
  eapply ED_post; [eapply ED_num; [|eapply EE_bind; [apply (EE_first lit P C lhs); assumption|intros ?]; do 2 (eapply EE_bind; [prm0|intros ?]); exact X]; lia|].
  cbn beta. intros G k a p q (_ & p1 & Y1 & _ & p2 & Y2 & _ & p3 & Y3 & p4 & p5 & p6 & Y4 & Y5 & Y6 & Y7). rewrite ?Nat.add_0_r in *. exists p1, p2, p3, p4, p5, p6. auto 10.
Qed.
Lemma EE_coalesce P C lhs rhs : code_at lhs -> code_at rhs -> supported (first_of P) lhs = true -> supported (first_of P) rhs = true -> incl (captures lhs) C -> incl (captures rhs) C ->
  EE P C (fns lhs + fns rhs) (visit_binary visit BCoalesce lhs rhs) (fun G k _ p q => exists p1 p2 p3 p4,
    (kept (first_of P) lhs (g_vars G) (g_loop G) -> code (g_in G) k lhs p p1) /\ null_test (g_bc G) OpEqual p1 p2 /\ jumps (g_bc G) OpJumpIfFalse p2 p3 q /\
    at_ (g_bc G) p3 (INone OpPop) p4 /\ (kept (first_of P) rhs (g_vars G) (g_loop G) -> code (g_in G) (k + fns lhs) rhs p4 q)).
Proof.
  clear. intros H1 H2 S1 S2 I1 I2. unfold visit_binary.
  eapply ED_ext with (m := visit lhs ;;; emit_u8 OpDup 0 ;;; emit OpPushNull ;;; emit OpEqual ;;; (j <- jump OpJumpIfFalse ;; (emit OpPop ;;; visit rhs) ;;; patch j)); [reassoc|].
  assert (X : EE P C (fns rhs) (j <- jump OpJumpIfFalse ;; (emit OpPop ;;; visit rhs) ;;; patch j) (fun G k _ p q => exists p4 p5, jumps (g_bc G) OpJumpIfFalse p p4 q /\
    at_ (g_bc G) p4 (INone OpPop) p5 /\ (kept (first_of P) rhs (g_vars G) (g_loop G) -> code (g_in G) k rhs p5 q))).
  { eapply EE_jump_last; [reflexivity|eapply ED_num; [|eapply EE_bind; [prm0|intros ?]; apply (EE_first lit P C rhs); assumption]; lia|].
    cbn beta. intros G k a p q p1 X (_ & p2 & Y1 & Y2). rewrite Nat.add_0_r in *. exists p1, p2. auto. }
  eapply ED_post; [eapply ED_num; [|eapply EE_bind; [apply (EE_first lit P C lhs); assumption|intros ?]; do 3 (eapply EE_bind; [prm0|intros ?]); exact X]; lia|].
  cbn beta. intros G k a p q (_ & p1 & Y1 & _ & p2 & Y2 & _ & p3 & Y3 & _ & p4 & Y4 & p5 & p6 & Y5 & Y6 & Y7). rewrite ?Nat.add_0_r in *. exists p1, p4, p5, p6. split; [exact Y1|]. split; [exists p2, p3; auto|auto].
Qed.
Lemma at_binary op lhs rhs : e0 = EBinary op lhs rhs -> code_at e0.
Proof.
  intros E. rewrite E in *. apply stmt_of_expr; [exact Logic.I|]. intros P S ST. cbn [visit fns]. cbn [supported] in S.
  assert (ORD : forall o, binary_opcode op = Some o -> vm_operands o = NoOperand -> operation op = Some o -> supported (first_of P) lhs = true -> supported (later_of P) rhs = true ->
    EE P (captures (EBinary op lhs rhs)) (fns lhs + fns rhs) (visit lhs ;;; visit rhs ;;; match binary_opcode op with Some o => emit o | None => panic end)
      (fun G k _ p q => kept P (EBinary op lhs rhs) (g_vars G) (g_loop G) -> exists p1 p2, code (g_in G) k lhs p p1 /\ code (g_deep 1 G) (k + fns lhs) rhs p1 p2 /\ match operation op with Some o => at_ (g_bc G) p2 (INone o) q | None => False end)).
  { intros o -> HO -> S1 S2. eapply ED_post; [eapply ED_num; [|eapply EE_bind; [prm IH|intros ?]; eapply EE_bind; [prm IH|intros ?; apply EE_emit; exact HO]]; lia|].
    cbn beta. intros G k a p q (_ & p1 & Y1 & _ & p2 & Y2 & Y3) HK. exists p1, p2. split; [apply Y1; kp HK|]. auto. }
  destruct op; ands; unfold visit_binary; try (eapply ED_post; [eapply ORD; [reflexivity..|assumption|assumption]|cbn beta; intros G k a p q X; exact X]).
  - (* && *) eapply ED_post; [apply (EE_logical P _ OpJumpIfFalse lhs rhs); [reflexivity|apply IH; sz|apply IH; sz|assumption|assumption|inc1|inc1]|]. cbn beta. intros G k a p q (p1 & p2 & p3 & p4 & p5 & p6 & Y1 & Y2 & Y3 & Y4 & Y5 & Y6 & Y7) HK.
    cbn [code]. exists p1, p2, p3, p4, p5, p6. split; [apply Y1; kp HK|]. split; [exact Y2|]. split; [exact Y3|]. split; [exact Y4|]. split; [exact Y5|]. split; [apply Y6; kp HK|exact Y7].
  - (* || *) eapply ED_post; [apply (EE_logical P _ OpJumpIfTrue lhs rhs); [reflexivity|apply IH; sz|apply IH; sz|assumption|assumption|inc1|inc1]|]. cbn beta. intros G k a p q (p1 & p2 & p3 & p4 & p5 & p6 & Y1 & Y2 & Y3 & Y4 & Y5 & Y6 & Y7) HK.
    cbn [code]. exists p1, p2, p3, p4, p5, p6. split; [apply Y1; kp HK|]. split; [exact Y2|]. split; [exact Y3|]. split; [exact Y4|]. split; [exact Y5|]. split; [apply Y6; kp HK|exact Y7].
  - (* ?? *) eapply ED_post; [apply (EE_coalesce P _ lhs rhs); [apply IH; sz|apply IH; sz|assumption|assumption|inc1|inc1]|]. cbn beta. intros G k a p q (p1 & p2 & p3 & p4 & Y1 & Y2 & Y3 & Y4 & Y5) HK.
    cbn [code]. exists p1, p2, p3, p4. split; [apply Y1; kp HK|]. split; [exact Y2|]. split; [exact Y3|]. split; [exact Y4|]. apply Y5; kp HK.
  - (* |> *) eapply ED_post; [eapply ED_num; [|chn IH]; lia|]. cbn beta. intros G k a p q (_ & p1 & Y1 & _ & p2 & Y2 & Y3) HK. cbn [code]. exists p1, p2. split; [apply Y1; kp HK|]. auto.
Qed.

Lemma at_is x t : e0 = EIs x t -> code_at e0.
Proof.
  intros E. start E. unfold visit_is. cbn [fns]. assert (HX : code_at x) by (apply IH; sz). destruct (ta_nullable t) eqn:TN.
  - assert (X : EE P (captures x) (fns x) (j <- jump OpJumpIfTrue ;; (emit OpPop ;;; visit x ;;; visit_ident (ta_name t) ;;; emit OpIs) ;;; patch j) (fun G k _ p q => exists p5 p6 p7 p8, jumps (g_bc G) OpJumpIfTrue p p5 q /\
      at_ (g_bc G) p5 (INone OpPop) p6 /\ (kept (first_of P) x (g_vars G) (g_loop G) -> code (g_in G) k x p6 p7) /\ loads G (ta_name t) p7 p8 /\ at_ (g_bc G) p8 (INone OpIs) q)).
    { eapply EE_jump_last; [reflexivity|eapply ED_num; [|eapply EE_bind; [prm0|intros ?]; eapply EE_bind; [apply (EE_first lit P _ x); [exact HX|assumption|apply incl_refl]|intros ?]; eapply EE_bind; [prm0|intros ?; prm0]]; clear; lia|].
      cbn beta. intros G k a p q p1 X (_ & p2 & Y1 & _ & p3 & Y2 & _ & p4 & Y3 & Y4). rewrite ?Nat.add_0_r in *. exists p1, p2, p3, p4. auto. }
    eapply ED_ext with (m := visit x ;;; emit OpPushNull ;;; emit OpEqual ;;; emit_u8 OpDup 0 ;;; (j <- jump OpJumpIfTrue ;; (emit OpPop ;;; visit x ;;; visit_ident (ta_name t) ;;; emit OpIs) ;;; patch j)); [reassoc|].
    eapply ED_post; [eapply ED_num; [|eapply EE_bind; [prm IH|intros ?]; do 3 (eapply EE_bind; [prm0|intros ?]); exact X]; clear; lia|].
    cbn beta. intros G k a p q (_ & p1 & Y1 & _ & p2 & Y2 & _ & p3 & Y3 & _ & p4 & Y4 & p5 & p6 & p7 & p8 & Y5 & Y6 & Y7 & Y8 & Y9) HK. rewrite ?Nat.add_0_r in *. cbn [code]. rewrite TN. exists p1, p2, p3, p4, p5, p6, p7, p8.
    split; [apply Y1; kp HK|]. split; [exact Y2|]. split; [exact Y3|]. split; [exact Y4|]. split; [exact Y5|]. split; [exact Y6|]. split; [apply Y7; kp HK|auto].
  - eapply ED_post; [eapply ED_num; [|chn IH]; clear; lia|]. cbn beta. intros G k a p q (_ & p1 & Y1 & _ & p2 & Y2 & Y3) HK. cbn [code]. rewrite TN. exists p1, p2. split; [apply Y1; kp HK|auto].
Qed.
Lemma at_if c x s : e0 = EIf c x s -> code_at e0.
Proof.
  intros E. start E. unfold visit_if. cbn [fns].
  pose (n3 := match s with Some y => fns y | None => 0 end).
  assert (Z : EE P (captures (EIf c x s)) n3 match s with Some e => visit e | None => emit OpPushUnit end
    (fun G k _ p q => match s with Some y => kept (first_of P) y (g_vars G) (g_loop G) -> code (g_in G) k y p q | None => at_ (g_bc G) p (INone OpPushUnit) q end)).
  { destruct s as [y|]; [|apply EE_emit; reflexivity]. cbn [opt_all] in S0. apply (EE_first lit P _ y); [apply IH; sz|assumption|inc1]. }
  eapply ED_post; [eapply ED_num; [|eapply EE_bind; [prm IH|intros ?]; eapply (EE_branch lit P _ (fns x) n3 (fns x + n3) OpJumpIfFalse OpJump _ _ _ _ (fun G k _ p q => exists p1 p2 p3, jumps (g_bc G) OpJumpIfFalse p p1 p3 /\ (kept (first_of P) x (g_vars G) (g_loop G) -> code (g_in G) k x p1 p2) /\
      jumps (g_bc G) OpJump p2 p3 q /\ match s with Some y => kept (first_of P) y (g_vars G) (g_loop G) -> code (g_in G) (k + fns x) y p3 q | None => at_ (g_bc G) p3 (INone OpPushUnit) q end));
    [reflexivity|reflexivity|prm IH|exact Z|reflexivity|]]|].
  - unfold n3. clear. lia.
  - cbn beta. intros G k p q p1 p2 p3 H1 H2 H3 H4. exists p1, p2, p3. auto.
  - cbn beta. intros G k a p q (_ & p1 & Y1 & p2 & p3 & p4 & Y2 & Y3 & Y4 & Y5) HK. cbn [code]. exists p1, p2, p3, p4. split; [apply Y1; kp HK|]. split; [exact Y2|]. split; [apply Y3; kp HK|]. split; [exact Y4|]. destruct s as [y|]; [|exact Y5]. apply Y5; kp HK.
Qed.

Lemma at_return r : e0 = EReturn r -> code_at e0.
Proof.
  intros E. start E.
  pose (n1 := match r with Some y => fns y | None => 0 end).
  assert (Z : EE P (captures (EReturn r)) n1 match r with Some e => visit e | None => emit OpPushUnit end
    (fun G k _ p q => match r with Some y => kept (first_of P) y (g_vars G) (g_loop G) -> code (g_in G) k y p q | None => at_ (g_bc G) p (INone OpPushUnit) q end)).
  { destruct r as [y|]; [|apply EE_emit; reflexivity]. cbn [opt_all] in S0. apply (EE_first lit P _ y); [apply IH; sz|assumption|inc1]. }
  assert (T : EE P (captures (EReturn r)) 0 (n <- get_temps ;; drop_temps n ;;; visit_return) (fun G _ _ p q => exists p1, drops (g_bc G) (g_depth G) p p1 /\ rets G p1 q)).
  { eapply ED_post; [eapply ED_num; [|eapply EE_bind; [apply EE_get_temps; assumption|intros n]; eapply EE_bind; [apply EE_drops|intros ?; apply EE_in_fn; [assumption|apply EE_return]]]; reflexivity|].
    cbn beta. intros G k a p q (n & p1 & (<- & ->) & _ & p2 & Y2 & Y3 & Y4). eauto. }
  assert (N : fns (EReturn r) = n1 + 0) by (unfold n1; cbn [fns]; destruct r; lia). rewrite N.
  assert (V : EE P (captures (EReturn r)) (n1 + 0) (match r with Some e => visit e | None => emit OpPushUnit end ;;; n <- get_temps ;; drop_temps n ;;; visit_return)
    (fun G k _ p q => g_fn G <> Some Constructing -> kept P (EReturn r) (g_vars G) (g_loop G) -> code G k (EReturn r) p q)).
  { eapply (EE_then lit n1 0); [exact Z|exact T|reflexivity|]. cbn beta. intros G k a p q _ p1 Y1 (p2 & Y2 & Y3) HC HK. cbn [code]. exists p1, p2. split; [apply HK; auto|]. split; [|auto].
    destruct r as [y|]; [apply Y1; kp HK|]. destruct (g_fn G) as [[|]|]; [exact Y1|congruence|exact Y1]. }
  unfold visit_return_expr. eapply (EE_seq lit 0 (n1 + 0)) with (R2 := fun kd G k _ p q => g_fn G = role_of kd -> kept P (EReturn r) (g_vars G) (g_loop G) -> code G k (EReturn r) p q); [apply EE_kind| |reflexivity|].
  2: cbn beta; intros G k b p q kd p1 (<- & H1) H2; rewrite Nat.add_0_r in H2; exact (H2 H1).
  intros kd. destruct kd as [| |rt|rt|]; try (eapply ED_ext with (m := fail INVALID_RETURN_USAGE); [reflexivity|apply ED_fail]).
  - eapply ED_post; [exact V|]. cbn beta. intros G k u p q H HR. apply H. rewrite HR. discriminate.
  - eapply ED_post; [exact V|]. cbn beta. intros G k u p q H HR. apply H. rewrite HR. discriminate.
  - destruct r as [y|]; [eapply ED_ext with (m := fail NEW_RETURN_CANNOT_HAVE_EXPRESSION); [reflexivity|apply ED_fail]|].
    eapply (EE_then lit 0 0) with (R1 := fun G _ _ p q => loads G "self" p q); [|exact T|reflexivity|].
    + eapply (EE_seq lit 0 0) with (R2 := fun a G _ _ p q => found G "self" a -> loads G "self" p q); [apply EE_local| |reflexivity|cbn beta; intros G k b p q a p1 (<- & H1) H2; exact (H2 H1)].
      intros [v|]; [|apply ED_panic]. eapply ED_post; [apply EE_emit_u8; reflexivity|]. cbn beta. intros G k u p q H ((fl & H1) & H2). unfold loads. rewrite H1. rewrite H2 in H. exact H.
    + cbn beta. intros G k a p q _ p1 Y1 (p2 & Y2 & Y3) HR HK. cbn [code]. exists p1, p2. split; [apply HK; auto|]. split; [|auto]. rewrite HR. exact Y1.
Qed.
Lemma EE_self P C : EE P C 0 (l <- m_local SELF ;; match l with None => panic | Some v => emit_u8 OpLoadLocal (u8_of (sv_slot v)) end) (fun G _ _ p q => loads G "self" p q).
Proof.
  eapply (EE_seq lit 0 0) with (R2 := fun a G _ _ p q => found G "self" a -> loads G "self" p q); [apply EE_local| |reflexivity|cbn beta; intros G k b p q a p1 (<- & H1) H2; exact (H2 H1)].
  intros [v|]; [|apply ED_panic]. eapply ED_post; [apply EE_emit_u8; reflexivity|]. cbn beta. intros G k u p q H ((fl & H1) & H2). unfold loads. rewrite H1. rewrite H2 in H. exact H.
Qed.
Lemma at_super_call args : e0 = ESuperCall args -> code_at e0.
Proof.
  intros E. start2 E MV. rewrite forallb_forall in S0.
  eapply ED_post; [apply (EE_in_call lit P _ _ (visit_super_call visit args)); [exact MV|]|].
  - unfold visit_super_call. eapply ED_ext with (m := (l <- m_local SELF ;; match l with None => panic | Some v => emit_u8 OpLoadLocal (u8_of (sv_slot v)) end) ;;; visit_call_args visit args ;;; visit_ident SUPER ;;; emit_u8 OpCallSuper (u8_of (List.length args))).
    { intros s. unfold bind. destruct (m_local SELF s) as [[[v|] s1]| | |]; reflexivity. }
    eapply ED_num; [|eapply EE_bind; [apply EE_self|intros ?]; eapply EE_bind; [apply (EE_call_args lit (target_of P) _ (fun G k e p q => kept (arg_of P) e (g_vars G) (g_loop G) -> code G k e p q))|intros ?; eapply EE_bind; [apply EE_ident|intros ?; prm0]]].
    + cbn [fns]. lia.
    + intros e He. split; [apply (T_sub (arg_of P) e _ (S0 e He) eq_refl)|apply (EE_arg lit P _ e); [apply IH; rewrite size_ESuperCall; pose proof (lsize_in _ _ He); lia|exact (S0 e He)|]].
      * cbn [captures]. apply in_captures. exact He.
      * cbn [captures]. apply in_captures. exact He.
  - cbn beta. intros G k u p q (a1 & p1 & H1 & a2 & p2 & H2 & a3 & p3 & H3 & H4) HK. cbn [code]. exists p1, p2, p3. split; [exact H1|]. split; [|split; [exact H3|]].
    + zero. refine (list_code_post _ _ G _ _ _ _ _ 1 H2). intros d k' e p' q' He X. apply X. eapply kept_sub; [| | | | | |exact HK]; [solve [auto|discriminate]|solve [auto|discriminate]|reflexivity|..].
      * exact (in_flags returns e args He).
      * exact (in_flags breaks e args He).
      * cbn [captures]. apply in_captures. exact He.
    + replace (u8_of (List.length args)) with (List.length args) in H4; [exact H4|]. unfold byte_sized in *. symmetry. apply u8_small. match goal with H : (_ <=? 255) = true |- _ => apply Nat.leb_le in H; clear - H; lia end.
Qed.
Lemma at_super_access f c : e0 = ESuperAccess f c -> code_at e0.
Proof.
  intros E. start2 E MV.
  set (R := fun (G : ctx) (_ : nat) (_ : unit) (p q : nat) => exists p1 p2, loads G (match c with Some x => x | None => "super" end) p p1 /\ loads G "self" p1 p2 /\ at_const (g_bc G) OpLoadMethod (CSymbol f) p2 q).
  eapply ED_post; [apply (EE_in_call lit P _ _ (visit_super_access f c) R); [exact MV|]|].
  - unfold visit_super_access. eapply (EE_seq lit 0 0) with (R2 := fun _ => R); [apply EE_get_kind| |reflexivity|cbn beta; intros G k b p q kd p1 <- H; exact H].
    intros kd. destruct kd; try apply ED_fail.
    all: eapply ED_post; [eapply ED_num; [|eapply EE_bind; [apply EE_ident|intros ?]; eapply EE_bind; [apply EE_ident|intros ?; prm0]]; reflexivity|].
    all: cbn beta; intros G k u p q (_ & p1 & H1 & _ & p2 & H2 & H3); exact (ex_intro _ p1 (ex_intro _ p2 (conj H1 (conj H2 H3)))).
  - cbn beta. intros G k u p q H _. exact H.
Qed.
Lemma at_break : e0 = EBreak -> code_at e0.
Proof.
  intros E. start E. eapply ED_post; [apply EE_break; exact S|]. cbn beta. intros G k u p q (l & H1 & H2 & H3) HK. cbn [code]. exists l. split; [exact H1|]. split; [exact H2|]. split; [|exact H3].
  destruct HK as (_ & HK). destruct (HK S eq_refl) as (X & _). exact (X l H1).
Qed.
Lemma at_continue : e0 = EContinue -> code_at e0.
Proof.
  intros E. start E. eapply ED_post; [apply EE_continue; exact S|]. cbn beta. intros G k u p q (l & t & H1 & H2 & H3 & H4) HK. cbn [code]. exists l, t. split; [exact H1|]. split; [exact H2|]. split; [|auto].
  destruct HK as (_ & HK). destruct (HK S eq_refl) as (X & _). exact (X l H1).
Qed.
Lemma at_assign op lhs rhs : e0 = EAssignment op lhs rhs -> code_at e0.
Proof.
  intros E. start E. unfold visit_assignment. destruct lhs; try discriminate S.
  - (* variable *) cbn [fns]. destruct op; [|..].
    1: eapply ED_post; [eapply EE_assign_ident; prm IH|]. cbn beta. unfold assigned. intros G k u p q (p1 & H1 & H2) HK. cbn [code]. exists p1. split; [apply H1; kp HK|exact H2].
    all: eapply ED_post; [eapply EE_assign_ident; prm IH|]; cbn beta; unfold assigned; intros G k u p q (p1 & p2 & p3 & H1 & H2 & H3 & H4) _; cbn [code]; eauto 10.
  - (* field *) ands. unfold assign_field. cbn [fns].
    destruct op; (eapply ED_post; [eapply ED_num; [|chn IH]; clear; lia|]; cbn beta; intros G k u p q X HK; cbn [code]; zero);
      first [solve [destruct X as (_ & p1 & H1 & _ & p2 & H2 & H3); exists p1; split; [apply H1; kp HK|exists p2; auto]]
        | destruct X as (_ & p1 & H1 & _ & p2 & H2 & _ & p3 & H3 & _ & p4 & H4 & _ & p5 & H5 & H6); exists p1; split; [apply H1; kp HK|exists p2, p3, p4, p5; auto 10]].
  - (* index *) ands. unfold assign_index. cbn [fns].
    destruct op; (eapply ED_post; [eapply ED_num; [|chn IH]; clear; lia|]; cbn beta; intros G k u p q X HK; cbn [code]; zero);
      first [solve [destruct X as (_ & p1 & H1 & _ & p2 & H2 & _ & p3 & H3 & H4); exists p1, p2; split; [apply H1; kp HK|]; split; [apply H2|]; exists p3; auto]
        | destruct X as (_ & p1 & H1 & _ & p2 & H2 & _ & p3 & H3 & _ & p4 & H4 & _ & p5 & H5 & _ & p6 & H6 & _ & p7 & H7 & H8); exists p1, p2; split; [apply H1; kp HK|]; split; [apply H2|]; exists p3, p4, p5, p6, p7; auto 10].
Qed.
End Cases.
