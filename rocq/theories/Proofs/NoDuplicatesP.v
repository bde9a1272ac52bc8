(** An accepted program has no duplicate declarations. *)
From Coq Require Import Lia.
From Verif.Model Require Import Compiler.
From Verif.Spec Require Import StaticSpec StaticTop.
From Verif.Proofs Require Import CodecP ScopeP CaptureP ExprInd WellFormedP StaticP StaticVisitP DuplicateP.

Definition shaped (s : cstate) : Prop := exists c k vs scs o, view s = (c, VS k (List.length scs) vs :: scs) :: o.
Lemma shaped_states s : shaped s -> exists l o, states s = l :: o.
Proof.
  intros (c & k & vs & scs & o & V). unfold view, states in *. destruct (cs_stack s); [discriminate|]. cbn. eauto.
Qed.
Lemma shaped_visit e s a s' : visit e s = Ok (a, s') -> shaped s -> shaped s'.
Proof.
  intros H (c & k & vs & scs & o & V). destruct (visit_sees e _ _ _ _ _ _ _ _ H V) as (V' & _). unfold shaped. eauto 10.
Qed.

(** Items of a block visited one after the other. *)
Inductive visited : cstate -> list expr -> cstate -> Prop :=
| visited_nil s : visited s [] s
| visited_cons s x a s1 s2 l s' :
    visit x s = Ok (a, s1) -> states s2 = states s1 -> view s2 = view s1 -> visited s2 l s' -> visited s (x :: l) s'.
Lemma visited_app s l s1 l' s' : visited s l s1 -> visited s1 l' s' -> visited s (l ++ l') s'.
Proof. induction 1; cbn [app]; eauto using visited. Qed.
Lemma body_visited es t s a s' : visit_block_body visit es t s = Ok (a, s') -> exists s1, visited s (items_of es t) s1.
Proof.
  unfold visit_block_body, items_of. intros H. apply bind_ok in H as (u & s1 & H1 & H2).
  assert (HV : visited s es s1).
  { revert s u H1. induction es as [|x es IH]; intros s u H1; cbn [each] in H1.
    - injection H1 as _ <-. constructor.
    - apply bind_ok in H1 as (? & s2 & H1 & H3). apply bind_ok in H1 as (? & s3 & H1 & H4).
      econstructor; [exact H1|apply (st_emit _ _ _ _ H4)|apply (q_emit _ _ _ _ H4)|eauto]. }
  destruct t as [x|].
  - eexists. eapply visited_app; [exact HV|]. econstructor; [exact H2|reflexivity|reflexivity|constructor].
  - rewrite app_nil_r. eauto.
Qed.

(** * Functions *)
Lemma body_mv_all b : body_mv b.
Proof. split; [apply visit_moves|]. intros; split; intros; apply visit_moves. Qed.
Lemma item_mv_all i : item_mv i.
Proof. destruct i; cbn; auto using body_mv_all. Qed.
Lemma item_function x f : function_name x = Some f -> forall s a s' l o, visit x s = Ok (a, s') -> states s = l :: o ->
  top_state f l <> None -> exists l', states s' = l' :: o /\ grows l l' /\ top_state f l = Some (SFunction false) /\ top_state f l' = Some (SFunction true).
Proof.
  induction x; cbn [function_name]; try discriminate; intros E s a s' l o H S T; cbn [visit] in H.
  - injection E as ->. destruct (fn_decl_moves _ _ _ _ _ _ _ _ _ (body_mv_all _) H S) as (l' & S' & G & R).
    destruct (R T). eauto.
  - unfold visit_export in H. apply bind_ok in H as (k & s1 & HK & H). apply st_get_kind in HK. destruct k; try discriminate.
    apply bind_ok in H as (sc & s2 & HT & H). apply st_top_scope in HT. destruct (1 <? sc_depth sc); [discriminate|].
    apply bind_ok in H as (v & s3 & HL & H). apply st_local in HL. destruct v as [v|]; [|discriminate].
    apply bind_ok in H as (? & s4 & H4 & H). apply st_emit_u8 in H4. apply bind_ok in H as (? & s5 & H5 & H).
    destruct (IHx E _ _ _ l o H5) as (l' & S' & R); [congruence|exact T|].
    exists l'. split; [|exact R]. destruct (export_name x); [|discriminate]. apply st_emit_c in H. congruence.
Qed.
Lemma find_sv_local x D : Forall is_local D -> find_sv x D = None \/ exists m i, find_sv x D = Some (SLocal m i).
Proof.
  induction 1 as [|[y st] D H _ IH]; cbn [find_sv]; [auto|]. destruct (String.eqb y x); [|exact IH]. right.
  destruct st; try contradiction. eauto.
Qed.
Lemma grows_top x l l' : grows l l' -> top_state x l <> None ->
  top_state x l' <> None /\ (top_state x l' = Some (SFunction false) -> top_state x l = Some (SFunction false)).
Proof.
  destruct l as [|t l], l' as [|t' l']; cbn [grows top_state]; try tauto. intros [(D & t1 & -> & HD & F) _] N.
  rewrite find_sv_app. destruct (find_sv_local x D HD) as [->|(m & i & ->)]; [|split; discriminate].
  pose proof (find_sv_le x _ _ F) as L. destruct (find_sv x t) as [st|]; [|congruence].
  destruct (find_sv x t1) as [st'|]; [|destruct L]. split; [discriminate|]. intros E. injection E as ->.
  destruct L as [->|[[_ ?]|[_ ?]]]; [reflexivity|discriminate|discriminate].
Qed.
Lemma visited_functions s items s' : visited s items s' -> forall l o, states s = l :: o ->
  (forall f, In f (collect function_name items) -> top_state f l <> None) ->
  distinct (collect function_name items) = true /\
  forall f, In f (collect function_name items) -> top_state f l = Some (SFunction false).
Proof.
  induction 1 as [s|s x a s1 s2 items s' H E EV HV IH]; intros l o S T; [split; [reflexivity|intros f []]|].
  cbn [collect] in *. destruct (function_name x) as [f|] eqn:F.
  - destruct (item_function x f F _ _ _ _ _ H S (T f (or_introl eq_refl))) as (l' & S' & G & T1 & T2).
    destruct (IH l' o) as [D R]; [congruence| |].
    { intros g Hg. apply (grows_top g _ _ G), T. now right. }
    split.
    + cbn [distinct]. rewrite D, andb_true_r. apply negb_true_iff. destruct (existsb _ _) eqn:X; [|reflexivity].
      apply existsb_exists in X as (g & Hg & Eg). apply String.eqb_eq in Eg. subst g. rewrite (R f Hg) in T2. discriminate.
    + intros g [<-|Hg]; [exact T1|]. apply (grows_top g _ _ G); [apply T; now right|auto].
  - destruct (visit_moves x _ _ _ H _ _ S) as (l' & S' & G).
    destruct (IH l' o) as [D R]; [congruence| |].
    { intros g Hg. apply (grows_top g _ _ G), T, Hg. }
    split; [exact D|]. intros g Hg. apply (grows_top g _ _ G); auto.
Qed.

(** * Classes *)
Lemma view_names s c k d vs scs o l o' : view s = (c, VS k d vs :: scs) :: o -> states s = l :: o' ->
  exists top r, l = top :: r /\ map fst top = map fst vs.
Proof.
  unfold view, states. destruct (cs_stack s) as [|cx st]; [discriminate|]. intros V S. injection V as _ V _. injection S as <- _.
  unfold st_ctx. destruct (ss_scopes (cx_scopes cx)) as [|sc l]; [discriminate|]. injection V as _ _ <- _. cbn [map].
  do 2 eexists. split; [reflexivity|]. rewrite !map_map. reflexivity.
Qed.
Lemma find_sv_names x l : mentions x (map fst l) = false -> find_sv x l = None.
Proof.
  induction l as [|[y m] l IH]; cbn [map fst find_sv]; [reflexivity|]. unfold mentions in *. cbn [existsb].
  rewrite String.eqb_sym. destruct (String.eqb y x); [discriminate|]. exact IH.
Qed.
Lemma F2_names l l' : Forall2 init_le l l' -> map fst l' = map fst l.
Proof. induction 1 as [|a b l l' [E _] _ IH]; cbn [map]; congruence. Qed.
Definition class_le (i : bool) (st : option var_state) : Prop := exists j, st = Some (SClass j) /\ (i = true -> j = true).
Lemma item_other y x s a s' l o i : visit y s = Ok (a, s') -> shaped s -> states s = l :: o ->
  mentions x (map fst (decls y)) = false -> top_state x l = Some (SClass i) ->
  exists l', states s' = l' :: o /\ class_le i (top_state x l').
Proof.
  intros H (c & k & vs & scs & o' & V) S N T. destruct (visit_moves y _ _ _ H _ _ S) as (l' & S' & G). exists l'. split; [exact S'|].
  destruct (visit_sees y _ _ _ _ _ _ _ _ H V) as (V' & _).
  destruct (view_names _ _ _ _ _ _ _ _ _ V S) as (t & r & -> & N1). destruct (view_names _ _ _ _ _ _ _ _ _ V' S') as (t' & r' & -> & N2).
  destruct G as [(D & t1 & -> & _ & F) _].
  pose proof (F2_names _ _ F) as F'. unfold sv in *. rewrite map_app in N2. rewrite (map_app fst (decls y) vs) in N2. rewrite F', N1 in N2. apply app_inv_tail in N2.
  cbn [top_state] in *. rewrite find_sv_app, (find_sv_names x D) by now rewrite N2.
  pose proof (find_sv_le x _ _ F) as L. rewrite T in L. destruct (find_sv x t1) as [st|]; [|destruct L].
  destruct L as [->|[[? _]|[E ->]]]; [exists i; auto|discriminate|exists true; auto].
Qed.
Lemma item_class y x : class_name y = Some x -> forall s a s' l o i, visit y s = Ok (a, s') -> shaped s -> states s = l :: o ->
  mentions x (class_scope y) = false -> top_state x l = Some (SClass i) ->
  i = false /\ exists l', states s' = l' :: o /\ top_state x l' = Some (SClass true).
Proof.
  induction y; cbn [class_name]; try discriminate; intros E s a s' l o i H SH S N T; cbn [visit] in H.
  - injection E as ->.
    destruct (class_moves _ _ _ _ _ _ _ _ (fun b _ => visit_moves b) (fun j _ => item_mv_all j) H S) as (l' & S' & G & R).
    destruct SH as (c & k & vs & scs & o' & V). destruct (R _ _ _ _ _ V N i T) as [-> T']. eauto.
  - unfold visit_export in H. apply bind_ok in H as (k & s1 & HK & H). pose proof (q_get_kind _ _ _ HK). apply st_get_kind in HK. destruct k; try discriminate.
    apply bind_ok in H as (sc & s2 & HT & H). pose proof (q_top_scope _ _ _ HT). apply st_top_scope in HT. destruct (1 <? sc_depth sc); [discriminate|].
    apply bind_ok in H as (v & s3 & HL & H). pose proof (q_local _ _ _ _ HL). apply st_local in HL. destruct v as [v|]; [|discriminate].
    apply bind_ok in H as (? & s4 & H4 & H). pose proof (q_emit_u8 _ _ _ _ _ H4). apply st_emit_u8 in H4. apply bind_ok in H as (? & s5 & H5 & H).
    destruct (IHy E _ _ _ l o i H5) as (Hi & l' & S' & R); [|congruence|exact N|exact T|].
    { unfold shaped in *. replace (view s4) with (view s) by congruence. exact SH. }
    split; [exact Hi|]. exists l'. split; [|exact R]. destruct (export_name y); [|discriminate]. apply st_emit_c in H. congruence.
Qed.
Lemma mentions_app x a b : mentions x (a ++ b) = mentions x a || mentions x b.
Proof. apply existsb_app. Qed.
Lemma visited_classes x s items s' : visited s items s' -> shaped s -> forall l o i, states s = l :: o ->
  mentions x (map fst (decls_seq decls items)) = false -> mentions x (flat_map class_scope items) = false ->
  top_state x l = Some (SClass i) -> occurrences x (collect class_name items) <= if i then 0 else 1.
Proof.
  unfold occurrences.
  induction 1 as [s|s y a s1 s2 items s' H E EV HV IH]; intros SH l o i S N1 N2 T; [cbn; lia|].
  cbn [decls_seq flat_map collect] in *. rewrite map_app, mentions_app in N1. rewrite mentions_app in N2.
  apply orb_false_elim in N1 as [N1 N1']. apply orb_false_elim in N2 as [N2 N2'].
  assert (SH2 : shaped s2). { apply (shaped_visit _ _ _ _ H) in SH. unfold shaped in *. now rewrite EV. }
  assert (HO : exists l' j, states s2 = l' :: o /\ top_state x l' = Some (SClass j) /\ (i = true -> j = true)).
  { destruct (item_other y x _ _ _ _ _ i H SH S N1' T) as (l' & S' & j & T' & J). exists l', j. split; [congruence|auto]. }
  destruct (class_name y) as [z|] eqn:C.
  - cbn [filter]. destruct (String.eqb_spec x z) as [<-|NE].
    + destruct (item_class y x C _ _ _ _ _ i H SH S N2 T) as (-> & l' & S' & T').
      specialize (IH SH2 l' o true). cbn [List.length]. rewrite E in IH. specialize (IH S' N1 N2' T'). lia.
    + destruct HO as (l' & j & S' & T' & J). specialize (IH SH2 l' o j S' N1 N2' T'). destruct i; [rewrite J in IH by reflexivity|destruct j]; lia.
  - destruct HO as (l' & j & S' & T' & J). specialize (IH SH2 l' o j S' N1 N2' T'). destruct i; [rewrite J in IH by reflexivity|destruct j]; lia.
Qed.

(** * Blocks *)
Fixpoint hoist (e : expr) : option sv :=
  match e with
  | EFnDecl x _ _ _ => Some (x, SFunction false)
  | EClassDecl x _ _ => Some (x, SClass false)
  | EExportDecl e => hoist e
  | _ => None
  end.
Lemma scan_states items : forall s a s' top l o, each scan_expr items s = Ok (a, s') -> states s = (top :: l) :: o ->
  states s' = ((rev (collect hoist items) ++ top) :: l) :: o.
Proof.
  assert (HS : forall e s a s' top l o, scan_expr e s = Ok (a, s') -> states s = (top :: l) :: o ->
    states s' = ((match hoist e with Some p => [p] | None => [] end ++ top) :: l) :: o).
  { induction e; cbn [scan_expr hoist]; intros s a s' top l o H S;
      try (injection H as _ <-; exact S); [| |eauto];
      apply bind_ok in H as (? & s1 & H & H2); injection H2 as _ <-;
      destruct (add_states _ _ _ _ _ _ _ H S) as (t & r & E & S'); injection E as <- <-; exact S'. }
  induction items as [|x items IH]; cbn [each collect]; intros s a s' top l o H S.
  - injection H as _ <-. exact S.
  - apply bind_ok in H as (? & s1 & H1 & H2). pose proof (HS _ _ _ _ _ _ _ H1 S) as S1. rewrite (IH _ _ _ _ _ _ H2 S1).
    destruct (hoist x); cbn [rev]; [|reflexivity]. now rewrite <- app_assoc.
Qed.
Lemma hoist_functions items f : In f (collect function_name items) -> In (f, SFunction false) (collect hoist items).
Proof.
  induction items as [|x items IH]; cbn [collect]; [contradiction|].
  destruct (function_name x) as [g|] eqn:E.
  - assert (HX : hoist x = Some (g, SFunction false)).
    { induction x; cbn [function_name hoist] in *; try discriminate; [congruence|auto]. }
    rewrite HX. intros [->|H]; [now left|right; auto].
  - intros H. destruct (hoist x); [right|]; auto.
Qed.
Lemma hoist_inv items x st : In (x, st) (collect hoist items) ->
  (st = SFunction false /\ In x (collect function_name items)) \/ (st = SClass false /\ In x (collect class_name items)).
Proof.
  induction items as [|y items IH]; cbn [collect]; [contradiction|].
  assert (HY : forall p, hoist y = Some p -> (snd p = SFunction false /\ function_name y = Some (fst p)) \/
                                             (snd p = SClass false /\ class_name y = Some (fst p))).
  { induction y; cbn [hoist function_name class_name]; try discriminate; intros p E; auto; injection E as <-; auto. }
  destruct (hoist y) as [[z w]|].
  - destruct (HY _ eq_refl) as [[E1 E2]|[E1 E2]]; cbn [fst snd] in *; rewrite E2.
    + intros [H|H]; [injection H as -> ->; left; split; [exact E1|now left]|].
      destruct (IH H) as [[? ?]|[? ?]]; [left; split; [auto|now right]|]. right. split; [auto|]. destruct (class_name y); [now right|auto].
    + intros [H|H]; [injection H as -> ->; right; split; [exact E1|now left]|].
      destruct (IH H) as [[? ?]|[? ?]]; [|right; split; [auto|now right]]. left. split; [auto|]. destruct (function_name y); [now right|auto].
  - intros H. destruct (IH H) as [[? ?]|[? ?]]; [left|right]; (split; [auto|]).
    + destruct (function_name y); [now right|auto].
    + destruct (class_name y); [now right|auto].
Qed.
Lemma hoist_classes items f : In f (collect class_name items) -> In (f, SClass false) (collect hoist items).
Proof.
  induction items as [|x items IH]; cbn [collect]; [contradiction|].
  destruct (class_name x) as [g|] eqn:E.
  - assert (HX : hoist x = Some (g, SClass false)).
    { induction x; cbn [class_name hoist] in *; try discriminate; [congruence|auto]. }
    rewrite HX. intros [->|H]; [now left|right; auto].
  - intros H. destruct (hoist x); [right|]; auto.
Qed.
Lemma find_sv_in x l st : In (x, st) l -> find_sv x l <> None.
Proof.
  induction l as [|[y w] l IH]; cbn [find_sv]; [contradiction|]. intros [E|H].
  - injection E as -> ->. rewrite String.eqb_refl. discriminate.
  - destruct (String.eqb y x); [discriminate|auto].
Qed.
Lemma find_sv_some x l st : find_sv x l = Some st -> In (x, st) l.
Proof.
  induction l as [|[y w] l IH]; cbn [find_sv]; [discriminate|]. destruct (String.eqb_spec y x) as [<-|]; [|now right; auto].
  intros E. injection E as ->. now left.
Qed.
Lemma mentions_in x l : mentions x l = true <-> In x l.
Proof.
  unfold mentions. rewrite existsb_exists. split; [intros (y & H & E); apply String.eqb_eq in E; now subst|].
  intros H. exists x. split; [exact H|apply String.eqb_refl].
Qed.
(** From the moment the declarations of a block are scanned into an empty scope. *)
Lemma scanned_distinct es t s0 u s1 s2 l o : shaped s1 -> states s0 = ([] :: l) :: o \/ (exists top, states s0 = (top :: l) :: o) ->
  scan_item_decls es t s0 = Ok (u, s1) -> visited s1 (items_of es t) s2 -> block_distinct es t = true.
Proof.
  intros SH S0 HS HV.
  assert (exists top, states s0 = (top :: l) :: o) as (top & S) by (destruct S0 as [S0|S0]; eauto). clear S0.
  unfold scan_item_decls in HS. change (block_items es t) with (items_of es t) in HS.
  pose proof (scan_states _ _ _ _ _ _ _ HS S) as S1. set (items := items_of es t) in *. unfold block_distinct. fold items.
  destruct (visited_functions _ _ _ HV _ _ S1) as [D _].
  { intros f Hf. cbn [top_state]. apply hoist_functions, in_rev, find_sv_in in Hf. rewrite find_sv_app.
    destruct (find_sv f (rev (collect hoist items))) eqn:F; [discriminate|]. exfalso. exact (Hf F). }
  rewrite D. cbn [andb]. apply forallb_forall. intros x Hx.
  destruct (mentions x (collect function_name items)) eqn:M1; [now rewrite orb_true_r|].
  destruct (mentions x (map fst (decls_seq decls items))) eqn:M2; [now rewrite orb_true_r|].
  destruct (mentions x (flat_map class_scope items)) eqn:M3; [now rewrite orb_true_r|]. rewrite !orb_false_r.
  apply Nat.leb_le. apply (visited_classes x _ _ _ HV SH _ _ false S1 M2 M3). cbn [top_state]. rewrite find_sv_app.
  pose proof (hoist_classes _ _ Hx) as HC. apply in_rev in HC. apply find_sv_in in HC.
  destruct (find_sv x (rev (collect hoist items))) as [st|] eqn:F; [|exfalso; exact (HC F)].
  apply find_sv_some, in_rev, hoist_inv in F as [[_ F]|[-> _]]; [|reflexivity]. apply mentions_in in F. congruence.
Qed.

(** * All visitors *)
Definition nds {A} (m : M A) (P : bool) : Prop := forall s a s', m s = Ok (a, s') -> shaped s -> P = true.
Lemma shaped_view s s' : view s' = view s -> shaped s -> shaped s'.
Proof. unfold shaped. now intros ->. Qed.
Lemma shaped_sees {A} (m : M A) D A0 P s a s' : sees m D A0 P -> m s = Ok (a, s') -> shaped s -> shaped s'.
Proof. intros HS H (c & k & vs & scs & o & V). destruct (HS _ _ _ _ _ _ _ _ H V) as (V' & _). unfold shaped. eauto 10. Qed.
Lemma shaped_push k e s a s' : m_push_scope k e s = Ok (a, s') -> shaped s -> shaped s'.
Proof. intros H (c & k0 & vs & scs & o & V). eapply view_push in H; [|exact V]. unfold shaped. eauto 10. Qed.
Lemma shaped_context k s a s' : push_context k s = Ok (a, s') -> shaped s'.
Proof. intros H. apply push_context_inv in H. exists k, KBlock, [], [], (view s). exact H. Qed.

Definition vis_all : forall x, vis x := visit_sees.
Definition any_vis : forall l x, In x l -> vis x := fun l x _ => visit_sees x.
Definition body_vis_all b : body_vis b.
Proof. split; [apply visit_sees|]. intros; split; intros; apply visit_sees. Qed.
Ltac conj2 := rewrite ?andb_true_r; first [assumption | reflexivity | (apply andb_true_intro; split; conj2)].
Ltac nf IH H SH :=
  cbv beta iota in H;
  lazymatch type of H with
  | bind _ _ _ = Ok _ => let H1 := fresh "H1" in let x := fresh "x" in let s1 := fresh "s" in
      apply bind_ok in H as (x & s1 & H1 & H); nf IH H1 SH; nf IH H SH
  | fail _ _ = _ => discriminate H
  | panic _ = _ => discriminate H
  | visit ?x _ = _ => let N := fresh "N" in
      assert (N : no_duplicates x = true) by (refine (IH x _ _ _ _ H SH); esz); apply (shaped_visit _ _ _ _ H) in SH; clear H
  | m_push_scope _ _ _ = _ => apply (shaped_push _ _ _ _ _ H) in SH; clear H
  | m_pop_scope _ = _ => clear SH H; assert (SH := I)
  | m_add_local _ _ _ = _ => try (eapply (shaped_sees _ _ _ _ _ _ _ (s_add _ _) H) in SH); clear H
  | ?m _ = Ok _ => let Q := fresh "Q" in
      first
      [ assert (Q : quiet m) by (solve [qt]); apply Q in H; clear Q;
        lazymatch type of SH with True => idtac | _ => apply (shaped_view _ _ H) in SH end; clear H
      | eassert (Q : nds m _) by eassumption;
        let N := fresh "N" in assert (N := Q _ _ _ H SH); clear Q;
        let S := fresh "S" in eassert (S : sees m _ _ _) by eassumption;
        apply (shaped_sees _ _ _ _ _ _ _ S H) in SH; clear S; clear H
      | match m with match ?x with _ => _ end => destruct x; nf IH H SH end ]
  end.

Lemma n_each {B} (f : B -> M unit) P l : (forall x, In x l -> nds (f x) (P x)) ->
  (forall x s a s', In x l -> f x s = Ok (a, s') -> shaped s -> shaped s') -> nds (each f l) (forallb P l).
Proof.
  induction l as [|x l IH]; intros H HS s a s' E SH; [reflexivity|]. cbn [each] in E. apply bind_ok in E as (u & s1 & E1 & E2).
  cbn [forallb]. rewrite (H x (or_introl eq_refl) _ _ _ E1 SH). apply (HS _ _ _ _ (or_introl eq_refl) E1) in SH.
  eapply IH; [| |exact E2|exact SH]; [intros; apply H; now right|intros; eapply HS; [right|..]; eauto].
Qed.
Lemma n_each_visit l : (forall x, In x l -> nds (visit x) (no_duplicates x)) -> nds (each visit l) (forallb no_duplicates l).
Proof. intros H. apply n_each; [exact H|]. intros x s a s' _. apply shaped_visit. Qed.
Lemma n_isolated x : nds (visit x) (no_duplicates x) -> nds (visit_isolated visit x) (no_duplicates x).
Proof.
  intros HX s a s' H SH. unfold visit_isolated in H. assert (IH := I).
  apply bind_ok in H as (sc & s1 & H1 & H). nf IH H1 SH.
  apply bind_ok in H as (? & s2 & H2 & H). nf IH H2 SH.
  apply bind_ok in H as (? & s3 & H3 & H). nf IH H3 SH.
  apply bind_ok in H as (? & s4 & H4 & H). nf IH H4 SH.
  apply bind_ok in H as (? & s5 & H5 & H). eapply HX; eauto.
Qed.
Lemma n_call_args l : (forall x, In x l -> nds (visit x) (no_duplicates x)) -> nds (visit_call_args visit l) (forallb no_duplicates l).
Proof.
  intros HX s a s' H SH. unfold visit_call_args in H.
  assert (HN : nds (each (visit_isolated visit) l) (forallb no_duplicates l)).
  { apply n_each; [intros; apply n_isolated; auto|]. intros x s0 a0 s0' _ E. apply (shaped_sees _ _ _ _ _ _ _ (s_isolated x (visit_sees x)) E). }
  pose proof (s_each (visit_isolated visit) l (fun x _ => s_isolated x (visit_sees x))) as HS. assert (IH := I). nf IH H SH. exact N.
Qed.
Lemma n_items es t : (forall x, In x es -> nds (visit x) (no_duplicates x)) -> (forall x, t = Some x -> nds (visit x) (no_duplicates x)) ->
  nds (visit_block_body visit es t) (forallb no_duplicates es && match t with Some x => no_duplicates x | None => true end).
Proof.
  intros H1 H2 s a s' H SH. unfold visit_block_body in H. apply bind_ok in H as (u & s1 & E1 & E2).
  assert (HS : forall x s a s', In x es -> (visit x ;;; emit OpPop) s = Ok (a, s') -> shaped s -> shaped s').
  { intros x s0 a0 s0' _ E S0. apply bind_ok in E as (v & s2 & E3 & E4). apply (shaped_visit _ _ _ _ E3) in S0.
    apply q_emit in E4. now apply (shaped_view _ _ E4). }
  assert (HN : nds (each (fun e => visit e ;;; emit OpPop) es) (forallb no_duplicates es)).
  { apply n_each; [|exact HS]. intros x Hx s0 a0 s0' E S0. apply bind_ok in E as (v & s2 & E3 & E4). eapply H1; eauto. }
  rewrite (HN _ _ _ E1 SH). cbn [andb]. destruct t as [x|]; [|reflexivity]. eapply (H2 x eq_refl); [exact E2|].
  clear - HS E1 SH. revert s u E1 SH. induction es as [|y es IH]; intros s u E1 SH; cbn [each] in E1.
  - injection E1 as _ <-. exact SH.
  - apply bind_ok in E1 as (v & s2 & E3 & E4). eapply IH; [intros; eapply HS; [right|..]; eauto|exact E4|]. eapply HS; [now left|exact E3|exact SH].
Qed.
Lemma shaped_scan es t s a s' : scan_item_decls es t s = Ok (a, s') -> shaped s -> shaped s'.
Proof. apply (shaped_sees _ _ _ _ _ _ _ (s_scan_items es t)). Qed.
Lemma shaped_top s : shaped s -> exists top l o, states s = (top :: l) :: o.
Proof.
  intros (c & k & vs & scs & o & V). destruct (shaped_states s) as (l & o' & S); [unfold shaped; eauto 10|].
  destruct (view_names _ _ _ _ _ _ _ _ _ V S) as (top & r & -> & _). eauto.
Qed.
Lemma n_block b es t : (forall x, In x es -> nds (visit x) (no_duplicates x)) -> (forall x, t = Some x -> nds (visit x) (no_duplicates x)) ->
  nds (visit_block visit b es t) (no_duplicates (EBlock es t)).
Proof.
  intros H1 H2 s a s' H SH. unfold visit_block in H. assert (IH := I).
  apply bind_ok in H as (u1 & s1 & E1 & H). apply (shaped_push _ _ _ _ _ E1) in SH.
  apply bind_ok in H as (u2 & s2 & E2 & H). pose proof (shaped_scan _ _ _ _ _ E2 SH) as SH2.
  apply bind_ok in H as (u3 & s3 & E3 & H). pose proof (n_items _ _ H1 H2 _ _ _ E3 SH2) as N.
  destruct (body_visited _ _ _ _ _ E3) as (s4 & HV). destruct (shaped_top _ SH) as (top & l & o & S).
  cbn [no_duplicates]. rewrite <- andb_assoc, N, andb_true_r. eapply scanned_distinct; [exact SH2|right; eauto|exact E2|exact HV].
Qed.
Lemma n_fn_block kd args es t body P : (forall s a s', body s = Ok (a, s') -> shaped s -> P = true /\ exists s1, visited s (items_of es t) s1) ->
  nds (visit_fn_block kd args es t body) (block_distinct es t && P).
Proof.
  intros HB s a s' H SH. unfold visit_fn_block in H. apply bind_ok in H as (u0 & s0 & E0 & H).
  assert (HQ : quiet (match kd with FkConstructor CDerived => assert_super_call es t | _ => ret tt end)) by qt.
  apply HQ in E0. apply (shaped_view _ _ E0) in SH.
  apply bind_ok in H as (u1 & s1 & E1 & H). apply (shaped_push _ _ _ _ _ E1) in SH.
  apply bind_ok in H as (u2 & s2 & E2 & H). apply (shaped_sees _ _ _ _ _ _ _ (s_args _ _) E2) in SH.
  apply bind_ok in H as (u3 & s3 & E3 & H). pose proof (shaped_scan _ _ _ _ _ E3 SH) as SH3.
  apply bind_ok in H as (u4 & s4 & E4 & H). destruct (HB _ _ _ E4 SH3) as (-> & s5 & HV). rewrite andb_true_r.
  destruct (shaped_top _ SH) as (top & l & o & S). eapply scanned_distinct; [exact SH3|right; eauto|exact E3|exact HV].
Qed.
Definition body_nd (b : expr) : Prop :=
  nds (visit b) (no_duplicates b) /\ forall es t, b = EBlock es t ->
    (forall x, In x es -> nds (visit x) (no_duplicates x)) /\ (forall x, t = Some x -> nds (visit x) (no_duplicates x)).
Lemma n_compile_fn args rt kd b : body_nd b -> nds (compile_fn visit args rt kd b) (no_duplicates b).
Proof.
  intros [HV HB] s a s' H SH. unfold compile_fn in H. apply bind_ok in H as (u & s1 & _ & H).
  apply bind_ok in H as (u1 & s2 & E1 & H). apply shaped_context in E1. apply bind_ok in H as (u2 & s3 & E2 & H).
  assert (HN : forall s a s', visit_fn_block kd args [] (Some b) (visit b) s = Ok (a, s') -> shaped s -> no_duplicates b = true).
  { intros s0 a0 s0' E S0. refine (proj2 (andb_prop _ _ (n_fn_block kd args [] (Some b) (visit b) (no_duplicates b) _ _ _ _ E S0))).
    intros s4 a4 s4' E4 S4. split; [eapply HV; eauto|]. exists s4'. econstructor; [exact E4|reflexivity|reflexivity|constructor]. }
  destruct b; try (eapply HN; eassumption). destruct (HB _ _ eq_refl) as [Ha Hb].
  cbn [no_duplicates]. rewrite <- andb_assoc. refine (n_fn_block kd args expressions trailing _ _ _ _ _ _ E2 E1).
  intros s4 a4 s4' E4 S4. split; [exact (n_items _ _ Ha Hb _ _ _ E4 S4)|eapply body_visited; eauto].
Qed.
Lemma unique_distinct l : unique_names l = distinct l.
Proof. induction l as [|x l IH]; cbn [unique_names distinct]; [reflexivity|]. now rewrite IH. Qed.
Lemma n_unique args s a s' : assert_unique_params args s = Ok (a, s') -> s' = s /\ distinct (map fa_name args) = true.
Proof.
  unfold assert_unique_params. rewrite unique_distinct. destruct (distinct _); [|discriminate]. intros H. injection H as _ <-. auto.
Qed.
Lemma n_method x args rt b kd : body_nd b -> nds (visit_method visit x args rt b kd) (distinct (map fa_name args) && no_duplicates b).
Proof.
  intros HB s a s' H SH. unfold visit_method in H. apply bind_ok in H as (u & s1 & E1 & H). apply n_unique in E1 as (-> & ->).
  apply bind_ok in H as (c & s2 & E2 & H). exact (n_compile_fn _ _ _ _ HB _ _ _ E2 SH).
Qed.
Lemma n_fn_decl x args rt b : body_nd b -> nds (visit_fn_decl visit x args rt b) (distinct (map fa_name args) && no_duplicates b).
Proof.
  intros HB s a s' H SH. unfold visit_fn_decl in H. apply bind_ok in H as (u & s1 & E1 & H). apply n_unique in E1 as (-> & ->).
  apply bind_ok in H as (c & s2 & E2 & H). exact (n_compile_fn _ _ _ _ HB _ _ _ E2 SH).
Qed.
Lemma n_op_decl op args rt b m : body_nd b -> nds (visit_op_decl visit op args rt b m) (distinct (map fa_name args) && no_duplicates b).
Proof.
  intros HB s a s' H SH. unfold visit_op_decl in H. apply bind_ok in H as (u & s1 & E1 & H). apply n_unique in E1 as (-> & ->).
  apply bind_ok in H as (c & s2 & E2 & H). exact (n_compile_fn _ _ _ _ HB _ _ _ E2 SH).
Qed.
Lemma n_anonymous args rt b : body_nd b -> nds (visit_anonymous_fn visit args rt b) (no_duplicates b).
Proof.
  intros HB s a s' H SH. unfold visit_anonymous_fn in H.
  apply bind_ok in H as (id & s1 & E1 & H). apply (shaped_view _ _ (q_fresh _ _ _ E1)) in SH.
  apply bind_ok in H as (c & s2 & E2 & H). exact (n_compile_fn _ _ _ _ HB _ _ _ E2 SH).
Qed.
Definition item_nd (item : expr) : Prop :=
  match item with EFnDecl _ _ _ b | EOpDecl _ _ _ b => body_nd b | _ => True end.
Lemma n_class_item slot ck item : item_nd item -> nds (visit_class_item visit slot ck item) (no_duplicates item).
Proof.
  intros HI s a s' H SH. destruct item; cbn [visit_class_item item_nd no_duplicates] in *; try discriminate.
  - unfold visit_class_fn in H. destruct (self_param args) as [p|].
    + destruct (fa_type p); [discriminate|]. apply bind_ok in H as (u & s1 & E1 & H).
      exact (n_method _ _ _ _ _ HI _ _ _ E1 SH).
    + destruct (String.eqb name NEW); [discriminate|].  apply bind_ok in H as (u & s1 & E1 & H).
      exact (n_method _ _ _ _ _ HI _ _ _ E1 SH).
  - unfold visit_class_op in H. destruct (self_param args) as [p|]; [|discriminate]. destruct (fa_type p); [discriminate|].
    apply bind_ok in H as (u & s1 & E1 & H).
    exact (n_op_decl _ _ _ _ _ HI _ _ _ E1 SH).
Qed.
Lemma n_class_items slot ck items : (forall i, In i items -> item_nd i) ->
  nds (each (visit_class_item visit slot ck) items) (forallb no_duplicates items).
Proof.
  intros HI. apply n_each; [intros; apply n_class_item; auto|]. intros x s a s' _ E.
  apply (shaped_sees _ _ _ _ _ _ _ (s_class_item slot ck x ltac:(destruct x; cbn [item_vis]; auto using body_vis_all)) E).
Qed.
Lemma n_class x items base : (forall b, base = Some b -> nds (visit b) (no_duplicates b)) -> (forall i, In i items -> item_nd i) ->
  nds (visit_class visit x items base) (no_duplicates (EClassDecl x items base)).
Proof.
  intros HB HI s a s' H SH. unfold visit_class in H. cbn [no_duplicates].
  apply bind_ok in H as (u1 & s1 & E1 & H). apply (shaped_push _ _ _ _ _ E1) in SH.
  apply bind_ok in H as (u2 & s2 & E2 & H).
  assert (X : match base with Some b => no_duplicates b | None => true end = true /\ shaped s2).
  { destruct base as [b|]; [split; [eapply (HB b eq_refl); eauto|eapply shaped_visit; eauto]|].
    split; [reflexivity|]. exact (shaped_view _ _ (q_ident _ _ _ _ E2) SH). }
  destruct X as [-> SH2]. rewrite andb_true_r. clear SH.
  apply bind_ok in H as (u3 & s3 & E3 & H). apply (shaped_sees _ _ _ _ _ _ _ (s_add _ _) E3) in SH2.
  apply bind_ok in H as (u4 & s4 & E4 & H). apply (shaped_view _ _ (q_emit_u8 _ _ _ _ _ E4)) in SH2.
  apply bind_ok in H as (l & s5 & HL & H). pose proof (q_local _ _ _ _ HL) as E5. apply (shaped_view _ _ E5) in SH2.
  destruct l as [v|]; [|discriminate]. pose proof HL as HL'. apply local_inv in HL' as (-> & _).
  apply bind_ok in H as (u6 & s6 & E6 & H).
  assert (V' : view s6 = view s4).
  { destruct (sv_state v) as [|[]|[]] eqn:ES; try discriminate; try (injection E6 as _ <-; reflexivity).
    eapply view_set_state in E6; [exact E6|exact HL|unfold sv_is_mutable; now rewrite ES]. }
  apply (shaped_view _ _ V') in SH2.
  apply bind_ok in H as (u7 & s7 & E7 & H). apply (shaped_view _ _ (q_emit_c _ _ _ _ _ E7)) in SH2.
  apply bind_ok in H as (u8 & s8 & E8 & H). apply (shaped_view _ _ (q_emit_u8 _ _ _ _ _ E8)) in SH2.
  apply bind_ok in H as (u9 & s9 & E9 & H). eapply n_class_items; eauto.
Qed.
Lemma n_in_call m P : nds m P -> nds (in_call m) P.
Proof.
  intros HM s a s' H SH. unfold in_call in H. apply bind_ok in H as (u1 & s1 & E1 & H).
  apply (shaped_view _ _ (q_enter _ _ _ E1)) in SH. apply bind_ok in H as (u2 & s2 & E2 & H). eapply HM; eauto.
Qed.
Lemma n_assign_slot l a n m op rhs : nds (visit rhs) (no_duplicates rhs) -> nds (assign_slot visit l a n m op rhs) (no_duplicates rhs).
Proof.
  intros HR s x s' H SH. unfold assign_slot in H. destruct m; [|discriminate].
  destruct op; try (apply bind_ok in H as (u1 & s1 & E1 & H); exact (HR _ _ _ E1 SH));
    apply bind_ok in H as (u1 & s1 & E1 & H); apply (shaped_view _ _ (q_emit_u8 _ _ _ _ _ E1)) in SH;
    apply bind_ok in H as (u2 & s2 & E2 & H); exact (HR _ _ _ E2 SH).
Qed.
Lemma n_assign_ident op x rhs : nds (visit rhs) (no_duplicates rhs) -> nds (assign_ident visit op x rhs) (no_duplicates rhs).
Proof.
  intros HR s y s' H SH. unfold assign_ident in H. apply bind_ok in H as (l & s1 & HL & H).
  apply (shaped_view _ _ (q_local _ _ _ _ HL)) in SH. destruct l as [v|].
  - exact (n_assign_slot _ _ _ _ _ _ HR _ _ _ H SH).
  - apply bind_ok in H as (u & s2 & HU & H). apply (shaped_view _ _ (q_resolve _ _ _ _ HU)) in SH. destruct u as [i|]; [|discriminate].
    apply bind_ok in H as (c0 & s3 & HC & H). apply (shaped_view _ _ (q_get_context _ _ _ HC)) in SH.
    destruct (nth_error (cx_upvalues c0) i) as [d|]; [|discriminate]. exact (n_assign_slot _ _ _ _ _ _ HR _ _ _ H SH).
Qed.

Theorem visit_no_duplicates : forall e, nds (visit e) (no_duplicates e).
Proof.
  induction e as [e IH] using expr_size_ind.
  assert (IB : forall b, esize b < esize e -> body_nd b).
  { intros b L. split; [apply IH, L|]. intros es t ->. split; intros; apply IH; subst; esz. }
  destruct e; cbn [visit no_duplicates]; try (intros s a s' H SH; reflexivity); try apply n_in_call.
  - apply n_anonymous, IB. esz.
  - intros s a s' H SH. unfold visit_object in H. apply bind_ok in H as (u & s1 & E1 & H). apply (shaped_view _ _ (q_emit _ _ _ _ E1)) in SH.
    revert H SH. apply n_each.
    + intros [k x] Hx s0 a0 s0' E S0. assert (L : esize x < esize (ELitObject items)) by esz.
      apply bind_ok in E as (? & s2 & E2 & E). apply (shaped_view _ _ (q_emit_u8 _ _ _ _ _ E2)) in S0.
      apply bind_ok in E as (? & s3 & E3 & E). exact (IH x L _ _ _ E3 S0).
    + intros [k x] s0 a0 s0' Hx E S0. 
      apply bind_ok in E as (? & s2 & E2 & E). apply (shaped_view _ _ (q_emit_u8 _ _ _ _ _ E2)) in S0.
      apply bind_ok in E as (? & s3 & E3 & E). apply (shaped_visit _ _ _ _ E3) in S0.
      apply bind_ok in E as (? & s4 & E4 & E). apply (shaped_view _ _ (q_emit_c _ _ _ _ _ E4)) in S0.
      exact (shaped_view _ _ (q_emit _ _ _ _ E) S0).
  - intros s a s' H SH. unfold visit_list in H. apply bind_ok in H as (u & s1 & E1 & H).
    revert E1 SH. apply n_each_visit. intros x Hx. apply IH. esz.
  - intros s a s' H SH. unfold visit_null_propagate in H. nf IH H SH. conj2.
  - intros s a s' H SH. unfold visit_error_propagate in H. nf IH H SH; conj2.
  - intros s a s' H SH. unfold visit_field_access in H. nf IH H SH; conj2.
  - intros s a s' H SH. unfold visit_fn_call in H. apply bind_ok in H as (u & s1 & E1 & H). nf IH E1 SH. rewrite N. cbn [andb].
    apply bind_ok in H as (u2 & s2 & E2 & H). revert E2 SH. apply n_call_args. intros x Hx. apply IH. esz.
  - intros s a s' H SH. unfold visit_super_call in H. apply bind_ok in H as (l & s1 & HL & H). nf IH HL SH.
    destruct l as [v|]; [|discriminate]. apply bind_ok in H as (u & s2 & E1 & H). nf IH E1 SH.
    apply bind_ok in H as (u2 & s3 & E2 & H). revert E2 SH. apply n_call_args. intros x Hx. apply IH. esz.
  - intros s a s' H SH. unfold visit_index in H. apply bind_ok in H as (u & s1 & E1 & H). nf IH E1 SH. rewrite N. cbn [andb].
    apply bind_ok in H as (u2 & s2 & E2 & H). revert E2 SH. apply n_isolated, IH. esz.
  - intros s a s' H SH. unfold visit_is in H. destruct (ta_nullable type_); nf IH H SH; conj2.
  - intros s a s' H SH. unfold visit_prefix in H. nf IH H SH; conj2.
  - intros s a s' H SH. unfold visit_binary, visit_logical in H. destruct op; nf IH H SH; conj2.
  - intros s a s' H SH. unfold visit_assignment in H. destruct e1; try discriminate.
    + cbn [andb]. revert H SH. apply n_assign_ident, IH. esz.
    + unfold assign_field in H. destruct op; nf IH H SH; conj2.
    + unfold assign_index in H. destruct op; nf IH H SH; conj2.
  - intros s a s' H SH. unfold visit_var_decl in H. apply bind_ok in H as (u & s1 & E1 & H); nf IH E1 SH. exact N.
  - apply n_fn_decl, IB. esz.
  - apply n_op_decl, IB. esz.
  - apply n_class; [intros b ->; apply IH; esz|]. intros i Hi. destruct i; cbn [item_nd]; auto; apply IB; esz.
  - intros s a s' H SH. unfold visit_export in H. nf IH H SH; conj2.
  - intros s a s' H SH. unfold visit_if in H. destruct secondary; nf IH H SH; conj2.
  - intros s a s' H SH. unfold visit_while in H. destruct e2; try discriminate.
    assert (HB := n_block true expressions trailing (fun x Hx => IH x ltac:(esz)) (fun x Hx => IH x ltac:(subst; esz))).
    assert (HV := s_block true expressions trailing (fun x _ => visit_sees x) (fun x _ => visit_sees x)). nf IH H SH. conj2.
  - intros s a s' H SH. unfold visit_for in H.
    assert (HI : visit_iterator_loop visit variable e1 e2 s = Ok (a, s') -> no_duplicates e1 && no_duplicates e2 = true).
    { clear H. intros H. unfold visit_iterator_loop in H. nf IH H SH. conj2. }
    assert (HR : forall b lo hi, esize lo < esize (EFor variable e1 e2) -> esize hi < esize (EFor variable e1 e2) ->
       visit_range_loop visit b variable lo hi e2 s = Ok (a, s') -> no_duplicates lo && no_duplicates hi && no_duplicates e2 = true).
    { clear H HI. intros b lo hi L1 L2 H. unfold visit_range_loop in H.
      apply bind_ok in H as (u & s1 & E1 & H). pose proof (IH _ L2 _ _ _ E1 SH). apply (shaped_visit _ _ _ _ E1) in SH.
      apply bind_ok in H as (u2 & s2 & E2 & H). pose proof (IH _ L1 _ _ _ E2 SH). apply (shaped_visit _ _ _ _ E2) in SH.
      nf IH H SH. conj2. }
    destruct e1; try exact (HI H). destruct op; try exact (HI H); (eapply HR; [| |exact H]; esz).
  - intros s a s' H SH. unfold visit_loop in H. destruct e; try discriminate.
    assert (HB := n_block true expressions trailing (fun x Hx => IH x ltac:(esz)) (fun x Hx => IH x ltac:(subst; esz))).
    assert (HV := s_block true expressions trailing (fun x _ => visit_sees x) (fun x _ => visit_sees x)). nf IH H SH. conj2.
  - apply n_block; intros; apply IH; subst; esz.
  - intros s a s' H SH. unfold visit_return_expr in H. destruct result; [|reflexivity]. nf IH H SH; conj2.
Qed.
