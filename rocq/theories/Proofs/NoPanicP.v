(** The compiler aborts on no tame program. *)
From Coq Require Import Lia.
From Verif.Model Require Import Compiler.
From Verif.Spec Require Import PanicSpec.
From Verif.Proofs Require Import CodecP AssemblerP CaptureP ExprInd WellFormedP StaticP.

(** * What matters of a compiler state *)
Record kscope := KS { ks_vars : sorts; ks_calls : nat }.
Definition kctx := (compiler_kind * list kscope)%type.
Definition sort_state (st : var_state) : sort :=
  match st with SLocal _ _ => IsVariable | SFunction _ => IsFunction | SClass _ => IsClass end.
Definition kvar (v : scope_var) : string * sort := (sv_name v, sort_state (sv_state v)).
Definition ks (sc : scope) : kscope := KS (map kvar (sc_vars sc)) (cc_depth (sc_call sc)).
Definition kc (c : context) : kctx := (cx_kind c, map ks (ss_scopes (cx_scopes c))).
Definition kv (s : cstate) : list kctx := map kc (cs_stack s).
Definition known (scs : list kscope) : sorts := flat_map ks_vars scs.

(** Positions recorded for patching lie in the code. *)
Definition code_len (c : context) : nat := List.length (asm_data (cx_asm c)).
Definition within_code (n : nat) (l : list nat) : Prop := Forall (fun p => p + 2 <= n) l.
Definition exits_in (n : nat) (sc : scope) : Prop := within_code n (sc_exits sc) /\ within_code n (cc_exits (sc_call sc)).
Definition ctx_fine (c : context) : Prop := Forall (exits_in (code_len c)) (ss_scopes (cx_scopes c)).
Definition fine (s : cstate) : Prop := Forall ctx_fine (cs_stack s).
Definition grows (s s' : cstate) : Prop := Forall2 (fun c c' => code_len c <= code_len c') (cs_stack s) (cs_stack s').
Definition pending (J : list nat) (s : cstate) : Prop :=
  match cs_stack s with c :: _ => within_code (code_len c) J | [] => True end.

Lemma within_le n m l : n <= m -> within_code n l -> within_code m l.
Proof. intros L. apply Forall_impl. intros p. lia. Qed.
Lemma exits_le n m sc : n <= m -> exits_in n sc -> exits_in m sc.
Proof. intros L [A B]. split; eapply within_le; eauto. Qed.
Lemma grows_refl s : grows s s.
Proof. unfold grows. induction (cs_stack s); constructor; auto. Qed.
Lemma grows_trans a b c : grows a b -> grows b c -> grows a c.
Proof.
  unfold grows. intros H. revert c. generalize dependent (cs_stack b). generalize (cs_stack a). clear a b. intros l l' H.
  induction H as [|x y a b H _ IH]; intros [st n] K; cbn [cs_stack] in *; inversion K as [|? z ? st' HK HR]; subst; constructor; [lia|].
  exact (IH (CState st' 0) HR).
Qed.
Lemma pending_grows J s s' : grows s s' -> pending J s -> pending J s'.
Proof.
  unfold grows, pending. intros H. inversion H as [|x y a b L H']; [auto|]. apply within_le, L.
Qed.

Definition runs {T} (J : list nat) (V : list kctx) (m : M T) (V' : list kctx) (R : T -> list nat) : Prop :=
  forall s, kv s = V -> fine s -> pending J s ->
  match m s with
  | Ok (a, s') => kv s' = V' /\ fine s' /\ grows s s' /\ pending (R a) s'
  | Err _ => True
  | _ => False
  end.
Definition none {T} (_ : T) : list nat := [].
Definition calm {T} (m : M T) : Prop := forall J V, runs J V m V none.

Lemma pending_nil s : pending [] s.
Proof. unfold pending. destruct (cs_stack s); [exact Logic.I|constructor]. Qed.
Lemma pending_app A B s : pending (A ++ B) s <-> pending A s /\ pending B s.
Proof. unfold pending, within_code. destruct (cs_stack s); [tauto|]. apply Forall_app. Qed.
Lemma pending_incl A B s : incl A B -> pending B s -> pending A s.
Proof. unfold pending, within_code. intros I. destruct (cs_stack s); [auto|]. rewrite !Forall_forall. auto. Qed.

Lemma r_ret {T} J V (a : T) : runs J V (ret a) V none.
Proof. intros s K F P. cbn. auto using grows_refl, pending_nil. Qed.
Lemma r_fail {T} J V e V' (R : T -> list nat) : runs J V (fail e) V' R.
Proof. intros s K F P. exact Logic.I. Qed.
Lemma r_bind {T U} J V (m : M T) (f : T -> M U) V1 R V' R' :
  runs J V m V1 R -> (forall a, runs (R a ++ J) V1 (f a) V' R') -> runs J V (bind m f) V' R'.
Proof.
  intros Hm Hf s K F P. unfold bind. specialize (Hm s K F P). destruct (m s) as [[a s1]|e| |]; try tauto.
  destruct Hm as (K1 & F1 & G1 & P1).
  specialize (Hf a s1 K1 F1). destruct (f a s1) as [[b s2]|e| |]; try (apply Hf; apply pending_app; eauto using pending_grows).
  destruct Hf as (K2 & F2 & G2 & P2); [apply pending_app; eauto using pending_grows|]. eauto using grows_trans.
Qed.
Lemma r_conv {T} J V (m : M T) V' V2 R R2 : runs J V m V2 R -> V2 = V' -> (forall a, incl (R2 a) (R a)) -> runs J V m V' R2.
Proof.
  intros H <- I s K F P. specialize (H s K F P). destruct (m s) as [[a s']|e| |]; auto.
  destruct H as (A & B & C & D). eauto using pending_incl.
Qed.
Lemma r_less {T} J J2 V (m : M T) V' R : runs J V m V' R -> incl J J2 -> runs J2 V m V' R.
Proof. intros H I s K F P. apply H; eauto using pending_incl. Qed.
(** A bind whose first part leaves everything alone. *)
Lemma r_then {T U} J V (m : M T) (f : T -> M U) V' R' :
  calm m -> (forall a, runs J V (f a) V' R') -> runs J V (bind m f) V' R'.
Proof. intros C Hf. eapply r_bind; [apply C|]. intros a. cbn [none app]. apply Hf. Qed.

Lemma c_bind {T U} (m : M T) (f : T -> M U) : calm m -> (forall a, calm (f a)) -> calm (bind m f).
Proof. intros Cm Cf J V. apply r_then; [exact Cm|]. intros a. apply Cf. Qed.
Lemma c_ret {T} (a : T) : calm (ret a).
Proof. intros J V. apply r_ret. Qed.
Lemma c_fail {T} e : calm (@fail T e).
Proof. intros J V. apply r_fail. Qed.
Lemma c_each {A} (f : A -> M unit) l : (forall x, In x l -> calm (f x)) -> calm (each f l).
Proof.
  intros H. induction l as [|x l IH]; cbn [each]; [apply c_ret|]. apply c_bind; [apply H; now left|].
  intros _. apply IH. intros y Hy. apply H. now right.
Qed.
Lemma c_times n m : calm m -> calm (times n m).
Proof. intros H. induction n as [|n IH]; cbn [times]; [apply c_ret|]. apply c_bind; auto. Qed.

(** * The assembler *)
Lemma r_asm {T} J V (f : assembler -> outcome (T * assembler)) R :
  (forall a, within_code (List.length (asm_data a)) J -> match f a with
   | Ok (x, a') => List.length (asm_data a) <= List.length (asm_data a') /\ within_code (List.length (asm_data a')) (R x)
   | Err _ => True | _ => False end) ->
  runs J V (on_asm f) V R.
Proof.
  intros H s K F P. unfold on_asm, bind, get_context, lift, set_context, ret.
  unfold kv, fine, pending in *. destruct (cs_stack s) as [|c o] eqn:E; [exact Logic.I|].
  specialize (H (cx_asm c) P). destruct (f (cx_asm c)) as [[x a']|e| |]; try tauto. rewrite E. cbn [cs_stack fst snd].
  destruct H as [L W]. inversion F as [|? ? F1 F2]; subst. cbn [map]. repeat split; auto.
  - constructor; [|exact F2]. unfold ctx_fine, code_len in *. cbn [set_asm cx_asm cx_scopes].
    eapply Forall_impl; [|exact F1]. intros sc. now apply exits_le.
  - unfold grows. rewrite E. cbn [cs_stack]. constructor; [exact L|]. clear. induction o; constructor; auto.
Qed.
Lemma calm_asm {T} (f : assembler -> outcome (T * assembler)) :
  (forall a, match f a with
   | Ok (x, a') => List.length (asm_data a) <= List.length (asm_data a')
   | Err _ => True | _ => False end) -> calm (on_asm f).
Proof.
  intros H J V. apply r_asm. intros a _. specialize (H a). destruct (f a) as [[x a']|e| |]; auto.
  split; [exact H|constructor].
Qed.
Lemma put_len b a : List.length (asm_data (put_u8 b a)) = S (List.length (asm_data a)).
Proof. unfold put_u8. cbn [asm_data]. rewrite app_length. cbn. lia. Qed.
Lemma const_len k a : match make_constant k a with Ok (_, a') => asm_data a' = asm_data a | Err _ => True | _ => False end.
Proof.
  unfold make_constant. destruct (position _ _) as [p|]; [destruct (255 <? p); auto|]. cbv zeta.
  match goal with |- context [255 <? ?n] => destruct (255 <? n) end; auto.
Qed.
Lemma c_emit o : calm (emit o).
Proof. apply calm_asm. intros a. unfold emit0. rewrite put_len. lia. Qed.
Lemma c_emit_u8 o b : calm (emit_u8 o b).
Proof. apply calm_asm. intros a. unfold emit1. rewrite !put_len. lia. Qed.
Lemma c_emit_c o k : calm (emit_c o k).
Proof.
  apply calm_asm. intros a. unfold emit_const, omap, obind. generalize (const_len k a).
  destruct (make_constant k a) as [[p a']|e| |]; try tauto. intros E. unfold emit1. rewrite !put_len, E. lia.
Qed.
Lemma c_emit_lftl f b : calm (emit_lftl f b).
Proof.
  apply calm_asm. intros a. unfold emit_load_field_to_local, omap, obind. generalize (const_len (CSymbol f) a).
  destruct (make_constant _ a) as [[p a']|e| |]; try tauto. intros E. rewrite !put_len, E. lia.
Qed.
Lemma c_emit_clo k u : calm (emit_clo k u).
Proof.
  apply calm_asm. intros a. unfold emit_closure, omap, obind.
  generalize (const_len k (put_u8 (opcode_to_byte OpCreateClosure) a)).
  destruct (make_constant k _) as [[p a']|e| |]; try tauto. intros E. cbv zeta.
  destruct (255 <? List.length u); [exact Logic.I|]. cbn [asm_data]. rewrite app_length, put_len, E, put_len. lia.
Qed.
Lemma i16_len z a : List.length (asm_data (put_i16 z a)) = List.length (asm_data a) + 2.
Proof. unfold put_i16. cbn [asm_data]. rewrite app_length. reflexivity. Qed.
Lemma r_jump J V o : runs J V (jump o) V (fun p => [p]).
Proof.
  apply r_asm. intros a _. unfold emit_jump. rewrite i16_len, put_len. split; [lia|].
  constructor; [lia|constructor].
Qed.
Lemma c_jump_back p : calm (jump_back p).
Proof. apply calm_asm. intros a. unfold emit_jump_back. rewrite i16_len, put_len. lia. Qed.
Lemma c_here : calm here.
Proof. apply calm_asm. intros a. lia. Qed.
Lemma r_patch J V p : In p J -> runs J V (patch p) V none.
Proof.
  intros I. apply r_asm. intros a W. unfold within_code in W. rewrite Forall_forall in W. specialize (W p I).
  unfold patch_jump, omap, obind, current_position. destruct (Nat.ltb_spec (List.length (asm_data a)) (p + 2)); [lia|].
  cbv zeta. unfold i16_bytes. cbn [asm_data]. rewrite !set_nth_length. split; [lia|constructor].
Qed.
Lemma r_patches J V l : incl l J -> runs J V (each patch l) V none.
Proof.
  intros I. induction l as [|p l IH]; cbn [each]; [apply r_ret|].
  eapply r_bind; [apply r_patch, I; now left|]. intros a. cbn [none app]. apply IH. intros q Hq. apply I. now right.
Qed.

(** * Scopes *)
Lemma r_scopes {T} J c scs o (f : scope_stack -> outcome (T * scope_stack)) scs' R :
  (forall ss n, map ks (ss_scopes ss) = scs -> Forall (exits_in n) (ss_scopes ss) -> within_code n J -> match f ss with
   | Ok (x, ss') => map ks (ss_scopes ss') = scs' /\ Forall (exits_in n) (ss_scopes ss') /\ within_code n (R x)
   | Err _ => True | _ => False end) ->
  runs J ((c, scs) :: o) (on_scopes f) ((c, scs') :: o) R.
Proof.
  intros H s K F P. unfold on_scopes, bind, get_context, lift, set_context, ret.
  unfold kv, fine, pending in *. destruct (cs_stack s) as [|x r] eqn:E; [exact Logic.I|].
  cbn [map] in K. injection K as <- K <-. inversion F as [|? ? F1 F2]; subst.
  specialize (H (cx_scopes x) (code_len x) eq_refl F1 P). destruct (f (cx_scopes x)) as [[y ss']|e| |]; try tauto.
  rewrite E. cbn [cs_stack fst snd]. destruct H as (K' & F' & P'). repeat split; auto.
  - cbn [map]. unfold kc at 1. cbn [set_scopes cx_kind cx_scopes]. now rewrite K'.
  - unfold grows. rewrite E. cbn [cs_stack]. constructor; [reflexivity|]. clear. induction r; constructor; auto.
Qed.
Lemma r_push J c scs o k e : runs J ((c, scs) :: o) (m_push_scope k e) ((c, KS [] 0 :: scs) :: o) none.
Proof.
  apply r_scopes. intros ss n K F W. cbn [push_scope ss_scopes map]. rewrite K. repeat split; [|constructor].
  constructor; [split; constructor|exact F].
Qed.
Lemma r_pop J c sc scs o : runs J ((c, sc :: scs) :: o) m_pop_scope ((c, scs) :: o) (fun sc => sc_exits sc).
Proof.
  apply r_scopes. intros ss n K F W. unfold pop_scope. destruct (ss_scopes ss) as [|x l]; [exact Logic.I|].
  cbn [map] in K. injection K as _ K. inversion F as [|? ? [F1 _] F2]; subst. cbn [ss_scopes]. auto.
Qed.
Lemma r_add J c vs n scs o x st :
  runs J ((c, KS vs n :: scs) :: o) (m_add_local x st) ((c, KS ((x, sort_state st) :: vs) n :: scs) :: o) none.
Proof.
  apply r_scopes. intros ss m K F W. unfold add_local. destruct (ss_scopes ss) as [|y l]; [exact Logic.I|].
  cbn [map] in K. injection K as Kv Kc K. cbv zeta. cbn [ss_scopes map ks sc_vars sc_call]. inversion F as [|? ? F1 F2]; subst.
  repeat split; [|constructor]. constructor; auto.
Qed.
Lemma find_var_sort x vs : sort_of x (map kvar vs) = option_map (fun v => sort_state (sv_state v)) (find_var x vs).
Proof.
  unfold find_var. induction vs as [|v vs IH]; cbn [map sort_of find]; [reflexivity|].
  unfold kvar at 1. now destruct (String.eqb (sv_name v) x).
Qed.
Lemma sort_app x D E : sort_of x (D ++ E) = match sort_of x D with Some m => Some m | None => sort_of x E end.
Proof. induction D as [|[y m] D IH]; cbn [app sort_of]; [reflexivity|]. now destruct (String.eqb y x). Qed.
Lemma find_local_sort x l : sort_of x (known (map ks l)) = option_map (fun v => sort_state (sv_state v)) (find_local x l).
Proof.
  unfold known. induction l as [|sc l IH]; cbn [map flat_map find_local]; [reflexivity|].
  rewrite sort_app. unfold ks at 1. cbn [ks_vars]. rewrite find_var_sort, IH. now destruct (find_var x (sc_vars sc)).
Qed.
(** Looking a name up. *)
Definition finds (l : option scope_var) : option sort := option_map (fun v => sort_state (sv_state v)) l.
Lemma r_local {T} J c scs o x (f : option scope_var -> M T) V' R :
  (forall l, finds l = sort_of x (known scs) -> runs J ((c, scs) :: o) (f l) V' R) ->
  runs J ((c, scs) :: o) (l <- m_local x ;; f l) V' R.
Proof.
  intros H s K F P. unfold bind at 1, m_local, on_scopes, bind, get_context, lift, set_context, ret.
  pose proof K as K'. unfold kv in K'. destruct (cs_stack s) as [|y r] eqn:E; [exact Logic.I|].
  cbn [map] in K'. injection K' as _ K' _. rewrite E. cbn [fst snd].
  replace (CState (set_scopes (cx_scopes y) y :: r) (cs_next_id s)) with s.
  - apply H; auto. unfold finds, local. rewrite <- K'. symmetry. apply find_local_sort.
  - destruct s as [st n]. cbn in *. subst st. now destruct y.
Qed.
Lemma c_local x : calm (m_local x).
Proof.
  intros J V. destruct V as [|[c scs] o].
  - intros s K F P. unfold kv in K. unfold m_local, on_scopes, bind, get_context. now destruct (cs_stack s).
  - apply r_scopes. intros ss n K F W. repeat split; auto. constructor.
Qed.
Lemma sort_update_var x f vs : (forall v, find_var x vs = Some v -> kvar (f v) = kvar v) -> map kvar (update_var x f vs) = map kvar vs.
Proof.
  unfold find_var. induction vs as [|v vs IH]; cbn [update_var find map]; [reflexivity|].
  destruct (String.eqb (sv_name v) x); intros H; cbn [map]; [now rewrite (H v)|]. now rewrite IH.
Qed.
Lemma sort_update_scopes x f l : (forall v, find_local x l = Some v -> kvar (f v) = kvar v) -> map ks (update_scopes x f l) = map ks l.
Proof.
  induction l as [|sc l IH]; cbn [update_scopes find_local map]; [reflexivity|].
  destruct (find_var x (sc_vars sc)) eqn:E; intros H; cbn [map].
  - unfold ks at 1. cbn [set_vars sc_vars sc_call]. rewrite sort_update_var; [reflexivity|].
    intros v Hv. apply H. congruence.
  - now rewrite IH.
Qed.
Lemma exits_update_scopes n x f l : Forall (exits_in n) l -> Forall (exits_in n) (update_scopes x f l).
Proof.
  induction 1 as [|sc l [A B] H IH]; cbn [update_scopes]; [constructor|].
  destruct (find_var x (sc_vars sc)); constructor; auto; split; auto.
Qed.
Lemma r_set_state J c scs o x st : sort_of x (known scs) = Some (sort_state st) ->
  runs J ((c, scs) :: o) (m_set_state x st) ((c, scs) :: o) none.
Proof.
  intros H. apply r_scopes. intros ss n K F W. cbn [update_local ss_scopes]. repeat split; [|now apply exits_update_scopes|constructor].
  rewrite sort_update_scopes; [exact K|]. intros v Hv. subst scs. rewrite find_local_sort, Hv in H. injection H as H.
  unfold kvar, set_state. cbn [sv_name sv_state]. now rewrite H.
Qed.
Lemma r_top {T} J c vs n scs o (f : scope -> M T) V' R :
  (forall sc, cc_depth (sc_call sc) = n -> runs (cc_exits (sc_call sc) ++ J) ((c, KS vs n :: scs) :: o) (f sc) V' R) ->
  runs J ((c, KS vs n :: scs) :: o) (sc <- m_top_scope ;; f sc) V' R.
Proof.
  intros H s K F P. unfold bind at 1, m_top_scope, on_scopes, bind, get_context, lift, set_context, ret, omap, obind, top_scope.
  pose proof K as K'. pose proof F as F'. pose proof P as P'. unfold kv, fine, pending in K', F', P'.
  destruct (cs_stack s) as [|y r] eqn:E; [exact Logic.I|].
  cbn [map] in K'. injection K' as Ec K' Eo. inversion F' as [|? ? F1 _]; subst.
  destruct (ss_scopes (cx_scopes y)) as [|sc l] eqn:Es; [exact Logic.I|]. rewrite E. cbn [fst snd].
  replace (CState (set_scopes (cx_scopes y) y :: r) (cs_next_id s)) with s.
  - cbn [map] in K'. injection K' as K1 K2 K3. apply H; auto. unfold pending. rewrite E. unfold within_code. apply Forall_app. split; [|exact P'].
    unfold ctx_fine in F1. rewrite Es in F1. inversion F1 as [|? ? [_ B] _]; subst. exact B.
  - destruct s as [st m]. cbn in *. subst st. now destruct y.
Qed.
Lemma c_top : calm m_top_scope.
Proof.
  intros J V. destruct V as [|[c scs] o].
  - intros s K F P. unfold kv in K. unfold m_top_scope, on_scopes, bind, get_context. now destruct (cs_stack s).
  - apply r_scopes. intros ss n K F W. unfold top_scope, omap, obind. destruct (ss_scopes ss) as [|y l] eqn:E; [exact Logic.I|]. rewrite E.
    repeat split; auto. constructor.
Qed.
(** Changing the call chain of the innermost scope. *)
Lemma r_call J c vs n n' scs o f :
  (forall sc, sc_vars (f sc) = sc_vars sc /\ sc_exits (f sc) = sc_exits sc) ->
  (forall sc, cc_depth (sc_call sc) = n -> cc_depth (sc_call (f sc)) = n') ->
  (forall sc, incl (cc_exits (sc_call (f sc))) (cc_exits (sc_call sc) ++ J)) ->
  runs J ((c, KS vs n :: scs) :: o) (m_update_top f) ((c, KS vs n' :: scs) :: o) none.
Proof.
  intros H1 H2 H3. apply r_scopes. intros ss m K F W. unfold update_top, omap, obind. destruct (ss_scopes ss) as [|sc l]; [exact Logic.I|].
  cbn [map] in K. injection K as Kv Kc K. inversion F as [|? ? [F1 F2] F3]; subst. cbn [ss_scopes map]. destruct (H1 sc) as [Hv He].
  repeat split; [| |constructor].
  - f_equal. unfold ks. now rewrite Hv, (H2 sc eq_refl).
  - constructor; [|exact F3]. split; [now rewrite He|]. unfold within_code in *. rewrite Forall_forall in *.
    intros p Hp. apply H3, in_app_or in Hp as [Hp|Hp]; auto.
Qed.
Lemma r_loop_exit J V j : In j J -> runs J V (on_scopes (fun s => omap (fun s' => (tt, s')) (add_loop_exit_point j s))) V none.
Proof.
  intros I. destruct V as [|[c scs] o].
  - intros s K F P. unfold kv in K. unfold on_scopes, bind, get_context. now destruct (cs_stack s).
  - apply r_scopes. intros ss n K F W. unfold add_loop_exit_point. unfold within_code in W. rewrite Forall_forall in W. specialize (W j I).
    enough (H : match add_loop_exit j (ss_scopes ss) with Some l => map ks l = scs /\ Forall (exits_in n) l | None => True end).
    { destruct (add_loop_exit j (ss_scopes ss)) as [l|]; cbn [omap obind]; [|exact Logic.I]. cbn [ss_scopes].
      destruct H. repeat split; auto. constructor. }
    subst scs. revert F. induction (ss_scopes ss) as [|sc l IH]; intros F; cbn [add_loop_exit]; [exact Logic.I|].
    inversion F as [|? ? [A B] F2]; subst. destruct (scope_kind_eqb (sc_kind sc) KLoop).
    + split; [reflexivity|]. constructor; [|exact F2]. split; [|exact B]. cbn [add_exit sc_exits]. unfold within_code. apply Forall_app. split; [exact A|].
      constructor; [exact W|constructor].
    + specialize (IH F2). destruct (add_loop_exit j l) as [l'|]; cbn [option_map]; [|exact Logic.I]. cbn [map]. destruct IH as [-> IH].
      split; [reflexivity|]. constructor; [split; auto|exact IH].
Qed.
Lemma c_entry k : calm (on_scopes (fun s => omap (fun p => (p, s)) (entry_point k s))).
Proof.
  intros J V. destruct V as [|[c scs] o].
  - intros s K F P. unfold kv in K. unfold on_scopes, bind, get_context. now destruct (cs_stack s).
  - apply r_scopes. intros ss n K F W. unfold entry_point, omap, obind. destruct (first_of_kind k ss) as [sc|]; [|exact Logic.I].
    destruct (sc_entry sc); [|exact Logic.I]. repeat split; auto. constructor.
Qed.
Lemma c_get_context : calm get_context.
Proof.
  intros J V s K F P. unfold get_context. destruct (cs_stack s) eqn:E; [exact Logic.I|]. auto using grows_refl, pending_nil.
Qed.
Lemma c_get_temps : calm get_temps.
Proof. apply c_bind; [apply c_get_context|intros; apply c_ret]. Qed.
Lemma c_put_temps n : calm (put_temps n).
Proof.
  intros J V s K F P. unfold put_temps, bind, get_context, set_context. unfold kv, fine, grows, pending in *.
  destruct (cs_stack s) as [|c o] eqn:E; [exact Logic.I|]. rewrite E. cbn [cs_stack]. inversion F; subst. split; [reflexivity|]. split; [constructor; auto|]. split; [|constructor].
  constructor; [reflexivity|]. clear. induction o; constructor; auto.
Qed.
Lemma c_fresh : calm fresh_id.
Proof.
  intros J V s K F P. unfold fresh_id. unfold kv, fine, grows, pending in *. cbn [cs_stack]. repeat split; auto.
  - apply (grows_refl s).
  - destruct (cs_stack s); [exact Logic.I|constructor].
Qed.
Lemma r_kind {T} J c scs o (f : compiler_kind -> M T) V' R :
  runs J ((c, scs) :: o) (f c) V' R -> runs J ((c, scs) :: o) (k <- get_kind ;; f k) V' R.
Proof.
  intros H s K F P. unfold bind at 1, get_kind, bind, get_context, ret. pose proof K as K'. unfold kv in K'.
  destruct (cs_stack s) as [|y r] eqn:E; [exact Logic.I|]. cbn [map] in K'. injection K' as -> _ _. now apply H.
Qed.
Lemma resolve_fine x st : forall i st', resolve_upvalue x st = Some (i, st') ->
  map kc st' = map kc st /\ (Forall ctx_fine st -> Forall ctx_fine st') /\ Forall2 (fun c c' => code_len c <= code_len c') st st'.
Proof.
  assert (R : forall l, Forall2 (fun c c' => code_len c <= code_len c') l l) by (induction l; constructor; auto).
  induction st as [|cur outer IH]; cbn [resolve_upvalue]; [discriminate|].
  destruct outer as [|parent rest]; [discriminate|]. intros i st'.
  destruct (local x (cx_scopes parent)) as [v|] eqn:E.
  - destruct (add_upvalue _ cur) as [j cur'] eqn:A. intros H. injection H as <- <-.
    apply add_upvalue_spec in A as (_ & _ & K & Q & S & _). split; [|split].
    + cbn [map]. unfold kc at 1 2. cbn [set_scopes cx_kind cx_scopes]. rewrite K, S. cbn [update_local ss_scopes].
      rewrite sort_update_scopes by reflexivity. reflexivity.
    + intros F. inversion F as [|? ? F1 F2]; subst. inversion F2 as [|? ? F3 F4]; subst. constructor; [|constructor; [|exact F4]].
      * unfold ctx_fine, code_len in *. now rewrite Q, S.
      * unfold ctx_fine, code_len in *. cbn [set_scopes cx_asm cx_scopes update_local ss_scopes]. now apply exits_update_scopes.
    + constructor; [unfold code_len; now rewrite Q|]. constructor; [reflexivity|apply R].
  - destruct (resolve_upvalue x (parent :: rest)) as [[j outer']|] eqn:RS; [|discriminate].
    destruct (add_upvalue _ cur) as [k cur'] eqn:A. intros H. injection H as <- <-.
    apply add_upvalue_spec in A as (_ & _ & K & Q & S & _). specialize (IH _ _ eq_refl) as (I1 & I2 & I3). split; [|split].
    + cbn [map] in *. rewrite I1. unfold kc at 1 3. now rewrite K, S.
    + intros F. inversion F as [|? ? F1 F2]; subst. constructor; [|now apply I2]. unfold ctx_fine, code_len in *. now rewrite Q, S.
    + constructor; [unfold code_len; now rewrite Q|exact I3].
Qed.
Lemma c_resolve x : calm (m_resolve_upvalue x).
Proof.
  intros J V s K F P. unfold m_resolve_upvalue. destruct (resolve_upvalue x (cs_stack s)) as [[i st]|] eqn:E.
  - apply resolve_fine in E as (A & B & C). unfold kv, fine, grows in *. cbn [cs_stack]. rewrite A. auto using pending_nil.
  - auto using grows_refl, pending_nil.
Qed.
