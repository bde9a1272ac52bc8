(** Proofs about the scope stack. *)
From Coq Require Import Lia.
From Verif.Model Require Import Scope.
From Verif.Spec Require Import ScopeSpec ScopeRun.

Lemma run_app st h1 h2 s : run st (h1 ++ h2) s = obind (run st h1 s) (run st h2).
Proof.
  revert s. induction h1 as [|e r IH]; intros s; cbn [run app obind]; [reflexivity|].
  destruct (step st e s); cbn [obind]; auto.
Qed.

Fixpoint number (l : list string) : list (string * nat) :=
  match l with [] => [] | x :: r => (x, List.length r) :: number r end.
Definition counts (l : list scope) : Prop := Forall (fun sc => sc_slots sc = List.length (sc_vars sc)) l.

Lemma total_flat l : counts l -> total_slots l = List.length (flat l).
Proof.
  unfold total_slots, flat. induction 1 as [|sc l H _ IH]; cbn [fold_right flat_map]; [reflexivity|].
  rewrite app_length, map_length. lia.
Qed.
Lemma number_length l : List.length (number l) = List.length l.
Proof. induction l; cbn; auto. Qed.

Lemma update_var_flat x f vs :
  (forall v, sv_name (f v) = sv_name v /\ sv_slot (f v) = sv_slot v) ->
  map (fun v => (sv_name v, sv_slot v)) (update_var x f vs) = map (fun v => (sv_name v, sv_slot v)) vs.
Proof.
  intros H. induction vs as [|v vs IH]; cbn [update_var map]; [reflexivity|].
  destruct (String.eqb _ _); cbn [map]; [destruct (H v) as [-> ->]|rewrite IH]; reflexivity.
Qed.
Lemma update_scopes_skip x f l k :
  (forall v, sv_name (f v) = sv_name v /\ sv_slot (f v) = sv_slot v) ->
  flat (skipn k (update_scopes x f l)) = flat (skipn k l).
Proof.
  intros H. revert k. induction l as [|sc l IH]; intros k; cbn [update_scopes]; [reflexivity|].
  destruct (find_var _ _).
  - destruct k as [|k]; cbn [skipn]; [|reflexivity].
    unfold flat. cbn [flat_map set_vars sc_vars]. now rewrite update_var_flat.
  - destruct k as [|k]; cbn [skipn]; [|apply IH].
    unfold flat in *. cbn [flat_map]. f_equal. exact (IH 0).
Qed.
Lemma update_var_length x f vs : List.length (update_var x f vs) = List.length vs.
Proof. induction vs as [|v vs IH]; cbn; [reflexivity|]. destruct (String.eqb _ _); cbn; congruence. Qed.
Lemma update_scopes_counts x f l : counts l -> counts (update_scopes x f l).
Proof.
  unfold counts. induction 1 as [|sc l H HF IH]; cbn [update_scopes]; [constructor|].
  destruct (find_var _ _); constructor; auto.
  cbn [set_vars sc_slots sc_vars]. now rewrite update_var_length.
Qed.
Lemma update_scopes_length x f l : List.length (update_scopes x f l) = List.length l.
Proof. induction l as [|sc l IH]; cbn; [reflexivity|]. destruct (find_var _ _); cbn; congruence. Qed.

Record inv (n : nat) (h : list event) (s : scope_stack) : Prop := {
  inv_depth : List.length (ss_scopes s) = S n;
  inv_counts : counts (ss_scopes s);
  inv_flat : forall k, k < List.length (ss_scopes s) -> flat (skipn k (ss_scopes s)) = number (visible (rev h) k);
  inv_peak : is_peak h (ss_slot_count s) }.

Lemma peak_snoc h e n :
  is_peak h n -> is_peak (h ++ [e]) (Nat.max n (now_visible (h ++ [e]))).
Proof.
  intros [(p & q & Hpq & Hn) Hmax]. split.
  - destruct (Nat.max_dec n (now_visible (h ++ [e]))) as [->| ->].
    + exists p, (q ++ [e]). rewrite Hpq, app_assoc. auto.
    + exists (h ++ [e]), []. rewrite app_nil_r. auto.
  - intros p' q' E. destruct q' as [|a q'] using rev_ind.
    + rewrite app_nil_r in E. subst p'. lia.
    + rewrite app_assoc in E. apply app_inj_tail in E as [E _].
      specialize (Hmax _ _ E). lia.
Qed.
Lemma now_visible_snoc h e :
  now_visible (h ++ [e]) = List.length (visible (e :: rev h) 0).
Proof. unfold now_visible. now rewrite rev_app_distr. Qed.
Lemma peak_ge h n : is_peak h n -> now_visible h <= n.
Proof. intros [_ H]. apply (H h []). now rewrite app_nil_r. Qed.
Lemma visible_skip_le bh k : List.length (visible bh (S k)) <= List.length (visible bh k).
Proof.
  revert k. induction bh as [|e bh IH]; intros k; cbn [visible]; [lia|].
  destruct e; cbn [pred]; auto.
  - destruct k; cbn [pred]; auto.
  - destruct k; auto. specialize (IH 0). cbn [List.length]. lia.
Qed.

Lemma inv_new : inv 0 [] (scope_stack_new KBlock).
Proof.
  split; cbn.
  - reflexivity.
  - repeat constructor.
  - intros k Hk. assert (k = 0) by lia. subst. reflexivity.
  - split; [exists [], []; auto|]. intros p s H. symmetry in H. apply app_eq_nil in H as [-> _]. cbn. lia.
Qed.

Lemma inv_touch n h s e x f :
  (forall v, sv_name (f v) = sv_name v /\ sv_slot (f v) = sv_slot v) ->
  (forall k, visible (e :: rev h) k = visible (rev h) k) ->
  inv n h s -> inv n (h ++ [e]) (update_local x f s).
Proof.
  intros Hf He [Hd Hc Hfl Hp]. split.
  - cbn [update_local ss_scopes]. now rewrite update_scopes_length.
  - apply update_scopes_counts, Hc.
  - unfold update_local. cbn [ss_scopes]. intros k Hk. rewrite update_scopes_length in Hk.
    rewrite update_scopes_skip by exact Hf. rewrite rev_app_distr. cbn [rev app]. rewrite He. auto.
  - cbn [update_local ss_slot_count].
    replace (ss_slot_count s) with (Nat.max (ss_slot_count s) (now_visible (h ++ [e]))); [now apply peak_snoc|].
    rewrite now_visible_snoc, He. apply peak_ge in Hp. unfold now_visible in Hp. lia.
Qed.


Definition next_depth (e : event) (n : nat) : nat :=
  match e with Open => S n | Close => pred n | _ => n end.

Lemma max_same n h e : is_peak h n -> now_visible (h ++ [e]) <= n -> is_peak (h ++ [e]) n.
Proof. intros Hp H. replace n with (Nat.max n (now_visible (h ++ [e]))) by lia. now apply peak_snoc. Qed.

Lemma inv_step st n h e s :
  inv n h s -> (e = Close -> n <> 0) ->
  exists s', step st e s = Ok s' /\ inv (next_depth e n) (h ++ [e]) s'.
Proof.
  intros I Hn. destruct e as [| |x|x|x]; cbn [step next_depth].
  - eexists. split; [reflexivity|]. destruct I as [Hd Hc Hf Hp]. split; cbn [push_scope ss_scopes ss_slot_count].
    + cbn [List.length]. lia.
    + constructor; auto.
    + intros k Hk. rewrite rev_app_distr. cbn [rev app visible List.length] in *.
      destruct k as [|k]; cbn [skipn pred].
      * apply (Hf 0). lia.
      * apply Hf. lia.
    + apply max_same; auto. rewrite now_visible_snoc. cbn [visible pred]. apply peak_ge in Hp. exact Hp.
  - destruct I as [Hd Hc Hf Hp]. unfold pop_scope.
    destruct n as [|n]; [now destruct (Hn eq_refl)|].
    destruct (ss_scopes s) as [|sc l] eqn:E; cbn [List.length] in Hd; [lia|].
    eexists. split; [reflexivity|]. split; cbn [ss_scopes ss_slot_count snd].
    + cbn. lia.
    + now inversion Hc.
    + intros k Hk. rewrite rev_app_distr. cbn [rev app visible]. rewrite <- Hf by (cbn; lia). reflexivity.
    + apply max_same; auto. rewrite now_visible_snoc. cbn [visible].
      pose proof (visible_skip_le (rev h) 0). apply peak_ge in Hp. unfold now_visible in Hp. lia.
  - destruct I as [Hd Hc Hf Hp]. unfold add_local.
    destruct (ss_scopes s) as [|sc l] eqn:E; cbn [List.length] in Hd; [lia|].
    eexists. split; [reflexivity|].
    assert (Hlen : total_slots (sc :: l) = List.length (visible (rev h) 0)).
    { rewrite total_flat by exact Hc. rewrite <- (number_length (visible (rev h) 0)).
      rewrite <- Hf by (cbn; lia). reflexivity. }
    split; cbn [ss_scopes ss_slot_count snd].
    + cbn. lia.
    + inversion Hc; subst. constructor; auto. cbn. congruence.
    + intros k Hk. rewrite rev_app_distr. cbn [rev app visible].
      destruct k as [|k]; cbn [skipn number].
      * rewrite <- (Hf 0) by (cbn; lia). cbn [skipn]. unfold flat. cbn [flat_map sc_vars map app sv_name sv_slot].
        f_equal. f_equal. lia.
      * rewrite <- (Hf (S k)) by exact Hk. reflexivity.
    + replace (if ss_slot_count s <? S (total_slots (sc :: l)) then S (total_slots (sc :: l)) else ss_slot_count s)
        with (Nat.max (ss_slot_count s) (now_visible (h ++ [Declare x]))).
      * now apply peak_snoc.
      * rewrite now_visible_snoc. cbn [visible List.length]. rewrite <- Hlen.
        destruct (Nat.ltb_spec (ss_slot_count s) (S (total_slots (sc :: l)))); lia.
  - eexists. split; [reflexivity|]. apply inv_touch; auto.
  - eexists. split; [reflexivity|]. apply inv_touch; auto.
Qed.

Lemma run_inv st h2 : forall n h1 s,
  inv n h1 s -> balanced_from n h2 -> exists m s', run st h2 s = Ok s' /\ inv m (h1 ++ h2) s'.
Proof.
  induction h2 as [|e h2 IH]; intros n h1 s I B.
  - exists n, s. rewrite app_nil_r. auto.
  - destruct (inv_step st n h1 e s I) as (s1 & H1 & I1).
    { intros -> ->. exact B. }
    destruct (IH _ _ _ I1) as (m & s2 & H2 & I2).
    { destruct e; cbn [balanced_from next_depth] in *; auto. destruct n; [tauto|auto]. }
    exists m, s2. cbn [run]. rewrite H1. cbn [obind]. rewrite <- app_assoc in I2. auto.
Qed.

(** lookup *)
Fixpoint flat_lookup (x : string) (l : list (string * nat)) : option nat :=
  match l with [] => None | (y, n) :: r => if String.eqb y x then Some n else flat_lookup x r end.
Lemma flat_lookup_number x l : flat_lookup x (number l) = resolve x l.
Proof. induction l as [|y l IH]; cbn; [reflexivity|]. now rewrite IH. Qed.
Lemma flat_lookup_app x a b :
  flat_lookup x (a ++ b) = match flat_lookup x a with Some n => Some n | None => flat_lookup x b end.
Proof. induction a as [|[y n] a IH]; cbn; [reflexivity|]. destruct (String.eqb y x); auto. Qed.
Lemma find_var_lookup x vs :
  flat_lookup x (map (fun v => (sv_name v, sv_slot v)) vs) = option_map sv_slot (find_var x vs).
Proof.
  unfold find_var. induction vs as [|v vs IH]; cbn [map find flat_lookup]; [reflexivity|].
  destruct (String.eqb _ _); [reflexivity|exact IH].
Qed.
Lemma find_local_lookup x l : option_map sv_slot (find_local x l) = flat_lookup x (flat l).
Proof.
  induction l as [|sc l IH]; cbn [find_local flat flat_map]; [reflexivity|].
  rewrite flat_lookup_app, find_var_lookup. unfold flat in IH. rewrite <- IH.
  now destruct (find_var x (sc_vars sc)).
Qed.

Lemma history_lookup st h s x :
  balanced_from 0 h -> run st h (scope_stack_new KBlock) = Ok s ->
  option_map sv_slot (local x s) = resolve x (visible (rev h) 0).
Proof.
  intros B H. destruct (run_inv st h 0 [] _ inv_new B) as (m & s' & H' & [Hd _ Hf _]).
  rewrite H in H'. injection H' as <-. unfold local. rewrite find_local_lookup.
  specialize (Hf 0). cbn [skipn] in Hf. rewrite Hf by lia. apply flat_lookup_number.
Qed.

Lemma history_peak st h :
  balanced_from 0 h -> exists s, run st h (scope_stack_new KBlock) = Ok s /\ is_peak h (ss_slot_count s).
Proof.
  intros B. destruct (run_inv st h 0 [] _ inv_new B) as (m & s' & H' & [_ _ _ Hp]). eauto.
Qed.

Lemma history_flat st h s :
  balanced_from 0 h -> run st h (scope_stack_new KBlock) = Ok s -> flat (ss_scopes s) = number (visible (rev h) 0).
Proof.
  intros B H. destruct (run_inv st h 0 [] _ inv_new B) as (m & s' & H' & [Hd _ Hf _]).
  rewrite H in H'. injection H' as <-. apply (Hf 0). lia.
Qed.

Lemma number_slots l : map snd (number l) = rev (seq 0 (List.length l)).
Proof.
  induction l as [|x l IH]; [reflexivity|]. cbn [number map snd List.length].
  rewrite seq_S, rev_app_distr, IH. reflexivity.
Qed.

Lemma history_slots st h s :
  balanced_from 0 h -> run st h (scope_stack_new KBlock) = Ok s ->
  map snd (flat (ss_scopes s)) = rev (seq 0 (now_visible h)) /\ now_visible h <= ss_slot_count s.
Proof.
  intros B H. destruct (run_inv st h 0 [] _ inv_new B) as (m & s' & H' & [Hd _ Hf Hp]).
  rewrite H in H'. injection H' as <-. split.
  - specialize (Hf 0). cbn [skipn] in Hf. rewrite Hf by lia. apply number_slots.
  - now apply peak_ge in Hp.
Qed.

Lemma history_add st h s x :
  balanced_from 0 h -> run st h (scope_stack_new KBlock) = Ok s ->
  exists s', add_local x (st x) s = Ok (now_visible h, s').
Proof.
  intros B H. destruct (run_inv st h 0 [] _ inv_new B) as (m & s' & H' & [Hd Hc Hf _]).
  rewrite H in H'. injection H' as <-. unfold add_local.
  destruct (ss_scopes s) as [|sc l] eqn:E; cbn [List.length] in Hd; [lia|].
  eexists. f_equal. f_equal. rewrite total_flat by exact Hc.
  specialize (Hf 0). cbn [skipn app] in Hf. rewrite Hf by (cbn; lia). rewrite number_length. unfold now_visible. lia.
Qed.

(** A later history that stays inside the current scopes does not move any variable. *)
Lemma visible_inside n h bh :
  balanced_from n h -> exists new m, m <= n /\ visible (rev h ++ bh) 0 = new ++ visible bh m.
Proof.
  assert (G : forall h n bh k, balanced_from n h ->
     exists new m, (k <= 0 -> m <= n) /\ visible (rev h ++ bh) k = new ++ visible bh m /\ m <= n + k).
  { clear. induction h as [|e h IH]; intros n bh k B.
    - exists [], k. cbn. repeat split; lia.
    - cbn [rev]. rewrite <- app_assoc. cbn [app].
      destruct e as [| |x|x|x]; cbn [balanced_from] in B.
      + destruct (IH (S n) (Open :: bh) k B) as (new & m & Hm & E & L). cbn [visible] in E.
        exists new, (pred m). rewrite E. repeat split; lia.
      + destruct n as [|n]; [tauto|]. destruct (IH n (Close :: bh) k B) as (new & m & Hm & E & L). cbn [visible] in E.
        exists new, (S m). rewrite E. repeat split; lia.
      + destruct (IH n (Declare x :: bh) k B) as (new & m & Hm & E & L). cbn [visible] in E.
        destruct m as [|m].
        * exists (new ++ [x]), 0. rewrite E, <- app_assoc. repeat split; lia.
        * exists new, (S m). rewrite E. repeat split; lia.
      + destruct (IH n (Capture x :: bh) k B) as (new & m & Hm & E & L). cbn [visible] in E.
        exists new, m. auto.
      + destruct (IH n (Initialize x :: bh) k B) as (new & m & Hm & E & L). cbn [visible] in E.
        exists new, m. auto. }
  intros B. destruct (G h n bh 0 B) as (new & m & Hm & E & _). exists new, m. split; [apply Hm; lia|exact E].
Qed.

Lemma inside_keeps st h1 h2 s1 s2 :
  balanced_from 0 h1 -> balanced_from 0 h2 ->
  run st h1 (scope_stack_new KBlock) = Ok s1 -> run st h2 s1 = Ok s2 ->
  exists new, flat (ss_scopes s2) = new ++ flat (ss_scopes s1) /\
              (forall x n, In (x, n) new -> List.length (flat (ss_scopes s1)) <= n).
Proof.
  intros B1 B2 R1 R2.
  assert (B12 : balanced_from 0 (h1 ++ h2)).
  { clear R1 R2 s1 s2.
    assert (W : forall h n m, n <= m -> balanced_from n h -> balanced_from m h).
    { clear. induction h as [|e h IH]; cbn; auto. intros n m L B. destruct e; cbn in *; eauto.
      - eapply IH; [|exact B]. lia.
      - destruct n as [|n]; [tauto|]. destruct m as [|m]; [lia|]. eapply IH; [|exact B]. lia. }
    revert B1. generalize 0. induction h1 as [|e h1 IH]; intros n B1; cbn [app].
    - eapply (W _ 0); [|exact B2]. lia.
    - destruct e; cbn [balanced_from] in *; auto. destruct n; auto. }
  assert (R12 : run st (h1 ++ h2) (scope_stack_new KBlock) = Ok s2) by (rewrite run_app, R1; exact R2).
  rewrite (history_flat st _ _ B12 R12), (history_flat st _ _ B1 R1).
  destruct (visible_inside 0 h2 (rev h1) B2) as (new & m & Hm & E).
  assert (m = 0) by lia. subst m. rewrite rev_app_distr, E. clear.
  generalize (visible (rev h1) 0). intros l. induction new as [|x new IH].
  - exists []. split; [reflexivity|]. intros ? ? [].
  - destruct IH as (nw & E & L). exists ((x, List.length (new ++ l)) :: nw). cbn [app number]. rewrite E.
    split; [reflexivity|]. intros y n [F|F]; [|eauto].
    injection F as <- <-. rewrite number_length, app_length. lia.
Qed.
