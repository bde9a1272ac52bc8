(** Codes, messages and tags. *)
From Verif.Spec Require Import MessageSpec.

Lemma text_eqb_spec a : forall b, text_eqb a b = true <-> a = b.
Proof.
  induction a as [|x a IH]; intros [|y b]; cbn [text_eqb]; split; try discriminate; try reflexivity.
  - intros H. apply andb_true_iff in H as [H1 H2]. apply N.eqb_eq in H1. apply IH in H2. now subst.
  - intros [= <- <-]. rewrite N.eqb_refl. cbn [andb]. now apply IH.
Qed.

Lemma find_message_in id : forall l p, find_message id l = Some p -> In (id, p) l.
Proof.
  induction l as [|[k q] l IH]; intros p H; cbn [find_message] in H; [discriminate|].
  destruct (text_eqb id k) eqn:E.
  - apply text_eqb_spec in E. injection H as <-. subst. now left.
  - right. now apply IH.
Qed.

Lemma argument_none n : forall l, (forall k v, In (k, v) l -> n <> chars k) -> argument n l = None.
Proof.
  induction l as [|[k v] l IH]; intros H; cbn [argument]; [reflexivity|].
  rewrite IH by (intros k' v' Hin; apply (H k' v'); now right).
  destruct (text_eqb n (chars k)) eqn:E; [|reflexivity]. apply text_eqb_spec in E. destruct (H k v (or_introl eq_refl) E).
Qed.

(** Names spelled differently. *)
Fixpoint distinct (l : list string) : bool :=
  match l with
  | [] => true
  | n :: r => negb (existsb (fun m => text_eqb (chars n) (chars m)) r) && distinct r
  end.

Lemma argument_in : forall l k v, distinct (map fst l) = true -> In (k, v) l -> argument (chars k) l = Some v.
Proof.
  induction l as [|[k' v'] l IH]; intros k v D H; [contradiction|].
  cbn [map fst distinct] in D. apply andb_true_iff in D as [D1 D2]. cbn [argument].
  destruct H as [H|H].
  - injection H as -> ->. rewrite argument_none.
    + assert (E : text_eqb (chars k) (chars k) = true) by (now apply text_eqb_spec). now rewrite E.
    + intros k2 v2 Hin C. apply negb_true_iff in D1.
      assert (X : existsb (fun m => text_eqb (chars k) (chars m)) (map fst l) = true); [|congruence].
      apply existsb_exists. exists k2. split; [exact (in_map fst _ _ Hin)|]. now apply text_eqb_spec.
  - now rewrite (IH k v D2 H).
Qed.

Lemma render_shows l n v : forall p, In (PVar n) p -> argument n l = Some v -> part_of v (render l p).
Proof.
  unfold render. induction p as [|x p IH]; intros H A; [contradiction|]. cbn [flat_map].
  destruct H as [->|H].
  - exists [], (flat_map (render_piece l) p). cbn [app render_piece]. now rewrite A.
  - destruct (IH H A) as (u & w & E). exists (render_piece l x ++ u), w. rewrite E. now rewrite <- app_assoc.
Qed.

Lemma render_nonempty l c : forall p, In (PChar c) p -> render l p <> [].
Proof.
  unfold render. induction p as [|x p IH]; intros H; [contradiction|]. cbn [flat_map]. destruct H as [->|H].
  - cbn [render_piece app]. discriminate.
  - intros C. apply app_eq_nil in C as [_ C]. exact (IH H C).
Qed.

(** The checks that are computed over the tables. *)
Definition is_var (n : list char) (p : piece) : bool := match p with PVar m => text_eqb n m | PChar _ => false end.
Definition is_letter (p : piece) : bool := match p with PChar _ => true | PVar _ => false end.
Definition uses (names : list string) (p : piece) : bool :=
  match p with PVar m => existsb (fun n => text_eqb m (chars n)) names | PChar _ => true end.
Definition shown_check (id : string) (names : list string) : bool :=
  match find_message (chars id) locale_messages with
  | Some p => distinct names && forallb (fun n => existsb (is_var (chars n)) p) names && existsb is_letter p
  | None => false
  end.
Definition closed_check (id : string) (names : list string) : bool :=
  match find_message (chars id) locale_messages with
  | Some p => forallb (uses names) p
  | None => false
  end.

Lemma shown_from_check id l : shown_check id (map fst l) = true -> shows_tags id l /\ localize id l <> [].
Proof.
  unfold shown_check, shows_tags, localize. destruct (find_message (chars id) locale_messages) as [p|]; [|discriminate].
  intros H. apply andb_true_iff in H as [H H3]. apply andb_true_iff in H as [H1 H2]. split.
  - intros k v Hin. rewrite forallb_forall in H2. specialize (H2 k (in_map fst _ _ Hin)).
    apply existsb_exists in H2 as (x & Hx & Ex). destruct x as [c|m]; [discriminate|]. apply text_eqb_spec in Ex. subst m.
    exact (render_shows l (chars k) v p Hx (argument_in l k v H1 Hin)).
  - apply existsb_exists in H3 as (x & Hx & Ex). destruct x as [c|m]; [|discriminate]. exact (render_nonempty l c p Hx).
Qed.

Lemma closed_from_check id l : closed_check id (map fst l) = true -> nothing_open id l.
Proof.
  unfold closed_check, nothing_open. destruct (find_message (chars id) locale_messages) as [p|] eqn:E; [|discriminate].
  intros H. exists p. split; [exact (find_message_in _ _ _ E)|]. intros n Hn. rewrite forallb_forall in H.
  specialize (H _ Hn). cbn [uses] in H. apply existsb_exists in H as (k & Hk & Ek). apply text_eqb_spec in Ek.
  apply in_map_iff in Hk as ([k' v] & Ek' & Hin). cbn [fst] in Ek'. subst k'. exists k, v. split; assumption.
Qed.

Lemma raised_checked : forallb (fun '(c, names) => shown_check (code_text c) names) raised = true.
Proof. vm_compute. reflexivity. Qed.
Lemma raised_closed :
  forallb (fun '(c, names) => closed_check (code_text c) names) (removelast raised) = true.
Proof. vm_compute. reflexivity. Qed.
Lemma noted_checked : forallb (fun '(id, names) => shown_check id names && closed_check id names) noted = true.
Proof. vm_compute. reflexivity. Qed.

Lemma raised_shows c l : In (c, map fst l) raised -> shows_tags (code_text c) l /\ localize_error_code c l <> [].
Proof.
  intros H. pose proof raised_checked as R. rewrite forallb_forall in R. exact (shown_from_check _ _ (R _ H)).
Qed.

Lemma raised_last : raised = removelast raised ++ [(PANIC, [])].
Proof. reflexivity. Qed.

Lemma raised_complete c l : In (c, map fst l) raised -> (c, l) <> (PANIC, []) -> nothing_open (code_text c) l.
Proof.
  intros H N. rewrite raised_last in H. apply in_app_or in H as [H|[H|[]]].
  - pose proof raised_closed as R. rewrite forallb_forall in R. exact (closed_from_check _ _ (R _ H)).
  - exfalso. apply N. injection H as <- H. destruct l; [reflexivity|discriminate].
Qed.

Lemma noted_shows id l : In (id, map fst l) noted ->
  shows_tags id l /\ nothing_open id l /\ localize_context_msg_id id l <> [].
Proof.
  intros H. pose proof noted_checked as R. rewrite forallb_forall in R. specialize (R _ H). cbv beta iota in R.
  apply andb_true_iff in R as [R1 R2]. destruct (shown_from_check _ _ R1) as [S1 S2].
  split; [assumption|]. split; [exact (closed_from_check _ _ R2)|assumption].
Qed.

Lemma codes_distinct a b : code_text a = code_text b ->
  a = b \/ (a = INVALID_SCRIPT_LOCATION /\ b = GLOBAL_ALREADY_EXISTS)
  \/ (a = GLOBAL_ALREADY_EXISTS /\ b = INVALID_SCRIPT_LOCATION).
Proof.
  destruct a, b; intros H; try discriminate H; auto.
Qed.

Lemma every_code_has_message c l :
  c <> UNTERMINATED_BACKSLASH_ARG -> c <> MODULE_ALREADY_EXISTS -> localize_error_code c l <> [].
Proof.
  intros H1 H2. unfold localize_error_code, localize.
  assert (E : match find_message (chars (code_text c)) locale_messages with
              | Some p => existsb is_letter p | None => false end = true)
    by (destruct c; try congruence; vm_compute; reflexivity).
  destruct (find_message (chars (code_text c)) locale_messages) as [p|]; [|discriminate].
  apply existsb_exists in E as (x & Hx & Ex). destruct x as [ch|m]; [|discriminate]. exact (render_nonempty l ch p Hx).
Qed.

Lemma two_codes_without_message l :
  localize_error_code UNTERMINATED_BACKSLASH_ARG l = [] /\ localize_error_code MODULE_ALREADY_EXISTS l = [].
Proof.
  unfold localize_error_code, localize.
  assert (A : find_message (chars (code_text UNTERMINATED_BACKSLASH_ARG)) locale_messages = None) by (vm_compute; reflexivity).
  assert (B : find_message (chars (code_text MODULE_ALREADY_EXISTS)) locale_messages = None) by (vm_compute; reflexivity).
  rewrite A, B. split; reflexivity.
Qed.

Lemma panic_without_message : In (PANIC, []) raised /\ localize_error_code PANIC [] = chars "A panic has occurred. {$message}".
Proof.
  split; [|vm_compute; reflexivity]. rewrite raised_last. apply in_or_app. right. now left.
Qed.

(** A host global defined twice is reported as a module outside of its directory. *)
Lemma shared_code : INVALID_SCRIPT_LOCATION <> GLOBAL_ALREADY_EXISTS /\
  code_text INVALID_SCRIPT_LOCATION = code_text GLOBAL_ALREADY_EXISTS /\
  forall l, localize_error_code INVALID_SCRIPT_LOCATION l = localize_error_code GLOBAL_ALREADY_EXISTS l.
Proof.
  split; [discriminate|].
  assert (E : code_text INVALID_SCRIPT_LOCATION = code_text GLOBAL_ALREADY_EXISTS) by reflexivity.
  split; [exact E|]. intros l. unfold localize_error_code. rewrite E. reflexivity.
Qed.
