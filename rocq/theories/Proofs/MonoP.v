(** More fuel never changes what the interpreter of EvalSpec.v answers, unless it had no answer. *)
From Verif.Spec Require Import EvalSpec.
#[local] Open Scope list_scope.
#[local] Open Scope nat_scope.

Definition below (a b : answer) : Prop := a = AUnknown \/ a = b.
Lemma below_refl a : below a a. Proof. now right. Qed.
Lemma below_unknown a : below AUnknown a. Proof. now left. Qed.
Lemma below_trans a b c : below a b -> below b c -> below a c.
Proof. intros [->| ->] H; [left; reflexivity|exact H]. Qed.

Record weaker (I J : interp) : Prop := {
  w_eval : forall S k e m, below (i_eval I S k e m) (i_eval J S k e m);
  w_call : forall room f args m, below (i_call I room f args m) (i_call J room f args m);
  w_range : forall S k c x body v limit m, below (i_range I S k c x body v limit m) (i_range J S k c x body v limit m);
  w_iter : forall S k x body next m, below (i_iter I S k x body next m) (i_iter J S k x body next m);
  w_import : forall room name m, below (i_import I room name m) (i_import J room name m) }.

Lemma b_vbind a b f g : below a b -> (forall v m, below (f v m) (g v m)) -> below (vbind a f) (vbind b g).
Proof. intros [->| ->] H; [left; reflexivity|]. destruct b; cbn [vbind]; auto using below_refl. Qed.
Lemma b_with_vm A (r : run A) m f g : (forall v m, below (f v m) (g v m)) -> below (with_vm r m f) (with_vm r m g).
Proof. intros H. unfold with_vm. destruct (r (m_vm m)); auto using below_refl. Qed.
Lemma b_check E t v m f g : (forall m, below (f m) (g m)) -> below (check E t v m f) (check E t v m g).
Proof. intros H. unfold check. destruct t; [|apply H]. apply b_vbind; [apply below_refl|]. intros c m1. apply b_with_vm. auto. Qed.
Lemma b_cond v m f g : (forall b, below (f b) (g b)) -> below (as_condition v m f) (as_condition v m g).
Proof. intros H. destruct v; cbn [as_condition]; auto using below_refl. Qed.
Lemma b_logical v m f g : (forall b, below (f b) (g b)) -> below (as_logical v m f) (as_logical v m g).
Proof. intros H. destruct v; cbn [as_logical]; auto using below_refl. Qed.
Lemma b_again a b f g : below a b -> (forall m, below (f m) (g m)) -> below (again a f) (again b g).
Proof. intros [->| ->] H; [left; reflexivity|]. destruct b; cbn [again]; auto using below_refl. Qed.
Lemma b_chained S a b : below a b -> below (EvalSpec.chained S a) (EvalSpec.chained S b).
Proof. intros [->| ->]; [left; reflexivity|apply below_refl]. Qed.

Section Mono.
Variables (w : world) (lit : nat -> fn_bytecode) (library : list string -> string -> outcome module) (I J : interp).
Hypothesis W : weaker I J.

Local Ltac mono :=
  repeat first
    [ apply below_refl
    | apply below_unknown
    | apply (w_eval _ _ W) | apply (w_call _ _ W) | apply (w_range _ _ W) | apply (w_iter _ _ W) | apply (w_import _ _ W)
    | apply b_chained
    | apply b_vbind; [|intros ? ?]
    | apply b_with_vm; intros ? ?
    | apply b_check; intros ?
    | apply b_cond; intros ?
    | apply b_logical; intros ?
    | apply b_again; [|intros ?]
    | match goal with
      | |- below (match ?x with _ => _ end) (match ?x with _ => _ end) => destruct x
      | |- below (let '(_, _) := ?x in _) _ => destruct x
      end ].

Lemma m_overload room name l r m : below (overload I room name l r m) (overload J room name l r m).
Proof. unfold overload. mono. Qed.
Lemma m_operate room o l r m : below (operate w I room o l r m) (operate w J room o l r m).
Proof. unfold operate. destruct o; try apply m_overload; destruct (builtin_binary _ _ _ _); try apply below_refl; apply m_overload. Qed.
Lemma m_list es : forall S k m f g, (forall vs m, below (f vs m) (g vs m)) -> below (eval_list I S k es m f) (eval_list J S k es m g).
Proof.
  induction es as [|e es IH]; intros S k m f g H; cbn [eval_list]; [apply H|]. apply b_vbind; [apply (w_eval _ _ W)|]. intros v m1. apply IH. intros. apply H.
Qed.
Lemma m_fields its : forall S k o m, below (eval_fields I S k o its m) (eval_fields J S k o its m).
Proof.
  induction its as [|[key e] its IH]; intros S k o m; cbn [eval_fields]; [apply below_refl|]. apply b_vbind; [apply (w_eval _ _ W)|]. intros v m1.
  apply b_with_vm. intros _ m2. apply IH.
Qed.
Lemma m_destructure xs v : forall S m f g, (forall S m, below (f S m) (g S m)) -> below (destructure xs v S m f) (destructure xs v S m g).
Proof.
  induction xs as [|x xs IH]; intros S m f g H; cbn [destructure]; [apply H|]. apply b_with_vm. intros y m1. destruct (alloc _ _). apply IH. exact H.
Qed.
Lemma m_declaration S k e m f g : (forall S v m, below (f S v m) (g S v m)) -> below (declaration lit I S k e m f) (declaration lit J S k e m g).
Proof.
  intros H. destruct e; cbn [declaration]; try solve [mono; apply H].
  destruct kind; mono; try apply H. apply m_destructure. intros. apply H.
Qed.
Lemma m_item S k e m f g : (forall S v m, below (f S v m) (g S v m)) -> below (item lit I S k e m f) (item lit J S k e m g).
Proof.
  intros H. destruct e; cbn [item]; try (apply m_declaration; exact H).
  - apply b_vbind; [apply (w_import _ _ W)|]. intros v m1. apply m_destructure. intros S1 m2. destruct module_import; [destruct (alloc _ _)|]; apply H.
  - destruct (exported e); [|apply below_refl]. destruct (_ <? _); [apply below_refl|]. apply b_vbind; [apply below_refl|]. intros v m1.
    apply m_declaration. intros S1 y m2. apply b_with_vm. intros _ m3. apply H.
Qed.
Lemma m_items es t : forall S k m, below (items lit I S k es t m) (items lit J S k es t m).
Proof.
  induction es as [|e es IH]; intros S k m; cbn [items].
  - destruct t; [|apply below_refl]. apply m_item. intros. apply below_refl.
  - apply m_item. intros. apply IH.
Qed.
Lemma m_block S k es t m : below (block lit I S k es t m) (block lit J S k es t m).
Proof. unfold block. destruct (hoist _ _ _). apply m_items. Qed.
Lemma m_assign S k op l r m : below (assign w I S k op l r m) (assign w J S k op l r m).
Proof. unfold assign. destruct l; mono; apply m_operate. Qed.
Lemma m_binary S k op l r m : below (binary_op w I S k op l r m) (binary_op w J S k op l r m).
Proof. unfold binary_op. destruct op; mono; apply m_operate. Qed.

Lemma m_class S k name es base m : below (class_decl lit I S k name es base m) (class_decl lit J S k name es base m).
Proof.
  unfold class_decl. apply b_vbind; [destruct base; [apply (w_eval _ _ W)|apply below_refl]|]. intros bv m1. apply below_refl.
Qed.
Lemma m_initialize room c self args m : below (initialize I room c self args m) (initialize J room c self args m).
Proof. unfold initialize. mono. Qed.

Lemma m_eval S k e m : below (eval w lit I S k e m) (eval w lit J S k e m).
Proof.
  unfold eval. destruct (_ <? _); [apply below_refl|].
  destruct e; try solve [mono; first [apply m_assign|apply m_binary|apply m_block|apply m_class|apply m_fields|apply m_list; intros; mono; apply m_initialize]].
  destruct e2; mono.
  destruct (w_eval _ _ W (inner S) k e1 m) as [->| ->]; [apply below_unknown|]. mono. apply m_block.
Qed.
Lemma m_range S k c x body v limit m : below (range w I S k c x body v limit m) (range w J S k c x body v limit m).
Proof.
  unfold range. destruct (_ <? _); [apply below_refl|]. apply b_vbind; [apply m_operate|]. intros c1 m1. apply b_cond. intros b. destruct b; [|apply below_refl].
  destruct (alloc _ _) as [l m2]. destruct (w_eval _ _ W (declare x l (deep 1 S)) k body m2) as [->| ->]; [apply below_unknown|].
  destruct (i_eval J _ _ _ _); try apply below_refl. destruct (nth_error _ _) as [[y|]|]; try apply below_refl. apply b_vbind; [apply m_operate|]. intros. apply (w_range _ _ W).
Qed.
Lemma m_iter S k x body next m : below (iter I S k x body next m) (iter J S k x body next m).
Proof.
  unfold iter. destruct (_ <? _); [apply below_refl|]. mono. 
  match goal with |- context [i_eval I ?S ?k ?e ?m] => destruct (w_eval _ _ W S k e m) as [->| ->] end; [apply below_unknown|]. mono.
Qed.
Lemma m_bind_args ps : forall args S m f g, (forall S m, below (f S m) (g S m)) -> below (bind_args ps args S m f) (bind_args ps args S m g).
Proof. induction ps as [|p ps IH]; intros args S m f g H; cbn [bind_args]; [apply H|]. destruct (alloc _ _). apply b_check. intros. apply IH. exact H. Qed.
Lemma m_run_fn room n src E slot0 args m : below (run_fn lit I room n src E slot0 args m) (run_fn lit J room n src E slot0 args m).
Proof.
  unfold run_fn. destruct (_ <? _); [apply below_refl|]. destruct (alloc _ _). destruct (body_parts _) as [es t]. apply m_bind_args. intros S1 m2.
  destruct (m_block S1 (src_first src) es t m2) as [->| ->]; [apply below_unknown|apply below_refl].
Qed.
Lemma m_construct room c args m : below (construct I room c args m) (construct J room c args m).
Proof. unfold construct. mono. Qed.
Lemma m_called a b f g : below a b -> (forall v m, below (f v m) (g v m)) -> below (called a f) (called b g).
Proof. intros [->| ->] H; [apply below_unknown|]. destruct b; cbn [called]; auto using below_refl. Qed.
Lemma m_each room f vs : forall m x y, (forall vs m, below (x vs m) (y vs m)) -> below (call_each I room f vs m x) (call_each J room f vs m y).
Proof. induction vs as [|v vs IH]; intros m x y H; cbn [call_each]; [apply H|]. apply m_called; [apply (w_call _ _ W)|]. intros. apply IH. intros. apply H. Qed.
Lemma m_until room f vs : forall m x y, (forall v m, below (x v m) (y v m)) -> below (call_until I room f vs m x) (call_until J room f vs m y).
Proof.
  induction vs as [|v vs IH]; intros m x y H; cbn [call_until]; [apply H|]. apply m_called; [apply (w_call _ _ W)|].
  intros v1 m1. destruct v1; try (apply IH; exact H). destruct b; [apply H|apply IH; exact H].
Qed.
Lemma m_reading {A} a (go go' : list value -> memory -> (A -> memory -> answer) -> answer) m x :
  (forall vs m next, below (go vs m next) (go' vs m next)) -> below (reading a go m x) (reading a go' m x).
Proof. intros H. unfold reading. apply b_with_vm. intros _ m1. apply b_with_vm. intros vs m2. apply H. Qed.
Lemma m_host room n args m : below (host_fn w lit I room n args m) (host_fn w lit J room n args m).
Proof.
  destruct n; try apply below_refl; destruct args as [|v [|f args]]; try apply below_refl; destruct v; try apply below_refl;
    apply m_reading; intros; first [apply m_until|apply m_each]; intros; apply below_refl.
Qed.
Lemma m_call room f args m : below (call w lit fn_eqb I room f args m) (call w lit fn_eqb J room f args m).
Proof.
  unfold call. destruct (_ <? _); [apply below_refl|]. destruct (match f with VFnBound _ _ => _ | _ => _ end) as [g s0].
  destruct g; mono; first [apply m_run_fn|apply m_construct|apply m_host].
Qed.
Lemma m_import room name m : below (import library I room name m) (import library J room name m).
Proof.
  unfold import. destruct (assoc_get _ _); [apply below_refl|]. apply b_with_vm. intros o m1. destruct (library _ _) as [md|e| |]; try apply below_refl.
  destruct (_ <? _); [apply below_refl|]. destruct (alloc _ _) as [l m2].
  match goal with |- context [i_eval I ?S ?k ?e ?m] => destruct (w_eval _ _ W S k e m) as [->| ->] end; [apply below_unknown|apply below_refl].
Qed.
End Mono.

Lemma more_fuel w pg n : weaker (interpreter w pg n) (interpreter w pg (S n)).
Proof.
  induction n as [|n IH]; [split; intros; apply below_unknown|].
  split; intros; cbn [interpreter i_eval i_call i_range i_iter i_import]; [apply m_eval|apply m_call|apply m_range|apply m_iter|apply m_import]; exact IH.
Qed.
Lemma weaker_trans I J K : weaker I J -> weaker J K -> weaker I K.
Proof. intros [A B C D E] [A' B' C' D' E']. split; intros; eapply below_trans; eauto. Qed.
Theorem fuel_le w pg n n' : n <= n' -> weaker (interpreter w pg n) (interpreter w pg n').
Proof.
  induction 1 as [|n' _ IH]; [split; intros; apply below_refl|]. eapply weaker_trans; [exact IH|apply more_fuel].
Qed.
Corollary eval_fuel w pg n n' S k e m a : n <= n' -> i_eval (interpreter w pg n) S k e m = a -> a <> AUnknown -> i_eval (interpreter w pg n') S k e m = a.
Proof. intros L E N. destruct (w_eval _ _ (fuel_le w pg n n' L) S k e m) as [H|H]; congruence. Qed.
Corollary call_fuel w pg n n' room f args m a : n <= n' -> i_call (interpreter w pg n) room f args m = a -> a <> AUnknown -> i_call (interpreter w pg n') room f args m = a.
Proof. intros L E N. destruct (w_call _ _ (fuel_le w pg n n' L) room f args m) as [H|H]; congruence. Qed.
