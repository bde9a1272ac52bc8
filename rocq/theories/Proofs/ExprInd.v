(** Induction on the size of syntax trees. *)
From Verif.Model Require Export Ast.

Fixpoint esize (e : expr) : nat :=
  let list := fix go l := match l with [] => 0 | x :: r => esize x + go r end in
  let opt (o : option expr) := match o with Some x => esize x | None => 0 end in
  S match e with
    | ELitAnonymousFn _ _ b | EFnDecl _ _ _ b | EOpDecl _ _ _ b => esize b
    | ELitObject items => (fix go l := match l with [] => 0 | (_, x) :: r => esize x + go r end) items
    | ELitList items => list items
    | EClassDecl _ items base => list items + opt base
    | EBlock es t => list es + opt t
    | EFnCall f args => esize f + list args
    | ESuperCall args => list args
    | ENullPropagate x | EErrorPropagate x | EFieldAccess x _ | EIs x _ | EPrefix _ x
    | EVarDecl _ _ x _ | EExportDecl x | ELoop x => esize x
    | EIndex a b | EBinary _ a b | EAssignment _ a b | EWhile a b | EFor _ a b => esize a + esize b
    | EIf c p s => esize c + esize p + opt s
    | EReturn r => opt r
    | _ => 0
    end.
Definition lsize (l : list expr) : nat := fold_right (fun x n => esize x + n) 0 l.
Definition osize (o : option expr) : nat := match o with Some x => esize x | None => 0 end.
Definition fsize (l : list (string * expr)) : nat := fold_right (fun p n => esize (snd p) + n) 0 l.

Lemma lsize_fix l : (fix go l := match l with [] => 0 | x :: r => esize x + go r end) l = lsize l.
Proof. induction l as [|x l IH]; [reflexivity|]. rewrite IH. reflexivity. Qed.
Lemma fsize_fix l : (fix go (l : list (string * expr)) := match l with [] => 0 | (_, x) :: r => esize x + go r end) l = fsize l.
Proof. induction l as [|[k x] l IH]; [reflexivity|]. rewrite IH. reflexivity. Qed.

Lemma esize_pos e : 1 <= esize e.
Proof. destruct e; cbn; lia. Qed.
Lemma lsize_in x l : In x l -> esize x <= lsize l.
Proof.
  induction l as [|y l IH]; [contradiction|]. intros H. unfold lsize in *. cbn [fold_right]. destruct H as [->|H]; [lia|].
  apply IH in H. lia.
Qed.
Lemma fsize_in k x l : In (k, x) l -> esize x <= fsize l.
Proof.
  induction l as [|y l IH]; [contradiction|]. intros H. unfold fsize in *. cbn [fold_right]. destruct H as [->|H]; [cbn [snd]; lia|].
  apply IH in H. lia.
Qed.

Lemma size_ELitObject l : esize (ELitObject l) = S (fsize l).
Proof. cbn. now rewrite fsize_fix. Qed.
Lemma size_ELitList l : esize (ELitList l) = S (lsize l).
Proof. cbn. now rewrite lsize_fix. Qed.
Lemma size_EClassDecl n l b : esize (EClassDecl n l b) = S (lsize l + osize b).
Proof. cbn. now rewrite lsize_fix. Qed.
Lemma size_EBlock l b : esize (EBlock l b) = S (lsize l + osize b).
Proof. cbn. now rewrite lsize_fix. Qed.
Lemma size_EFnCall f l : esize (EFnCall f l) = S (esize f + lsize l).
Proof. cbn. now rewrite lsize_fix. Qed.
Lemma size_ESuperCall l : esize (ESuperCall l) = S (lsize l).
Proof. cbn. now rewrite lsize_fix. Qed.
Lemma size_EIf c p s : esize (EIf c p s) = S (esize c + esize p + osize s).
Proof. reflexivity. Qed.
Lemma size_EReturn r : esize (EReturn r) = S (osize r).
Proof. reflexivity. Qed.

Lemma size_ELitAnonymousFn a r b : esize (ELitAnonymousFn a r b) = S (esize b).
Proof. reflexivity. Qed.
Lemma size_EFnDecl n a r b : esize (EFnDecl n a r b) = S (esize b).
Proof. reflexivity. Qed.
Lemma size_EOpDecl o a r b : esize (EOpDecl o a r b) = S (esize b).
Proof. reflexivity. Qed.
Lemma size_ENullPropagate b : esize (ENullPropagate b) = S (esize b).
Proof. reflexivity. Qed.
Lemma size_EErrorPropagate b : esize (EErrorPropagate b) = S (esize b).
Proof. reflexivity. Qed.
Lemma size_EFieldAccess b f : esize (EFieldAccess b f) = S (esize b).
Proof. reflexivity. Qed.
Lemma size_EIs b t : esize (EIs b t) = S (esize b).
Proof. reflexivity. Qed.
Lemma size_EPrefix o b : esize (EPrefix o b) = S (esize b).
Proof. reflexivity. Qed.
Lemma size_EVarDecl k m b t : esize (EVarDecl k m b t) = S (esize b).
Proof. reflexivity. Qed.
Lemma size_EExportDecl b : esize (EExportDecl b) = S (esize b).
Proof. reflexivity. Qed.
Lemma size_ELoop b : esize (ELoop b) = S (esize b).
Proof. reflexivity. Qed.
Lemma size_EIndex a b : esize (EIndex a b) = S (esize a + esize b).
Proof. reflexivity. Qed.
Lemma size_EBinary o a b : esize (EBinary o a b) = S (esize a + esize b).
Proof. reflexivity. Qed.
Lemma size_EAssignment o a b : esize (EAssignment o a b) = S (esize a + esize b).
Proof. reflexivity. Qed.
Lemma size_EWhile a b : esize (EWhile a b) = S (esize a + esize b).
Proof. reflexivity. Qed.
Lemma size_EFor v a b : esize (EFor v a b) = S (esize a + esize b).
Proof. reflexivity. Qed.

Ltac esizes := rewrite ?size_ELitAnonymousFn, ?size_EFnDecl, ?size_EOpDecl, ?size_ENullPropagate, ?size_EErrorPropagate, ?size_EFieldAccess, ?size_EIs, ?size_EPrefix, ?size_EVarDecl, ?size_EExportDecl, ?size_ELoop, ?size_EIndex, ?size_EBinary, ?size_EAssignment, ?size_EWhile, ?size_EFor,
  ?size_ELitObject, ?size_ELitList, ?size_EClassDecl, ?size_EBlock, ?size_EFnCall, ?size_ESuperCall, ?size_EIf, ?size_EReturn in *.
(** Closes [esize x < esize e] for a part [x] of [e]. *)
Ltac esz :=
  esizes;
  repeat match goal with
         | H : In (_, ?x) ?l |- _ => apply fsize_in in H
         | H : In ?x ?l |- _ => apply lsize_in in H
         end;
  cbn [osize lsize fold_right] in *; esizes; lia.

Lemma expr_size_ind (P : expr -> Prop) :
  (forall e, (forall e', esize e' < esize e -> P e') -> P e) -> forall e, P e.
Proof.
  intros H e. remember (esize e) as n eqn:E. revert e E.
  induction n as [n IH] using lt_wf_ind. intros e ->. apply H. intros e' L. exact (IH _ L e' eq_refl).
Qed.
