(** A program with every kind of statement, written by the grammar of Spec/GrammarSpec.v. *)
From Coq Require Import Lia.
From Verif.Model Require Import Parser.
From Verif.Spec Require Import LexSpec ParseSpec GrammarSpec.
From Verif.Proofs Require Import LexerP SourceTextP RoundTripP.

Definition sample_text : list char := chars
"import { a } from ""m""
class A : B { fn new(self, n: Int) { super(n) } op +(self, o) { return } }
export fn f(x, y) -> Int? { if x < y { return x } else if y { a } else { loop { break } } }
let mut { p } = f(1)
for i in x { p += i }
export p
while true { continue }
super.g or e { e }".

Definition sample_class : expr :=
  EClassDecl "A"
    [EFnDecl "new" [FnArg "self" None; FnArg "n" (Some (TypeAnn "Int" false))] None (EBlock [] (Some (ESuperCall [ELitIdent "n"])));
     EOpDecl OAdd [FnArg "self" None; FnArg "o" None] None (EBlock [] (Some (EReturn None)))]
    (Some (ELitIdent "B")).
Definition sample_fn : expr :=
  EFnDecl "f" [FnArg "x" None; FnArg "y" None] (Some (TypeAnn "Int" true))
    (EBlock []
       (Some (EIf (EBinary BLessThan (ELitIdent "x") (ELitIdent "y")) (EBlock [] (Some (EReturn (Some (ELitIdent "x")))))
                (Some (EIf (ELitIdent "y") (EBlock [] (Some (ELitIdent "a")))
                         (Some (EBlock [] (Some (ELoop (EBlock [] (Some EBreak))))))))))).
Definition sample_statements : list expr :=
  [EImportDecl None ["a"%string] "m";
   sample_class;
   EExportDecl sample_fn;
   EVarDecl (Destructured ["p"%string]) true (EFnCall (ELitIdent "f") [ELitInt 1]) None;
   EFor "i" (ELitIdent "x") (EBlock [] (Some (EAssignment AAdd (ELitIdent "p") (ELitIdent "i"))));
   EExportDecl (ELitIdent "p");
   ELitIdent "p";
   EWhile (ELitBool true) (EBlock [] (Some EContinue))].
Definition sample_last : expr := unwrapped (ESuperAccess "g" None) "e" (EBlock [] (Some (ELitIdent "e"))).

Ltac sym := repeat split; reflexivity.
Ltac atom := first [apply wa_name; sym | apply wa_true; sym | refine (wa_int [49%N] _ _ _ _ _); [sym|discriminate|constructor; [cbn; auto 12|constructor]|reflexivity]].
Ltac name := apply w_atom; atom.
(** The tokens of a goal cut after [n]. *)
Ltac cut n :=
  match goal with
  | |- _ ?l => rewrite <- (firstn_skipn n l); cbn [firstn skipn]
  end.
Ltac inside n :=
  match goal with
  | |- _ (_ :: ?l) => rewrite <- (firstn_skipn n l); cbn [firstn skipn]
  end.
Ltac braces :=
  match goal with
  | |- writes_block _ (?o :: ?l) =>
      let n := eval cbv in (pred (List.length l)) in
      rewrite <- (firstn_skipn n l); cbn [firstn skipn]; apply w_block; [sym| |sym]
  end.
Ltac afresh := intros _ H; cbn in H; decompose [or] H; first [discriminate|contradiction].
Ltac last open := apply (s_last _ open).
Ltac shut n := cut n; apply (s_more _ false); [|discriminate|discriminate|].
Ltac shown n := cut n; apply (s_more _ true); [|discriminate|afresh|].

Lemma sample_written : exists ts, tokens_of 0 sample_text ts /\ writes_seq false sample_statements (Some sample_last) ts.
Proof.
  exists (tokenize sample_text). split; [apply tokenize_ok|].
  remember (tokenize sample_text) as ts eqn:E. vm_compute in E. subst ts. unfold sample_statements.
  shut 6.
  { apply st_import. refine (im_items _ _ _ [_] _ _ _ _ _ _ _ _ _ _ _); try sym; [discriminate|]. apply wn_one. sym. }
  shut 31.
  { apply st_class. refine (wc_derived _ _ _ _ _ [_] _ _ [_; _; _; _; _; _; _; _; _; _; _; _; _; _; _; _; _; _; _; _; _; _; _; _; _] _ _ _ _ _ _ _ _); try sym; [name|].
    cut 15. apply wms_fn.
    - refine (w_fn _ _ _ _ _ [_; _; _; _; _] _ _ [] _ _ _ _ _ _ _ _ _ _); try sym; [|cbn; lia|apply wr_none|].
      + cut 1. refine (wp_more _ _ _ _ _ _ _ _); [apply wp_plain|sym|apply wp_one, wp_typed]; try sym. apply wt_plain. sym.
      + braces. last true. apply st_expr. refine (w_super_call _ _ _ _ [_] _ _ _ _ _); try sym. apply wi_one. name.
    - cut 10. apply wms_op; [|apply wms_none]. refine (w_op _ _ _ _ _ [_; _; _] _ _ [] _ _ _ _ _ _ _ _ _); try sym; [|apply wr_none|].
      + cut 1. refine (wp_more _ _ _ _ _ _ _ _); [apply wp_plain|sym|apply wp_one, wp_plain]; sym.
      + braces. apply s_return. sym. }
  shut 34.
  { apply st_export_fn; [sym|]. refine (w_fn _ _ _ _ _ [_; _; _] _ _ [_; _; _] _ _ _ _ _ _ _ _ _ _); try sym; [|cbn; lia| |].
    - cut 1. refine (wp_more _ _ _ _ _ _ _ _); [apply wp_plain|sym|apply wp_one, wp_plain]; sym.
    - apply wr_some; [sym|]. apply wt_nullable; sym.
    - braces. last true. apply st_expr, w_if. refine (wif_else_if _ _ [_; _; _] _ [_; _; _; _] _ _ _ _ _ _ _ _); try sym.
      + refine (w_binary _ _ _ [_] _ [_] [_] _ _ _ _); [cbn; lia|name|constructor; [sym|constructor]|name].
      + braces. last true. apply st_return; [sym|name].
      + refine (wif_else _ _ [_] _ [_; _; _] _ _ _ _ _ _ _ _); try sym; [name| |].
        * braces. last true. apply st_expr. name.
        * braces. last false. apply st_loop; [sym|]. braces. last false. apply st_break. sym. }
  shown 10.
  { apply st_let. refine (wl_fields _ _ [_] _ _ [_] _ _ _ _ _ _ _ _ _ _ _); try sym; [apply wm_yes; sym|apply wn_one; sym|].
    cut 1. refine (w_call _ _ _ _ _ [_] _ _ _ _ _ _); try sym; [lia|name|apply wi_one; name]. }
  shut 9.
  { refine (st_for _ _ _ _ _ [_] _ _ _ _ _ _ _); try sym; [name|]. braces. last true. apply st_expr, w_assign_name; [lia|sym|sym|name]. }
  apply s_export_name; [sym|sym|].
  shown 1. { apply st_expr. name. }
  shut 5.
  { refine (st_while _ _ [_] _ _ _ _ _); try sym; [name|]. braces. last false. apply st_continue. sym. }
  last true. apply st_expr. cut 3. apply w_unwrap; [lia|apply w_super_field; sym|sym|sym|]. braces. last true. apply st_expr. name.
Qed.
Lemma sample_parsed : parse sample_text = Ok (EBlock sample_statements (Some sample_last)).
Proof. destruct sample_written as (ts & T & W). exact (program_source_inverted _ _ _ ts T W). Qed.
Lemma lines_refuted :
  ~ (forall a b e f, parse a = Ok (EBlock [] (Some e)) -> parse b = Ok (EBlock [] (Some f)) ->
       parse (a ++ chars "
" ++ b) = Ok (EBlock [e] (Some f))).
Proof.
  intro H. specialize (H (chars "x") (chars "(1)") (ELitIdent "x") (ELitInt 1) ltac:(vm_compute; reflexivity) ltac:(vm_compute; reflexivity)).
  vm_compute in H. discriminate H.
Qed.
Lemma else_dropped :
  parse (chars "if a { b } else c") =
    Ok (EBlock [EIf (ELitIdent "a") (EBlock [] (Some (ELitIdent "b"))) None] (Some (ELitIdent "c"))).
Proof. vm_compute. reflexivity. Qed.
