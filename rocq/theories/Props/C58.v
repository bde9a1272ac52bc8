(** C58: the trees that source text can give. *)
From Verif.Model Require Import Parser.
From Verif.Spec Require Import ShapeSpec.
From Verif.Proofs Require Import ShapeP.
#[local] Open Scope string_scope.

(** A source that is accepted is a block, and in it: declarations, loops, break, continue and return stand only as
    statements of blocks; bodies and branches are blocks; only names, fields and elements are assigned to; class
    bodies hold functions and operators; functions have at most 255 parameters; imports bind a name; exports are
    variables, functions, classes or names; integers are below 2^63. *)
Theorem C58_accepted_sources_are_well_shaped : forall t e, parse t = Ok e -> is_block e /\ shaped false e.
Proof. exact parse_shape. Qed.
Print Assumptions C58_accepted_sources_are_well_shaped.

(** What that excludes, and a source that is accepted. *)
Example C58_nonvacuous :
  omap (fun _ => tt) (parse (chars "export class A : B { fn new(self) { super() } op +(self, x) { 1 } } while a { let {x} = b break } r or e { e }")) = Ok tt /\
  ~ shaped true (EClassDecl "A" [ELitNull] None) /\ ~ shaped false EBreak /\ ~ shaped true (EReturn (Some EBreak)) /\
  ~ shaped true (EImportDecl None [] "m") /\ ~ shaped true (EAssignment AAssign ELitNull ELitNull) /\ ~ shaped true (ELitInt (2 ^ 63)) /\
  ~ shaped true (EFnDecl "f" (repeat (FnArg "a" None) 256) None (EBlock [] None)) /\ ~ shaped true (EExportDecl (EImportDecl None ["a"] "m")).
Proof. exact shape_samples. Qed.
