(** Properties C09, C15, C44 and C46: what the compiler accepts. *)
From Verif.Model Require Import Compiler.
From Verif.Spec Require Import StaticSpec StaticTop PanicSpec PanicTop.
From Verif.Proofs Require Import StaticTopP NoPanicVisitP.

(** C09: in an accepted program every assignment is to a variable in scope that was declared [mut]. *)
Theorem C09_only_mutable_assigned : forall kind root b,
  compile kind root = Ok b -> assigns_ok (initial_env kind) root = true.
Proof. exact compile_assigns. Qed.
Print Assumptions C09_only_mutable_assigned.

(** C09: at any moment of any compilation, an assignment (plain or compound) to a variable in scope that
    is not mutable, local or captured, is rejected with the immutable-reassignment error, and one to a
    name that is not in scope with the not-declared error. *)
Theorem C09_assignment_error : forall op x rhs s,
  cs_stack s <> [] -> mutability x (variables s) <> Some true ->
  visit (EAssignment op (ELitIdent x) rhs) s =
    Err (match mutability x (variables s) with
         | None => VARIABLE_NOT_DECLARED
         | Some _ => CANNOT_REASSIGN_IMMUTABLE_VARIABLE
         end).
Proof. exact assign_error. Qed.
Print Assumptions C09_assignment_error.

(** { let mut n = 1; let k = n; fn f(a) { |b| { n += a * b; n } } f(k) } is accepted; with [n] not [mut],
    and with an assignment to the parameter [a], it is not. *)
Definition c09_program (m : bool) (target : string) : expr :=
  EBlock
    [EVarDecl (Singular "n") m (ELitInt 1) None; EVarDecl (Singular "k") false (ELitIdent "n") None;
     EFnDecl "f" [FnArg "a" None] None
       (EBlock [] (Some (ELitAnonymousFn [FnArg "b" None] None
          (EBlock [EAssignment AAdd (ELitIdent target) (EBinary BMultiply (ELitIdent "a") (ELitIdent "b"))]
             (Some (ELitIdent "n"))))))]
    (Some (EFnCall (ELitIdent "f") [ELitIdent "k"])).
Example C09_nonvacuous :
  (exists b, compile KScript (c09_program true "n") = Ok b) /\
  assigns_ok [] (c09_program true "n") = true /\
  assigns_ok [] (c09_program false "n") = false /\
  compile KScript (c09_program false "n") = Err CANNOT_REASSIGN_IMMUTABLE_VARIABLE /\
  compile KScript (c09_program true "a") = Err CANNOT_REASSIGN_IMMUTABLE_VARIABLE /\
  compile KScript (c09_program true "f") = Err CANNOT_REASSIGN_IMMUTABLE_VARIABLE /\
  compile KScript (c09_program true "z") = Err VARIABLE_NOT_DECLARED.
Proof. vm_compute. repeat split. eexists. reflexivity. Qed.

(** C15: in an accepted script or module every control-flow keyword stands where it makes sense. *)
Theorem C15_keywords_are_placed : forall kind root b,
  kind = KScript \/ kind = KModule -> compile kind root = Ok b -> placed (initial_place kind) root = true.
Proof. exact compile_placed. Qed.
Print Assumptions C15_keywords_are_placed.

(** C15: the error reported for each keyword at any moment of any compilation. *)
Theorem C15_keyword_errors : forall s, inside_program s ->
  (in_loop (standing s) = false -> visit EBreak s = Err INVALID_BREAK_USAGE /\ visit EContinue s = Err INVALID_CONTINUE_USAGE) /\
  (forall e, match pl_owner (standing s) with InScript | InModule => True | _ => False end ->
     visit (EReturn e) s = Err INVALID_RETURN_USAGE) /\
  (forall e, pl_owner (standing s) = InConstructor -> visit (EReturn (Some e)) s = Err NEW_RETURN_CANNOT_HAVE_EXPRESSION) /\
  (forall e, returns_value (pl_owner (standing s)) = false -> visit (EErrorPropagate e) s = Err INVALID_ERROR_PROPAGATE_USAGE) /\
  (forall x k, match pl_owner (standing s) with InMethod | InConstructor => False | _ => True end ->
     visit (ESuperAccess x k) s = Err INVALID_SUPER_CALL) /\
  (forall e, match pl_owner (standing s), pl_level (standing s) with InModule, (Root | Top) => False | _, _ => True end ->
     visit (EExportDecl e) s = Err INVALID_EXPORT_USAGE).
Proof. exact keyword_errors. Qed.
Print Assumptions C15_keyword_errors.

(** export fn f(x) { loop { if x { return 1; } break; } x!! } import { Any } from "std"; class A { fn new(self) { return; } fn m(self) { super.m } } *)
Definition c15_program : expr :=
  EBlock
    [EExportDecl (EFnDecl "f" [FnArg "x" None] None
       (EBlock [ELoop (EBlock [EIf (ELitIdent "x") (EBlock [EReturn (Some (ELitInt 1))] None) None; EBreak] None)]
          (Some (EErrorPropagate (ELitIdent "x")))));
     EImportDecl None ["Any"] "std";
     EClassDecl "A" [EFnDecl "new" [FnArg "self" None] None (EBlock [EReturn None] None);
                     EFnDecl "m" [FnArg "self" None] None (EBlock [] (Some (ESuperAccess "m" None)))] None] None.
(** The same keywords one function or block away. *)
Definition c15_wrong : list expr :=
  [ELoop (EBlock [] (Some (ELitAnonymousFn [] None EBreak)));
   EWhile (ELitBool true) (EBlock [EFnDecl "g" [] None (EBlock [EContinue] None)] None);
   EReturn None;
   EFnDecl "g" [] None (EBlock [EExportDecl (EVarDecl (Singular "v") false (ELitInt 1) None)] None);
   EBlock [EBlock [EExportDecl (EVarDecl (Singular "v") false (ELitInt 1) None)] None] None;
   EErrorPropagate (ELitInt 1);
   EFnDecl "g" [] None (ESuperAccess "m" None)].
Example C15_nonvacuous :
  (exists b, compile KModule c15_program = Ok b) /\ placed (initial_place KModule) c15_program = true /\
  inside_program (CState [context_new KModule] 0) /\
  map (fun e => placed (initial_place KModule) (EBlock [e] None)) c15_wrong = repeat false 7 /\
  map (fun e => match compile KModule (EBlock [e] None) with Err x => Some x | _ => None end) c15_wrong =
    map Some [INVALID_BREAK_USAGE; INVALID_CONTINUE_USAGE; INVALID_RETURN_USAGE; INVALID_EXPORT_USAGE; INVALID_EXPORT_USAGE;
              INVALID_ERROR_PROPAGATE_USAGE; INVALID_SUPER_CALL].
Proof.
  split; [vm_compute; eexists; reflexivity|]. split; [vm_compute; reflexivity|]. split; [|vm_compute; split; reflexivity].
  unfold inside_program. cbn. do 4 eexists. repeat split.
Qed.

(** C15, refuted for calls of the superclass constructor: [fn f(self) { super(1) }] outside any class is accepted. *)
Theorem C15_super_call_refuted :
  exists b, compile KScript (EBlock [EVarDecl (Singular "super") false ELitNull None;
                                     EFnDecl "f" [FnArg "self" None] None (EBlock [] (Some (ESuperCall [ELitInt 1])))] None) = Ok b.
Proof. eexists. vm_compute. reflexivity. Qed.
Print Assumptions C15_super_call_refuted.

(** C15, the converse is refuted: [continue] in a [for] loop, where it makes sense, is rejected with an internal error. *)
Theorem C15_continue_in_for_refuted : forall x,
  compile KScript (EFor x (EBinary BRangeExclusive (ELitInt 0) (ELitInt 3)) (EBlock [EContinue] None)) = Err INTERNAL_COMPILER_ERROR /\
  placed (initial_place KScript) (EFor x (EBinary BRangeExclusive (ELitInt 0) (ELitInt 3)) (EBlock [EContinue] None)) = true.
Proof. split; reflexivity. Qed.
Print Assumptions C15_continue_in_for_refuted.

(** C44: in an accepted program no block declares two functions of one name, no function or operator
    declaration has two parameters of one name, and no block declares two classes of one name unless
    something else of that name is declared there as well. *)
Theorem C44_no_duplicates_partial : forall kind root b,
  compile kind root = Ok b -> no_duplicates root = true.
Proof. exact compile_no_duplicates. Qed.
Print Assumptions C44_no_duplicates_partial.

(** C44: the error reported for duplicate parameters. *)
Theorem C44_duplicate_parameters : forall x op args rt b s,
  distinct (map fa_name args) = false ->
  visit (EFnDecl x args rt b) s = Err FUNCTION_CANNOT_HAVE_DUPLICATE_ARGS /\
  visit (EOpDecl op args rt b) s = Err FUNCTION_CANNOT_HAVE_DUPLICATE_ARGS.
Proof. exact duplicate_params_error. Qed.
Print Assumptions C44_duplicate_parameters.

Definition fn_ (x : string) (args : list string) : expr := EFnDecl x (map (fun a => FnArg a None) args) None (EBlock [] None).
Definition class_ (x : string) : expr := EClassDecl x [] (Some (ELitInt 0)).
Example C44_nonvacuous :
  let ok := EBlock [fn_ "f" ["a"; "b"]; class_ "A"; EBlock [fn_ "f" []; class_ "A"] None] (Some (fn_ "g" ["f"])) in
  (exists b, compile KScript ok = Ok b) /\ no_duplicates ok = true /\
  map (fun e => (no_duplicates e, compile KScript e))
    [EBlock [fn_ "f" []; ELitUnit] (Some (fn_ "f" ["x"])); EBlock [class_ "A"; fn_ "f" []; class_ "A"] None; EBlock [fn_ "f" ["x"; "y"; "x"]] None] =
  [(false, Err FUNCTION_ALREADY_DECLARED); (false, Err CLASS_ALREADY_DECLARED); (false, Err FUNCTION_CANNOT_HAVE_DUPLICATE_ARGS)].
Proof. vm_compute. repeat split. eexists. reflexivity. Qed.

(** C44, refuted for classes in general: [class A {} let A = 1; class A {}] and
    [class A {} class A {} fn A() {}] are accepted. *)
Theorem C44_classes_refuted :
  (exists b, compile KScript (EBlock [class_ "A"; EVarDecl (Singular "A") false (ELitInt 1) None; class_ "A"] None) = Ok b) /\
  (exists b, compile KScript (EBlock [class_ "A"; class_ "A"; fn_ "A" []] None) = Ok b).
Proof. split; eexists; vm_compute; reflexivity. Qed.
Print Assumptions C44_classes_refuted.

(** C44, refuted for the parameters of anonymous functions: [|x, x| x] is accepted. *)
Theorem C44_anonymous_parameters_refuted :
  exists b, compile KScript (ELitAnonymousFn [FnArg "x" None; FnArg "x" None] None (ELitIdent "x")) = Ok b.
Proof. eexists. vm_compute. reflexivity. Qed.
Print Assumptions C44_anonymous_parameters_refuted.

(** C46, refuted: [let f = 1; fn f() {}], [export let { a } = 1;] and [super()] outside a class all panic. *)
Theorem C46_never_panics_refuted :
  compile KScript (EBlock [EVarDecl (Singular "f") false (ELitInt 1) None; fn_ "f" []] None) = Panic /\
  compile KModule (EBlock [EExportDecl (EVarDecl (Destructured ["a"]) false (ELitInt 1) None)] None) = Panic /\
  compile KScript (ESuperCall []) = Panic.
Proof. vm_compute. repeat split. Qed.
Print Assumptions C46_never_panics_refuted.

(** C46, what remains: the compilation of a program in which every function declaration is the latest of
    its name in its function, every [super(...)] stands in a function that declares [self], everything
    exported has one name and the members of classes are functions and operators, ends with code or an error. *)
Theorem C46_tame_programs_never_panic : forall kind root,
  kind = KScript \/ kind = KModule -> tame (plain (initial_env kind)) root = true ->
  (exists b, compile kind root = Ok b) \/ (exists e, compile kind root = Err e).
Proof. exact compile_speaks. Qed.
Print Assumptions C46_tame_programs_never_panic.

(** C46: [super(...)] where the function being compiled declares no [self] panics, at any moment of any compilation. *)
Theorem C46_super_call_refuted : forall args s,
  inside_program s -> sort_of "self" (names_here s) = None -> visit (ESuperCall args) s = Panic.
Proof. exact super_panics. Qed.
Print Assumptions C46_super_call_refuted.

(** export class A is B { fn new(self, x) { super(x); fn g() { x } } op +(self, y) { return y; } }
    fn f(f) { let n = f; } let f = 1; is tame and compiles as a module; an erroneous program may be tame;
    each of the four conditions fails in a program that panics. *)
Definition c46_program : expr :=
  EBlock
    [EExportDecl (EClassDecl "A"
       [EFnDecl "new" [FnArg "self" None; FnArg "x" None] None (EBlock [ESuperCall [ELitIdent "x"]; EFnDecl "g" [] None (EBlock [] (Some (ELitIdent "x")))] None);
        EOpDecl OAdd [FnArg "self" None; FnArg "y" None] None (EBlock [EReturn (Some (ELitIdent "y"))] None)] (Some (ELitIdent "B")));
     EFnDecl "f" [FnArg "f" None] None (EBlock [EVarDecl (Singular "n") false (ELitIdent "f") None] None);
     EVarDecl (Singular "f") false (ELitInt 1) None] None.
Definition c46_panicking : list expr :=
  [EBlock [class_ "f"; fn_ "f" []; EBlock [EVarDecl (Singular "g") false (ELitInt 1) None; fn_ "g" []] None] None;
   EBlock [fn_ "f" []; class_ "f"] None;
   EBlock [EClassDecl "A" [EFnDecl "m" [FnArg "self" None] None (ELitAnonymousFn [] None (ESuperCall []))] (Some (ELitInt 0))] None;
   EBlock [EExportDecl (EImportDecl (Some "m") [] "m.dm")] None;
   EBlock [EClassDecl "A" [ELitUnit] (Some (ELitInt 0))] None].
Example C46_nonvacuous :
  tame (plain (initial_env KModule)) c46_program = true /\ (exists b, compile KModule c46_program = Ok b) /\
  tame [] (EBlock [EReturn None] None) = true /\ compile KScript (EBlock [EReturn None] None) = Err INVALID_RETURN_USAGE /\
  map (tame (plain (initial_env KModule))) c46_panicking = repeat false 5 /\
  map (compile KModule) c46_panicking = repeat Panic 5 /\
  inside_program (CState [context_new KScript] 0) /\ sort_of "self" (names_here (CState [context_new KScript] 0)) = None.
Proof.
  split; [vm_compute; reflexivity|]. split; [vm_compute; eexists; reflexivity|].
  split; [vm_compute; reflexivity|]. split; [vm_compute; reflexivity|]. split; [vm_compute; reflexivity|].
  split; [vm_compute; reflexivity|]. split; [|reflexivity].
  unfold inside_program. cbn. do 4 eexists. repeat split.
Qed.
