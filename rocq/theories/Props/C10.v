(** Property C10: compiled bytecode is well formed. *)
From Verif.Model Require Import Compiler.
From Verif.Spec Require Import WellFormed.
From Verif.Proofs Require Import WellFormedVisitP.

(** C10: for every syntax tree, if compilation succeeds, the bytecode and all functions nested in its
    constants are well formed. *)
Theorem C10_bytecode_is_well_formed : forall kind root b,
  compile kind root = Ok b -> wf_bytecode b.
Proof. exact compile_wf. Qed.
Print Assumptions C10_bytecode_is_well_formed.

(** fn make(n) { let mut total = n; |x| { while total < x { if x == 7 { break; } total += 1; } total } } make(3) *)
Definition c10_program : expr :=
  EBlock
    [EFnDecl "make" [FnArg "n" None] None
       (EBlock [EVarDecl (Singular "total") true (ELitIdent "n") None]
          (Some (ELitAnonymousFn [FnArg "x" None] None
             (EBlock
                [EWhile (EBinary BLessThan (ELitIdent "total") (ELitIdent "x"))
                   (EBlock [EIf (EBinary BEquals (ELitIdent "x") (ELitInt 7)) (EBlock [EBreak] None) None;
                            EAssignment AAdd (ELitIdent "total") (ELitInt 1)] None)]
                (Some (ELitIdent "total"))))))]
    (Some (EFnCall (ELitIdent "make") [ELitInt 3])).
Example C10_nonvacuous :
  match compile KScript c10_program with
  | Ok b =>
      bc_slot_count b = 1 /\
      match bc_constants b with
      | [CFunction f; CInt 3%Z] =>
          bc_slot_count (fn_code f) = 3 /\
          match bc_constants (fn_code f) with
          | [CFunction g] => bc_upvalue_count (fn_code g) = 1 /\ 40 <= List.length (bc_data (fn_code g))
          | _ => False
          end
      | _ => False
      end
  | _ => False
  end.
Proof. vm_compute. repeat split; repeat constructor. Qed.
