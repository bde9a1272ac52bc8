(** The interpreter without the instruction that defines a method called [n], for C26: it stops where the real one
    would execute that instruction, and is the real one otherwise. *)
From Verif.Spec Require Export ClassSpec.

(** The instruction [i] of the code [bc] defines a method called [n]. *)
Definition defines (n : string) (bc : bytecode) (i : instr) : bool :=
  match i with
  | IByte OpStoreMethod k => match nth_error (bc_constants bc) k with Some (CSymbol x) => String.eqb x n | _ => false end
  | _ => false
  end.

(** [loop] of the model, with the check before each instruction. *)
Definition guarded_loop (n : string) (w : world) (r : rec) (bc : bytecode) (fr : frame) (ups : option (list nat)) (p : pos) : run unit :=
  fun s => match fetch vm_operands (bc_constants bc) (bc_data bc) p with
           | Ok (Some (i, _)) => if defines n bc i then RNoFuel else loop w r bc fr ups p s
           | _ => loop w r bc fr ups p s
           end.
Fixpoint without (n : string) (w : world) (fuel : nat) : rec :=
  match fuel with
  | O => MkRec (fun _ _ _ _ _ => RNoFuel) (fun _ _ => RNoFuel)
  | S fuel' => let r := without n w fuel' in MkRec (guarded_loop n w r) (call_fn w r)
  end.
