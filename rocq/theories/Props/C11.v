(** Property C11: the VM stack is a LIFO stack with cleared garbage. *)
From Verif.Model Require Import Stack.
From Verif.Spec Require Import StackSpec.
From Verif.Proofs Require Import StackP.

(** Every sequence of operations on a new stack delivers exactly the values the same operations deliver
    on a list; afterwards the stack holds exactly that list with nulls above the pointer; and where the
    list runs empty or over the limit the stack panics. *)
Theorem C11_stack_is_list : forall (A : Type) (null : A) (ops : list (stack_op A)),
  match list_run null ops [] with
  | Some (outs, l) => exists s, vm_stack_run null ops (stack_new null) = Ok (outs, s) /\ holds null s l
  | None => vm_stack_run null ops (stack_new null) = Panic
  end.
Proof. exact (fun A => @stack_history A). Qed.
Print Assumptions C11_stack_is_list.
Example C11_nonvacuous :
  list_run 0 [SPush 1; SPushAll [2; 3; 4]; SSwap; SReserve 2; SPeek 2; SReleaseTop 2; SPopN 2; SPop] []
  = Some ([[]; []; []; []; [3]; []; [4; 3]; [2]], [1]).
Proof. vm_compute. reflexivity. Qed.
