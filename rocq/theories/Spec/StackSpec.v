(** What a stack is: a list, top first. *)
From Verif.Model Require Export Stack.

Inductive stack_op (A : Type) :=
| SPush (v : A) | SPushAll (vs : list A) | SPop | SPopN (n : nat) | SPeek (k : nat) | SSwap
| SReserve (n : nat)          (* open a frame of n null cells on top *)
| SReleaseTop (n : nat).      (* release the frame formed by the n topmost cells *)
Arguments SPush {A}. Arguments SPushAll {A}. Arguments SPop {A}. Arguments SPopN {A}. Arguments SPeek {A}.
Arguments SSwap {A}. Arguments SReserve {A}. Arguments SReleaseTop {A}.

(** The operations on a list: (values delivered, new list); [None] where the list has no answer
    or the cell limit is exceeded.  A frame may only be opened while it leaves one cell free. *)
Definition list_op {A} (null : A) (op : stack_op A) (l : list A) : option (list A * list A) :=
  match op with
  | SPush v => if List.length l <? max_stack_size then Some ([], v :: l) else None
  | SPushAll vs =>
      match vs with
      | [] => Some ([], l)
      | _ => if List.length l + List.length vs <=? max_stack_size then Some ([], rev vs ++ l) else None
      end
  | SPop => match l with [] => None | v :: r => Some ([v], r) end
  | SPopN n => if n <=? List.length l then Some (rev (firstn n l), skipn n l) else None
  | SPeek k => match nth_error l k with Some v => Some ([v], l) | None => None end
  | SSwap => match l with a :: b :: r => Some ([], b :: a :: r) | _ => None end
  | SReserve n => if List.length l + n <? max_stack_size then Some ([], repeat null n ++ l) else None
  | SReleaseTop n =>
      if (n <=? List.length l) && (List.length l - n <? max_stack_size) then Some ([], skipn n l) else None
  end.

Fixpoint list_run {A} (null : A) (ops : list (stack_op A)) (l : list A) : option (list (list A) * list A) :=
  match ops with
  | [] => Some ([], l)
  | op :: rest =>
      match list_op null op l with
      | None => None
      | Some (out, l') =>
          match list_run null rest l' with None => None | Some (outs, l'') => Some (out :: outs, l'') end
      end
  end.

(** The same operations on the VM's stack (debug build). *)
Definition vm_stack_op {A} (null : A) (op : stack_op A) (s : stack A) : outcome (list A * stack A) :=
  match op with
  | SPush v => omap (fun s' => ([], s')) (stack_push v s)
  | SPushAll vs => omap (fun s' => ([], s')) (stack_push_multiple vs s)
  | SPop => omap (fun '(v, s') => ([v], s')) (stack_pop null s)
  | SPopN n => stack_pop_count null n s
  | SPeek k => omap (fun v => ([v], s)) (stack_peek k s)
  | SSwap => omap (fun s' => ([], s')) (stack_swap s)
  | SReserve n => omap (fun '(_, s') => ([], s')) (stack_reserve true n s)
  | SReleaseTop n =>
      if st_ptr s <? n then Panic
      else omap (fun s' => ([], s')) (stack_release null true (Frame (st_ptr s - n) (st_ptr s)) s)
  end.

Fixpoint vm_stack_run {A} (null : A) (ops : list (stack_op A)) (s : stack A) : outcome (list (list A) * stack A) :=
  match ops with
  | [] => Ok ([], s)
  | op :: rest =>
      obind (vm_stack_op null op s) (fun '(out, s') =>
      omap (fun '(outs, s'') => (out :: outs, s'')) (vm_stack_run null rest s'))
  end.

(** The VM stack holds exactly the list [l]: below the pointer its elements, above it only nulls. *)
Definition holds {A} (null : A) (s : stack A) (l : list A) : Prop :=
  st_ptr s = List.length l /\
  List.length (st_vals s) = max_stack_size /\
  forall i, i < max_stack_size ->
    nth_error (st_vals s) i = Some (if i <? List.length l then nth i (rev l) null else null).
