(** Captured variables as they should be: variables are storage locations; a closure holds locations, not
    values; the end of a scope gives the slot to a new variable and leaves closures alone. *)
From Verif.Spec Require Export CallSpec.

(** What a program can do with variables.  Slots are those of a frame; closures are numbered in the order
    of their creation. *)
Inductive var_op : Type :=
| ReadLocal (fr : frame) (i : nat)
| WriteLocal (fr : frame) (i : nat) (v : value)
| NewClosure (fr : frame) (within : option nat) (captures : list (bool * nat))
    (* (true, i): slot i of the frame; (false, j): the j-th variable of the closure [within] *)
| ReadCaptured (closure : nat) (j : nat)
| WriteCaptured (closure : nat) (j : nat) (v : value)
| EndScope (fr : frame) (i : nat).

(** The abstract state: the value of every variable, the variable each stack cell currently belongs to, how
    many variables there are, and the variables of every closure. *)
Record vars := Vars {
  av_value : nat -> value;
  av_slot : nat -> nat;
  av_next : nat;
  av_closures : list (list nat) }.

Definition update {A} (f : nat -> A) (i : nat) (x : A) : nat -> A := fun j => if Nat.eqb j i then x else f j.
Definition set_value (a : vars) (x : nat) (v : value) : vars :=
  Vars (update (av_value a) x v) (av_slot a) (av_next a) (av_closures a).

(** Slot [i] of the frame, as an index into a stack of [n] cells. *)
Definition cell (n : nat) (fr : frame) (i : nat) : option nat :=
  if (fr_start fr + i <? fr_end fr) && (fr_end fr <=? n) then Some (fr_start fr + i) else None.

Definition captured_var (a : vars) (k : option nat) (j : nat) : option nat :=
  match k with
  | Some k => match nth_error (av_closures a) k with Some xs => nth_error xs j | None => None end
  | None => None
  end.

Fixpoint all_some {A} (l : list (option A)) : option (list A) :=
  match l with
  | [] => Some []
  | Some x :: r => match all_some r with Some xs => Some (x :: xs) | None => None end
  | None :: _ => None
  end.
Definition capture_var (n : nat) (a : vars) (fr : frame) (within : option nat) (c : bool * nat) : option nat :=
  if fst c then match cell n fr (snd c) with Some i => Some (av_slot a i) | None => None end
  else captured_var a within (snd c).

(** One operation: what is observed (for a read) and the new state; [None] when the operation refers to a
    slot or a closure that does not exist. *)
Definition var_step (n : nat) (a : vars) (op : var_op) : option (option value * vars) :=
  match op with
  | ReadLocal fr i => match cell n fr i with Some k => Some (Some (av_value a (av_slot a k)), a) | None => None end
  | WriteLocal fr i v => match cell n fr i with Some k => Some (None, set_value a (av_slot a k) v) | None => None end
  | NewClosure fr within cs =>
      if match within with Some k => k <? List.length (av_closures a) | None => true end then
        match all_some (map (capture_var n a fr within) cs) with
        | Some xs => Some (None, Vars (av_value a) (av_slot a) (av_next a) (av_closures a ++ [xs]))
        | None => None
        end
      else None
  | ReadCaptured k j => match captured_var a (Some k) j with Some x => Some (Some (av_value a x), a) | None => None end
  | WriteCaptured k j v => match captured_var a (Some k) j with Some x => Some (None, set_value a x v) | None => None end
  | EndScope fr i =>
      match cell n fr i with
      | Some k => Some (None, Vars (update (av_value a) (av_next a) VNull) (update (av_slot a) k (av_next a))
                                (S (av_next a)) (av_closures a))
      | None => None
      end
  end.
Fixpoint var_run (n : nat) (a : vars) (ops : list var_op) : option (list (option value)) :=
  match ops with
  | [] => Some []
  | op :: rest =>
      match var_step n a op with
      | Some (o, a') => match var_run n a' rest with Some l => Some (o :: l) | None => None end
      | None => None
      end
  end.

(** Initially every cell of the stack is a variable of its own. *)
Definition vars_of (cells : list value) : vars :=
  Vars (fun x => nth x cells VNull) (fun i => i) (List.length cells) [].

(** The same operations on the virtual machine: the instructions the compiler emits for them, executed in
    the given frame; code of a closure runs with the closure's captured variables.  [ks]: the addresses of
    the closures created so far; constant [c] of [bc] is the function of all closures. *)
Section Machine.
Variables (w : world) (r : rec) (bc : bytecode) (c : nat) (p : pos).

Definition environment (ks : list nat) (k : option nat) : run (option (list nat)) := fun s =>
  match k with
  | None => ROk None s
  | Some k =>
      match nth_error ks k with
      | Some a => match nth_error (h_closures (vm_heap s)) a with Some x => ROk (Some (fc_upvalues x)) s | None => RPanic end
      | None => RPanic
      end
  end.
Definition code_of (b : bool * nat) : byte * byte := (if fst b then 1 else 0, snd b).
Definition machine_step (ks : list nat) (op : var_op) : run (option value * list nat) :=
  match op with
  | ReadLocal fr i => step w r bc fr None (IByte OpLoadLocal i) p >>> let* v := pop in rret (Some v, ks)
  | WriteLocal fr i v => push v >>> step w r bc fr None (IByte OpAssignLocal i) p >>> pop >>> rret (None, ks)
  | NewClosure fr within cs =>
      let* ups := environment ks within in
      step w r bc fr ups (IClosure c (map code_of cs)) p >>>
      let* v := pop in
      match v with VFnClosure a => rret (None, ks ++ [a]) | _ => rpanic end
  | ReadCaptured k j =>
      let* ups := environment ks (Some k) in
      step w r bc (Frame 0 0) ups (IByte OpLoadUpvalue j) p >>> let* v := pop in rret (Some v, ks)
  | WriteCaptured k j v =>
      let* ups := environment ks (Some k) in
      push v >>> step w r bc (Frame 0 0) ups (IByte OpAssignUpvalue j) p >>> pop >>> rret (None, ks)
  | EndScope fr i => step w r bc fr None (IByte OpCloseUpvalue i) p >>> rret (None, ks)
  end.
Fixpoint machine_run (ks : list nat) (ops : list var_op) : run (list (option value)) :=
  match ops with
  | [] => rret []
  | op :: rest =>
      let* x := machine_step ks op in
      let* l := machine_run (snd x) rest in
      rret (fst x :: l)
  end.
End Machine.
