(** The VM's value stack: dice-runtime/src/stack/mod.rs and dice-runtime/src/stack/frame.rs.
    The stack pointer is a [nat]; usize wrap-around below zero is replaced by the panic to which the
    wrapped index leads (indexing a Vec far out of range).  The only place where a wrapped pointer does
    not panic at once is [release_stack_frame] in a release build, which is modelled as a panic too.
    The type of values and the value Null are parameters. *)
From Coq Require Import NArith.
From Verif.Model Require Export Common.

(** MAX_STACK_SIZE, stack/mod.rs:12-13. *)
Definition max_stack_size : nat := N.to_nat 65536.

(** Stack, stack/mod.rs:17-20. *)
Record stack (A : Type) := MkStack { st_vals : list A; st_ptr : nat }.
Arguments MkStack {A}. Arguments st_vals {A}. Arguments st_ptr {A}.

(** StackFrame, stack/frame.rs:4-31. *)
Record frame := Frame { fr_start : nat; fr_end : nat }.
Definition frame_length (f : frame) : nat := fr_end f - fr_start f.                 (* frame.rs:29-31 *)
(** frame.rs:22-27; a start below zero makes every use of the frame panic. *)
Definition frame_prepend (f : frame) (count : nat) : outcome frame :=
  if fr_start f <? count then Panic else Ok (Frame (fr_start f - count) (fr_end f)).

Section Stack.
  Context {A : Type} (null : A).

  (** Default, stack/mod.rs:133-140. *)
  Definition stack_new : stack A := MkStack (repeat null max_stack_size) 0.

  (** Index / IndexMut with usize, stack/mod.rs:105-117: out of range panics. *)
  Definition stack_get (i : nat) (s : stack A) : outcome A :=
    match nth_error (st_vals s) i with Some v => Ok v | None => Panic end.
  Definition stack_set (i : nat) (v : A) (s : stack A) : outcome (stack A) :=
    if i <? List.length (st_vals s) then Ok (MkStack (set_nth (st_vals s) i v) (st_ptr s)) else Panic.

  (** push, stack/mod.rs:24-27. *)
  Definition stack_push (v : A) (s : stack A) : outcome (stack A) :=
    obind (stack_set (st_ptr s) v s) (fun s' => Ok (MkStack (st_vals s') (S (st_ptr s')))).

  (** push_multiple, stack/mod.rs:29-37: writes from the highest index down. *)
  Fixpoint stack_set_all (ivs : list (nat * A)) (s : stack A) : outcome (stack A) :=
    match ivs with
    | [] => Ok s
    | (i, v) :: rest => obind (stack_set i v s) (stack_set_all rest)
    end.
  Definition stack_push_multiple (vs : list A) (s : stack A) : outcome (stack A) :=
    stack_set_all (rev (combine (seq (st_ptr s) (List.length vs)) vs))
      (MkStack (st_vals s) (st_ptr s + List.length vs)).

  (** pop, stack/mod.rs:40-43. *)
  Definition stack_pop (s : stack A) : outcome (A * stack A) :=
    match st_ptr s with
    | O => Panic
    | S p =>
        obind (stack_get p s) (fun v =>
        omap (fun s' => (v, MkStack (st_vals s') p)) (stack_set p null s))
    end.

  (** The slice values[a..b]. *)
  Definition stack_slice (a b : nat) (s : stack A) : outcome (list A) :=
    if (b <? a) || (List.length (st_vals s) <? b) then Panic
    else Ok (firstn (b - a) (skipn a (st_vals s))).
  (** values[a..b] filled with Null (loops of stack/mod.rs:50-52 and 70-72). *)
  Definition stack_clear (a b : nat) (l : list A) : list A :=
    firstn a l ++ repeat null (b - a) ++ skipn b l.

  (** pop_count, stack/mod.rs:45-55. *)
  Definition stack_pop_count (count : nat) (s : stack A) : outcome (list A * stack A) :=
    if st_ptr s <? count then Panic
    else
      omap (fun vs => (vs, MkStack (stack_clear (st_ptr s - count) (st_ptr s) (st_vals s)) (st_ptr s - count)))
        (stack_slice (st_ptr s - count) (st_ptr s) s).

  (** reserve_slots, stack/mod.rs:57-66; [dbg] says whether debug assertions are compiled in. *)
  Definition stack_reserve (dbg : bool) (count : nat) (s : stack A) : outcome (frame * stack A) :=
    let p := st_ptr s + count in
    if dbg && negb (p <? max_stack_size) then Panic
    else Ok (Frame (st_ptr s) p, MkStack (st_vals s) p).

  (** release_stack_frame, stack/mod.rs:68-78. *)
  Definition stack_release (dbg : bool) (f : frame) (s : stack A) : outcome (stack A) :=
    if (fr_end f <? fr_start f) || (List.length (st_vals s) <? fr_end f) then Panic
    else if st_ptr s <? frame_length f then Panic
    else
      let p := st_ptr s - frame_length f in
      if dbg && negb (p <? max_stack_size) then Panic
      else Ok (MkStack (stack_clear (fr_start f) (fr_end f) (st_vals s)) p).

  (** peek and peek_mut, stack/mod.rs:81-89. *)
  Definition stack_peek (offset : nat) (s : stack A) : outcome A :=
    if st_ptr s <? S offset then Panic else stack_get (st_ptr s - S offset) s.
  Definition stack_poke (offset : nat) (v : A) (s : stack A) : outcome (stack A) :=
    if st_ptr s <? S offset then Panic else stack_set (st_ptr s - S offset) v s.

  (** swap, stack/mod.rs:91-96. *)
  Definition stack_swap (s : stack A) : outcome (stack A) :=
    if st_ptr s <? 2 then Panic
    else
      obind (stack_get (st_ptr s - 2) s) (fun a =>
      obind (stack_get (st_ptr s - 1) s) (fun b =>
      obind (stack_set (st_ptr s - 2) b s) (stack_set (st_ptr s - 1) a))).

  (** Index / IndexMut with a frame and then with an index into the slice, stack/mod.rs:119-131. *)
  Definition stack_frame_get (f : frame) (i : nat) (s : stack A) : outcome A :=
    obind (stack_slice (fr_start f) (fr_end f) s) (fun l =>
    match nth_error l i with Some v => Ok v | None => Panic end).
  Definition stack_frame_set (f : frame) (i : nat) (v : A) (s : stack A) : outcome (stack A) :=
    obind (stack_slice (fr_start f) (fr_end f) s) (fun l =>
    if i <? List.length l then stack_set (fr_start f + i) v s else Panic).
End Stack.
