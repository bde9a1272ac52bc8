(** What a history of scope operations means, read off the history itself. *)
From Coq Require Import List String Arith.
Import ListNotations.

(** What happens while one function is compiled. *)
Inductive event :=
| Open                        (* a block, loop or class body begins *)
| Close                       (* the innermost open one ends *)
| Declare (name : string)     (* a variable, parameter, function or class is declared *)
| Capture (name : string)     (* a nested function uses the variable *)
| Initialize (name : string). (* a function or class gets its value *)

(** The declarations visible after a history given backwards, latest first: going back in time, skip
    everything between a [Close] and the [Open] it belongs to. *)
Fixpoint visible (backwards : list event) (skip : nat) : list string :=
  match backwards with
  | [] => []
  | Close :: h => visible h (S skip)
  | Open :: h => visible h (pred skip)
  | Declare x :: h => match skip with 0 => x :: visible h 0 | _ => visible h skip end
  | _ :: h => visible h skip
  end.

(** The history never closes more than it opened. *)
Fixpoint balanced_from (n : nat) (h : list event) : Prop :=
  match h with
  | [] => True
  | Open :: r => balanced_from (S n) r
  | Close :: r => match n with 0 => False | S m => balanced_from m r end
  | _ :: r => balanced_from n r
  end.

(** The latest visible declaration of a name, with the number of visible declarations before it. *)
Fixpoint resolve (x : string) (decls : list string) : option nat :=
  match decls with
  | [] => None
  | y :: r => if String.eqb y x then Some (List.length r) else resolve x r
  end.

(** The largest number of declarations visible at any moment of the history. *)
Definition now_visible (h : list event) : nat := List.length (visible (rev h) 0).
Definition is_peak (h : list event) (n : nat) : Prop :=
  (exists p s, h = p ++ s /\ now_visible p = n) /\
  (forall p s, h = p ++ s -> now_visible p <= n).
