(** Programs with many list elements, arguments or variables. *)
From Coq Require Import List String.
From Verif.Model Require Import Common Ast Source Compiler.
From Verif.Spec Require Export StoreSpec.
From Verif.Spec Require Import PrintSpec.
Import ListNotations.
#[local] Open Scope string_scope.

(** The program [b1, b2, ...] of boolean literals. *)
Definition list_of (bs : list bool) : expr := EBlock [] (Some (ELitList (map ELitBool bs))).

(** The last [k] elements of a list. *)
Definition last_elements {A} (k : nat) (l : list A) : list A := skipn (List.length l - k) l.

(** The source text [b1 , b2 , ...]. *)
Definition list_text (bs : list bool) : list char := text_of (ELitList (map ELitBool bs)).

(** let first = true, then n more variables that are false, then the value of the first. *)
Fixpoint more_variables (k n : nat) : string :=
  match n with 0 => "" | S m => "let v" ++ decimal k ++ " = false " ++ more_variables (S k) m end.
Definition many_variables (n : nat) : string := "let first = true " ++ more_variables 0 n ++ "first".

(** A call of f with n arguments, each the function g; f answers 1 and g answers 2. *)
Fixpoint repeated (n : nat) (t : string) : string := match n with 0 => "" | S m => t ++ repeated m t end.
Definition many_arguments (n : nat) : string := "fn f() { 1 } fn g() { 2 } f(" ++ repeated n "g, " ++ ")".
