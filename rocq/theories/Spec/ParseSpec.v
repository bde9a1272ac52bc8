(** Braces of a token sequence, and the value of a decimal numeral. *)
From Coq Require Import ZArith.
From Verif.Model Require Import Lexer.
#[local] Open Scope Z_scope.

Definition curl (k : token_kind) : Z := match k with TLeftCurly => 1 | TRightCurly => -1 | _ => 0 end.
(** Opening minus closing braces. *)
Fixpoint depth (ts : list token) : Z := match ts with [] => 0 | t :: r => curl (tk_kind t) + depth r end.
(** Every closing brace closes an earlier opening brace. *)
Definition braces_match (ts : list token) : Prop := forall before after, ts = before ++ after -> 0 <= depth before.

(** Places count from the right: the numeral d_n ... d_1 d_0 has the value d_n * 10^n + ... + d_0. *)
Fixpoint numeral_value (t : list char) : Z :=
  match t with
  | [] => 0
  | c :: r => (Z.of_N c - 48) * 10 ^ Z.of_nat (List.length r) + numeral_value r
  end.
