(** What an upvalue index of a function refers to, following the descriptors the VM follows when the
    closure is created, and which variable lexical scoping says a name refers to. *)
From Verif.Model Require Import CompilerStack.

(** [refers_to stack i k slot]: upvalue [i] of the innermost function is slot [slot] of the function
    [k] levels further out. *)
Inductive refers_to : list context -> nat -> nat -> nat -> Prop :=
| refers_parent cur outer i slot m :
    nth_error (cx_upvalues cur) i = Some (ParentLocal slot m) ->
    refers_to (cur :: outer) i 1 slot
| refers_outer cur outer i j m k slot :
    nth_error (cx_upvalues cur) i = Some (Outer j m) ->
    refers_to outer j k slot ->
    refers_to (cur :: outer) i (S k) slot.

(** [declared_at stack x k v]: [v] is what [x] means in the function [k] levels out, and no function
    strictly between the innermost and that one declares [x]. *)
Definition declared_at (stack : list context) (x : string) (k : nat) (v : scope_var) : Prop :=
  0 < k /\
  (exists c, nth_error stack k = Some c /\ local x (cx_scopes c) = Some v) /\
  (forall j c, 0 < j < k -> nth_error stack j = Some c -> local x (cx_scopes c) = None).

(** Two versions of one function under compilation that differ only in that the later one captures
    more variables and has more of its own marked as captured. *)
Definition same_variable (v w : scope_var) : Prop :=
  sv_name w = sv_name v /\ sv_slot w = sv_slot v /\ sv_state w = sv_state v /\
  (sv_captured v = true -> sv_captured w = true).
Record extends (c c' : context) : Prop := {
  ext_kind : cx_kind c' = cx_kind c;
  ext_code : cx_asm c' = cx_asm c;
  ext_temps : cx_temps c' = cx_temps c;
  ext_upvalues : exists more, cx_upvalues c' = cx_upvalues c ++ more;
  ext_locals : forall x, match local x (cx_scopes c), local x (cx_scopes c') with
                         | Some v, Some w => same_variable v w
                         | None, None => True
                         | _, _ => False
                         end;
  ext_slots : ss_slot_count (cx_scopes c') = ss_slot_count (cx_scopes c) }.
