(** Scopes of one function under compilation: dice-compiler/src/scope_stack.rs.
    The Vec of scopes is a list with the innermost scope (the Vec's last) first, the Vec of variables
    of a scope a list with the most recent declaration first. *)
From Verif.Model Require Export Common.

(** State: scope_stack.rs:25-39. *)
Inductive var_state :=
| SLocal (is_mutable is_initialized : bool)
| SFunction (is_initialized : bool)
| SClass (is_initialized : bool).
Definition state_initialized (is_mutable : bool) : var_state := SLocal is_mutable true.   (* 33-38 *)

(** ScopeVariable: scope_stack.rs:3-23. *)
Record scope_var := ScopeVar { sv_name : string; sv_slot : nat; sv_captured : bool; sv_state : var_state }.
Definition sv_is_mutable (v : scope_var) : bool :=                        (* 12-14 *)
  match sv_state v with SLocal m _ => m | _ => false end.
Definition sv_is_initialized (v : scope_var) : bool :=                    (* 16-22 *)
  match sv_state v with SLocal _ i => i | SFunction i => i | SClass i => i end.

(** ScopeKind: 41-45; CallContext: 47-51; ScopeContext: 53-76. *)
Inductive scope_kind := KBlock | KLoop.
Definition scope_kind_eqb (a b : scope_kind) : bool :=
  match a, b with KBlock, KBlock => true | KLoop, KLoop => true | _, _ => false end.
Record call_context := CallContext { cc_depth : nat; cc_exits : list nat }.
Record scope := Scope {
  sc_depth : nat;
  sc_kind : scope_kind;
  sc_entry : option nat;
  sc_exits : list nat;
  sc_vars : list scope_var;
  sc_call : call_context;
  sc_slots : nat }.

(** ScopeStack: 78-81. *)
Record scope_stack := ScopeStack { ss_scopes : list scope; ss_slot_count : nat }.

(** ScopeStack::new: 84-92. *)
Definition scope_stack_new (kind : scope_kind) : scope_stack :=
  ScopeStack [Scope 0 kind None [] [] (CallContext 0 []) 0] 0.

(** push_scope: 94-101. *)
Definition push_scope (kind : scope_kind) (entry : option nat) (s : scope_stack) : scope_stack :=
  ScopeStack (Scope (List.length (ss_scopes s)) kind entry [] [] (CallContext 0 []) 0 :: ss_scopes s) (ss_slot_count s).

(** pop_scope: 103-105. *)
Definition pop_scope (s : scope_stack) : outcome (scope * scope_stack) :=
  match ss_scopes s with
  | [] => Err INTERNAL_COMPILER_ERROR
  | sc :: rest => Ok (sc, ScopeStack rest (ss_slot_count s))
  end.

(** Sum of the slot counts of all scopes, 118. *)
Definition total_slots (l : list scope) : nat := fold_right (fun sc n => sc_slots sc + n) 0 l.

(** add_local, add_local_impl: 111-134. *)
Definition add_local (name : string) (st : var_state) (s : scope_stack) : outcome (nat * scope_stack) :=
  match ss_scopes s with
  | [] => Err INTERNAL_COMPILER_ERROR
  | top :: rest =>
      let slot_count := S (total_slots (top :: rest)) in
      let slot := slot_count - 1 in
      let top' := Scope (sc_depth top) (sc_kind top) (sc_entry top) (sc_exits top)
                    (ScopeVar name slot false st :: sc_vars top) (sc_call top) (S (sc_slots top)) in
      Ok (slot, ScopeStack (top' :: rest)
                  (if ss_slot_count s <? slot_count then slot_count else ss_slot_count s))
  end.

(** local: 136-143; the mutable reference it returns is modelled by a lookup and an update. *)
Definition find_var (name : string) (vs : list scope_var) : option scope_var :=
  find (fun v => String.eqb (sv_name v) name) vs.
Fixpoint find_local (name : string) (l : list scope) : option scope_var :=
  match l with
  | [] => None
  | sc :: rest => match find_var name (sc_vars sc) with Some v => Some v | None => find_local name rest end
  end.
Definition local (name : string) (s : scope_stack) : option scope_var := find_local name (ss_scopes s).

Fixpoint update_var (name : string) (f : scope_var -> scope_var) (vs : list scope_var) : list scope_var :=
  match vs with
  | [] => []
  | v :: rest => if String.eqb (sv_name v) name then f v :: rest else v :: update_var name f rest
  end.
Definition set_vars (sc : scope) (vs : list scope_var) : scope :=
  Scope (sc_depth sc) (sc_kind sc) (sc_entry sc) (sc_exits sc) vs (sc_call sc) (sc_slots sc).
Fixpoint update_scopes (name : string) (f : scope_var -> scope_var) (l : list scope) : list scope :=
  match l with
  | [] => []
  | sc :: rest =>
      match find_var name (sc_vars sc) with
      | Some _ => set_vars sc (update_var name f (sc_vars sc)) :: rest
      | None => sc :: update_scopes name f rest
      end
  end.
Definition update_local (name : string) (f : scope_var -> scope_var) (s : scope_stack) : scope_stack :=
  ScopeStack (update_scopes name f (ss_scopes s)) (ss_slot_count s).
Definition set_captured (v : scope_var) : scope_var := ScopeVar (sv_name v) (sv_slot v) true (sv_state v).
Definition set_state (st : var_state) (v : scope_var) : scope_var := ScopeVar (sv_name v) (sv_slot v) (sv_captured v) st.

(** top_mut: 145-147. *)
Definition top_scope (s : scope_stack) : outcome scope :=
  match ss_scopes s with [] => Err INTERNAL_COMPILER_ERROR | sc :: _ => Ok sc end.
Definition update_top (f : scope -> scope) (s : scope_stack) : outcome scope_stack :=
  match ss_scopes s with
  | [] => Err INTERNAL_COMPILER_ERROR
  | sc :: rest => Ok (ScopeStack (f sc :: rest) (ss_slot_count s))
  end.
Definition set_call (c : call_context) (sc : scope) : scope :=
  Scope (sc_depth sc) (sc_kind sc) (sc_entry sc) (sc_exits sc) (sc_vars sc) c (sc_slots sc).
Definition add_exit (p : nat) (sc : scope) : scope :=
  Scope (sc_depth sc) (sc_kind sc) (sc_entry sc) (sc_exits sc ++ [p]) (sc_vars sc) (sc_call sc) (sc_slots sc).

(** first_of_kind: 172-178. *)
Definition first_of_kind (kind : scope_kind) (s : scope_stack) : option scope :=
  find (fun sc => scope_kind_eqb (sc_kind sc) kind) (ss_scopes s).
(** in_context_of: 107-109. *)
Definition in_context_of (kind : scope_kind) (s : scope_stack) : bool :=
  match first_of_kind kind s with Some _ => true | None => false end.
(** add_loop_exit_point: 149-158. *)
Fixpoint add_loop_exit (p : nat) (l : list scope) : option (list scope) :=
  match l with
  | [] => None
  | sc :: rest =>
      if scope_kind_eqb (sc_kind sc) KLoop then Some (add_exit p sc :: rest)
      else option_map (cons sc) (add_loop_exit p rest)
  end.
Definition add_loop_exit_point (p : nat) (s : scope_stack) : outcome scope_stack :=
  match add_loop_exit p (ss_scopes s) with
  | Some l => Ok (ScopeStack l (ss_slot_count s))
  | None => Err INTERNAL_COMPILER_ERROR
  end.
(** entry_point: 160-170. *)
Definition entry_point (kind : scope_kind) (s : scope_stack) : outcome nat :=
  match first_of_kind kind s with
  | Some sc => match sc_entry sc with Some p => Ok p | None => Err INTERNAL_COMPILER_ERROR end
  | None => Err INTERNAL_COMPILER_ERROR
  end.
