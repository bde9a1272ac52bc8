(** The stack of functions under compilation: dice-compiler/src/compiler_stack.rs.
    The Vec is a list with the innermost function (the Vec's last) first. *)
From Verif.Model Require Export Assembler Scope Ast.

(** CompilerKind: compiler_stack.rs:16-23. *)
Inductive compiler_kind :=
| KScript
| KModule
| KFunction (return_type : option type_ann)
| KMethod (return_type : option type_ann)
| KConstructor.

(** CompilerContext: 37-54. *)
Record context := Context {
  cx_kind : compiler_kind;
  cx_asm : assembler;
  cx_upvalues : list upvalue_desc;
  cx_scopes : scope_stack;
  cx_temps : nat }.
Definition context_new (kind : compiler_kind) : context :=
  Context kind asm_new [] (scope_stack_new KBlock) 0.

Definition set_asm (a : assembler) (c : context) := Context (cx_kind c) a (cx_upvalues c) (cx_scopes c) (cx_temps c).
Definition set_upvalues (u : list upvalue_desc) (c : context) := Context (cx_kind c) (cx_asm c) u (cx_scopes c) (cx_temps c).
Definition set_scopes (s : scope_stack) (c : context) := Context (cx_kind c) (cx_asm c) (cx_upvalues c) s (cx_temps c).
Definition set_temps (n : nat) (c : context) := Context (cx_kind c) (cx_asm c) (cx_upvalues c) (cx_scopes c) n.

(** add_upvalue: 68-78. *)
Definition add_upvalue (d : upvalue_desc) (c : context) : nat * context :=
  match position (fun u => upvalue_desc_eqb u d) (cx_upvalues c) with
  | Some p => (p, c)
  | None =>
      let u := cx_upvalues c ++ [d] in
      (List.length u - 1, set_upvalues u c)
  end.

(** finish: 88-92. *)
Definition finish (c : context) : bytecode :=
  generate (cx_asm c) (ss_slot_count (cx_scopes c)) (List.length (cx_upvalues c)).

(** resolve_upvalue: 127-156, on the part of the stack from offset [depth] outwards; [None] when the
    name is declared in no enclosing function, in which case nothing was changed.  The index
    [parent.upvalues()[outer_index]] (142) is always in range, because add_upvalue just returned it. *)
Fixpoint resolve_upvalue (name : string) (stack : list context) : option (nat * list context) :=
  match stack with
  | [] => None
  | cur :: outer =>
      match outer with
      | [] => None
      | parent :: rest =>
          match local name (cx_scopes parent) with
          | Some v =>
              let parent' := set_scopes (update_local name set_captured (cx_scopes parent)) parent in
              let '(index, cur') := add_upvalue (ParentLocal (sv_slot v) (sv_is_mutable v)) cur in
              Some (index, cur' :: parent' :: rest)
          | None =>
              match resolve_upvalue name outer with
              | None => None
              | Some (outer_index, outer') =>
                  let is_mutable :=
                    match outer' with
                    | parent' :: _ =>
                        match nth_error (cx_upvalues parent') outer_index with
                        | Some d => upvalue_is_mutable d
                        | None => false
                        end
                    | [] => false
                    end in
                  let '(index, cur') := add_upvalue (Outer outer_index is_mutable) cur in
                  Some (index, cur' :: outer')
              end
          end
      end
  end.
