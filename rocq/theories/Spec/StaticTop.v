(** What the static rules of [StaticSpec] start from: the variables and the place at the outset of a
    compilation and at any moment of it. *)
From Verif.Model Require Import Compiler.
From Verif.Spec Require Import StaticSpec.

(** A module's export object is an immutable variable that no program can name. *)
Definition initial_env (k : compiler_kind) : env := match k with KModule => [("#export", false)] | _ => [] end.
Definition owner_of (k : compiler_kind) : owner :=
  match k with
  | KScript => InScript
  | KModule => InModule
  | KFunction _ => InFunction
  | KMethod _ => InMethod
  | KConstructor => InConstructor
  end.
Definition initial_place (k : compiler_kind) : place := Place false (owner_of k) Root.

(** Variables in scope at some moment of compilation, innermost first: those of the function being
    compiled, then those of the functions around it. *)
Definition variables (s : cstate) : env :=
  flat_map (fun c => flat_map (fun sc => map (fun v => (sv_name v, sv_is_mutable v)) (sc_vars sc)) (ss_scopes (cx_scopes c))) (cs_stack s).
(** Where that moment is: whether one of the open scopes of the current function is a loop, what kind of
    function it is, how deep the scopes are nested. *)
Definition standing (s : cstate) : place :=
  match cs_stack s with
  | [] => Place false InScript Root
  | c :: _ =>
      let scs := ss_scopes (cx_scopes c) in
      Place (existsb (fun sc => match sc_kind sc with KLoop => true | KBlock => false end) scs) (owner_of (cx_kind c))
        (match owner_of (cx_kind c), List.length scs with
         | (InScript | InModule), (0 | 1) => Root
         | (InScript | InModule), 2 => Top
         | _, _ => Nested
         end)
  end.

(** Moments at which an expression is compiled: some scope is open and scopes know their depth. *)
Definition inside_program (s : cstate) : Prop :=
  exists c o sc scs, cs_stack s = c :: o /\ ss_scopes (cx_scopes c) = sc :: scs /\ sc_depth sc = List.length scs.
