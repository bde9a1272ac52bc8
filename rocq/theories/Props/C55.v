(** Property C55: members of classes. *)
From Verif.Model Require Import Compiler.
From Verif.Spec Require Import StaticSpec.
From Verif.Proofs Require Import ClassRulesP.

(** C55: in every class of an accepted program, methods and operators have a receiver without type annotation; [new] is a
    method without return type; in a class with a base it starts by calling the base's constructor. *)
Theorem C55_class_members : forall kind root b, compile kind root = Ok b -> classes_ok root = true.
Proof. exact compile_classes. Qed.
Print Assumptions C55_class_members.

(** [good_class] and [bad_classes] (ClassRulesP.v): class B : A with a correct constructor, and with six wrong members. *)
Example C55_nonvacuous : (exists b, compile KScript good_class = Ok b) /\ classes_ok good_class = true /\
  map classes_ok bad_classes = repeat false 6 /\
  map (fun e => match compile KScript e with Err x => Some x | _ => None end) bad_classes =
    map Some [NEW_MUST_CALL_SUPER_FROM_SUBCLASS; NEW_MUST_CALL_SUPER_FROM_SUBCLASS; NEW_METHOD_CANNOT_HAVE_RETURN_TYPE; NEW_METHOD_MUST_HAVE_RECEIVER;
              METHOD_RECEIVER_CANNOT_HAVE_TYPE; OPERATOR_MUST_HAVE_RECEIVER].
Proof. vm_compute. repeat split. eexists. reflexivity. Qed.
