(** Concrete functions and programs for the call, capture and constructor properties. *)
From Verif.Spec Require Export SharingSpec.
From Verif.Proofs Require Export RunP SharingP.
Open Scope string_scope.
Open Scope list_scope.

(** fn id(a) { a } *)
Definition id_fn : fn_bytecode := MkFn 0 "id" (MkBytecode [19; 1; 56] 2 0 []).
Lemma id_compiles :
  compile KScript (EBlock [EFnDecl "id" [FnArg "a" None] None (EBlock [] (Some (ELitIdent "a")))] None)
  = Ok (MkBytecode [8; 0; 20; 0; 9; 1] 1 0 [CFunction id_fn]).
Proof. vm_compute. reflexivity. Qed.

Lemma id_body w n b x s : List.length b + 4 <= max_stack_size ->
  r_loop (machine w (2 + n)) (fn_code id_fn) (call_frame id_fn (List.length b) 1) None 0%Z
    (with_stack (b ++ call_cells id_fn (VFnScript id_fn) [x]) [] s)
  = ROk tt (with_stack (b ++ call_cells id_fn (VFnScript id_fn) [x]) [x] s).
Proof.
  intros L. cbn [Nat.add].
  assert (Lc : List.length (b ++ call_cells id_fn (VFnScript id_fn) [x]) = List.length b + 3) by (rewrite app_length; reflexivity).
  rewrite (loop_continue _ _ _ _ _ _ (IByte OpLoadLocal 1) 2%Z 2%Z _ (with_stack (b ++ call_cells id_fn (VFnScript id_fn) [x]) [x] s)); [|vm_compute; reflexivity|].
  2:{ cbn [step]. unfold rbind. rewrite (frame_get_ws _ _ _ _ x).
      - rewrite push_ws by (unfold fits; rewrite Lc; cbn [List.length]; lia). reflexivity.
      - cbn [call_frame fr_start fr_end]. lia.
      - cbn [call_frame fr_start fr_end]. rewrite Lc. vm_compute spare_slots. lia.
      - unfold fits. rewrite Lc. cbn [List.length]. lia.
      - cbn [call_frame fr_start]. rewrite nth_error_app2 by lia. replace (List.length b + 1 - List.length b) with 1 by lia. reflexivity. }
  apply (loop_stop _ _ _ _ _ _ (INone OpReturn) 3%Z); [vm_compute; reflexivity|]. reflexivity.
Qed.

Lemma id_call w n below temps x s : List.length below + List.length temps + 4 <= max_stack_size ->
  r_call (machine w (3 + n)) 1 (with_stack below (x :: VFnScript id_fn :: temps) s)
  = ROk tt (with_stack (below ++ rev temps) [x] s).
Proof.
  intros L. assert (Lb : List.length (below ++ rev temps) = List.length below + List.length temps) by (rewrite app_length, rev_length; lia).
  apply (call_returns w (2 + n) below temps (VFnScript id_fn) [x] id_fn None (VFnScript id_fn) s (below ++ rev temps)
           (call_cells id_fn (VFnScript id_fn) [x])).
  - constructor. constructor.
  - unfold room_for_call. rewrite Lb. vm_compute spare_slots. cbn [List.length]. lia.
  - apply id_body. rewrite Lb. lia.
  - reflexivity.
  - reflexivity.
Qed.

(** C21: fn make() { let x = 7; ... } let g = make(); <after> *)
Definition lambda (e : expr) := ELitAnonymousFn [] None e.
Definition call0 (f : expr) := EFnCall f [].
Definition x_is_7 := EVarDecl (Singular "x") true (ELitInt 7) None.
Definition make_then (body after : expr) : expr :=
  EBlock [EFnDecl "make" [] None body; EVarDecl (Singular "g") false (call0 (ELitIdent "make")) None] (Some after).
(** ... left at the end of the body: { let mut x = 7; || x } *)
Definition exit_by_end : expr := make_then (EBlock [x_is_7] (Some (lambda (ELitIdent "x")))) (call0 (ELitIdent "g")).
(** ... left by return: { let mut x = 7; return || x; } *)
Definition exit_by_return : expr := make_then (EBlock [x_is_7; EReturn (Some (lambda (ELitIdent "x")))] None) (call0 (ELitIdent "g")).
(** ... left by !!: { let mut x = 7; let r = {is_ok: false, get: || x}; r!!; }, against the same object
    returned at the end of the body. *)
Definition r_is_error := EVarDecl (Singular "r") false
  (ELitObject [("is_ok", ELitBool false); ("get", lambda (ELitIdent "x"))]) None.
Definition call_get := call0 (EFieldAccess (ELitIdent "g") "get").
Definition exit_by_propagation : expr := make_then (EBlock [x_is_7; r_is_error; EErrorPropagate (ELitIdent "r")] None) call_get.
Definition exit_by_end_with_object : expr := make_then (EBlock [x_is_7; r_is_error] (Some (ELitIdent "r"))) call_get.
(** The dangling variable lies in the stack of whoever runs next:
    fn make() { let mut x = 7; return || { x = 99; }; }  let g = make();
    fn victim(a) { g(); a }  victim(1) *)
Definition set_x_99 := lambda (EBlock [EAssignment AAssign (ELitIdent "x") (ELitInt 99)] None).
Definition corrupts (exit_ : expr -> expr) : expr :=
  EBlock [EFnDecl "make" [] None (exit_ set_x_99); EVarDecl (Singular "g") false (call0 (ELitIdent "make")) None;
          EFnDecl "victim" [FnArg "a" None] None (EBlock [call0 (ELitIdent "g")] (Some (ELitIdent "a")))]
    (Some (EFnCall (ELitIdent "victim") [ELitInt 1])).
Definition by_return (e : expr) : expr := EBlock [x_is_7; EReturn (Some e)] None.
Definition by_end (e : expr) : expr := EBlock [x_is_7] (Some e).

(** C43: class A { fn new(self) { self.x = 1; } } class B : A {} B(args).x *)
Definition class_A := EClassDecl "A" [EFnDecl "new" [FnArg "self" None] None
  (EBlock [EAssignment AAssign (EFieldAccess (ELitIdent "self") "x") (ELitInt 1)] None)] None.
Definition derived_construction (args : list expr) : expr :=
  EBlock [class_A; EClassDecl "B" [] (Some (ELitIdent "A"))] (Some (EFieldAccess (EFnCall (ELitIdent "B") args) "x")).
Definition base_construction : expr :=
  EBlock [class_A] (Some (EFieldAccess (EFnCall (ELitIdent "A") []) "x")).
