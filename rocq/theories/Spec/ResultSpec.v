(** The results of the prelude: the classes Result, Ok and Err (data/scripts/prelude.dm:59-84), and what it means for
    a value to be a result. *)
From Verif.Spec Require Export RangeSpec.
#[local] Open Scope string_scope.
#[local] Open Scope list_scope.
#[local] Open Scope nat_scope.

(** The trees of the three classes. *)
Definition typed (x t : string) (nullable : bool) : fn_arg := {| fa_name := x; fa_type := Some (TypeAnn t nullable) |}.
Definition result_new_args : list fn_arg := [typed "is_ok" "Bool" false; typed "result" "Any" true].
Definition result_new_body : expr :=
  EBlock
    [EAssignment AAssign (EFieldAccess (ELitIdent "self") "is_ok") (ELitIdent "is_ok")]
    (Some (EAssignment AAssign (EFieldAccess (ELitIdent "self") "result") (ELitIdent "result"))).
Definition map_args : list fn_arg := [typed "map_fn" "Function" false].
Definition map_type : option type_ann := Some (TypeAnn "Result" false).
Definition map_body : expr :=
  EBlock []
    (Some (EIf (EFieldAccess (ELitIdent "self") "is_ok")
       (EBlock [] (Some (EFnCall (ELitIdent "Ok") [EFnCall (ELitIdent "map_fn") [EFieldAccess (ELitIdent "self") "result"]])))
       (Some (EBlock [] (Some (EFnCall (ELitIdent "Err") [EFieldAccess (ELitIdent "self") "result"])))))).
Definition result_class : expr :=
  EClassDecl "Result"
    [EFnDecl "new" (arg "self" :: result_new_args) None result_new_body;
     EFnDecl "map" (arg "self" :: map_args) map_type map_body]
    None.
Definition case_new_body (ok : bool) : expr := EBlock [] (Some (ESuperCall [ELitBool ok; ELitIdent "result"])).
Definition case_class (ok : bool) : expr :=
  EClassDecl (if ok then "Ok" else "Err")
    [EFnDecl "new" [arg "self"; arg "result"] None (case_new_body ok)]
    (Some (ELitIdent "Result")).

(** [v] is an instance of class [c]. *)
Definition instance (m : memory) (v : value) (c : nat) : Prop := is_value_of_type v c (m_vm m) = ROk true (m_vm m).
(** A variable in environment [E] that holds [v]. *)
Definition holds (E : env) (x : string) (m : memory) (v : value) : Prop :=
  exists l, assoc_get x E = Some l /\ nth_error (m_cells m) l = Some (Some v).
(** A value that is the function of the given text, and captures variables. *)
Definition capturing_function (pg : program) (m : memory) (f : value) (src : source) (E : env) : Prop :=
  exists a n, f = VFnClosure a /\ nth_error (m_closures m) a = Some (Some (Closure n src E)) /\ bc_slot_count (fn_code (pg_lit pg n)) <= 8.
(** A value that is the function number [n] of text [src], made where the variables were [E]: a function, one that captures
    variables, or a method of either kind; [first] is what its first variable ([src_self src]) holds, the receiver of a method or the function itself. *)
Inductive function_value (pg : program) (m : memory) : value -> nat -> source -> env -> value -> Prop :=
| fv_plain f n src : find (fun p => Nat.eqb (fst p) (fn_id f)) (m_fns m) = Some (n, src) -> fn_eqb f (pg_lit pg n) = true ->
    function_value pg m (VFnScript f) n src [] (VFnScript f)
| fv_capturing a n src E : nth_error (m_closures m) a = Some (Some (Closure n src E)) -> function_value pg m (VFnClosure a) n src E (VFnClosure a)
| fv_method r f n src E : function_value pg m f n src E f -> (forall x y, f <> VFnBound x y) -> function_value pg m (VFnBound r f) n src E r.

(** [cases true] is the class Ok, [cases false] the class Err, and [base] the class Result. *)
Record result_classes (pg : program) (m : memory) (base : nat) (cases : bool -> nat) : Prop := {
  rs_bool : exists c, assoc_get "Bool" (vm_globals (m_vm m)) = Some (VClass c) /\ forall b, instance m (VBool b) c;
  rs_new : exists f n k, class_method base "new" (vm_heap (m_vm m)) = Ok (Some f) /\
    plain_function pg m f n (Source "self" result_new_args Constructing result_new_body k);
  rs_cases : forall ok, exists f k E, class_method (cases ok) "new" (vm_heap (m_vm m)) = Ok (Some f) /\
    capturing_function pg m f (Source "self" [arg "result"] Constructing (case_new_body ok) k) E /\
    holds E "super" m (VClass base);
  rs_derived : forall ok, class_is_class (cases ok) base (vm_heap (m_vm m)) = Ok true;
  rs_map : forall ok, exists f k E, class_method (cases ok) "map" (vm_heap (m_vm m)) = Ok (Some f) /\
    capturing_function pg m f (Source "self" map_args (Returning map_type) map_body k) E /\
    assoc_get "Function" E = None /\
    holds E "Ok" m (VClass (cases true)) /\ holds E "Err" m (VClass (cases false)) /\ holds E "Result" m (VClass base) }.
(** A value that may be put into a result: null, or an instance of Any. *)
Definition any_value (m : memory) (v : value) : Prop :=
  exists c, assoc_get "Any" (vm_globals (m_vm m)) = Some (VClass c) /\ (v = VNull \/ instance m v c).
(** A value that may be given to map. *)
Definition a_function (m : memory) (f : value) : Prop :=
  f <> VNull /\ exists c, assoc_get "Function" (vm_globals (m_vm m)) = Some (VClass c) /\ instance m f c.

(** [v] is a result: it says whether it is one of success, and what of.  Reading these fields changes nothing. *)
Definition is_result (m : memory) (v : value) (ok : bool) (x : value) : Prop :=
  field_of v "is_ok" m (VBool ok) m /\ field_of v "result" m x m.
(** The object of a case of the prelude. *)
Definition is_case (m : memory) (v : value) (c : nat) (ok : bool) (x : value) : Prop :=
  exists o, v = VObject o /\ object_class o (vm_heap (m_vm m)) = Ok (Some c) /\
    object_field o "is_ok" (vm_heap (m_vm m)) = Ok (Some (VBool ok)) /\ object_field o "result" (vm_heap (m_vm m)) = Ok (Some x) /\
    object_field o "map" (vm_heap (m_vm m)) = Ok None.
(** From [m] to [m'] there are new variables and objects, and nothing else changes. *)
Definition only_adds (m m' : memory) : Prop :=
  (forall l, l < List.length (m_cells m) -> nth_error (m_cells m') l = nth_error (m_cells m) l) /\
  (forall o f x, object_field o f (vm_heap (m_vm m)) = Ok x -> object_field o f (vm_heap (m_vm m')) = Ok x) /\
  (forall o x, object_class o (vm_heap (m_vm m)) = Ok x -> object_class o (vm_heap (m_vm m')) = Ok x) /\
  h_arrays (vm_heap (m_vm m')) = h_arrays (vm_heap (m_vm m)) /\ h_classes (vm_heap (m_vm m')) = h_classes (vm_heap (m_vm m)) /\
  vm_globals (m_vm m') = vm_globals (m_vm m) /\ vm_modules (m_vm m') = vm_modules (m_vm m) /\ vm_kinds (m_vm m') = vm_kinds (m_vm m) /\
  m_closures m' = m_closures m /\ m_fns m' = m_fns m.

(** From [m] to [m'] the three classes stay as they are, and so do variables that hold classes. *)
Definition leaves_classes (pg : program) (m m' : memory) : Prop :=
  (forall base cases, result_classes pg m base cases -> result_classes pg m' base cases) /\
  (forall E x c, holds E x m (VClass c) -> holds E x m' (VClass c)).

(** The body of a function that begins with a statement that stores e!! in a variable. *)
Definition begins_with (x : string) (e : expr) (rest : list expr) (t : option expr) : expr :=
  EBlock (EVarDecl (Singular x) false (EErrorPropagate e) None :: rest) t.
