(** Lemmas about the file loader and the host interface. *)
From Verif.Model Require Export FileLoader Host.
From Verif.Proofs Require Export SampleP.

Lemma starts_with_spec p d : starts_with p d = true <-> exists rest, p = d ++ rest.
Proof.
  revert p. induction d as [|b d IH]; intros p; cbn [starts_with app].
  - split; [intros _; exists p; reflexivity|destruct p; reflexivity].
  - destruct p as [|c p]; cbn [starts_with]; [split; [discriminate|intros (r & H); discriminate]|].
    rewrite andb_true_iff, IH. destruct (String.eqb_spec b c) as [->|N]; split.
    + intros (_ & r & ->). eauto.
    + intros (r & H). injection H as ->. eauto.
    + intros (H & _). discriminate.
    + intros (r & H). injection H as H. congruence.
Qed.

Lemma file_reads o compile name p : In p (snd (file_load_module o compile name)) ->
  exists dir rest, os_working_dir o = Ok dir /\ os_canonicalize o name = Ok p /\ p = dir ++ rest.
Proof.
  unfold file_load_module. destruct (os_canonicalize o name) as [path| | |]; cbn [snd In]; try contradiction.
  destruct (os_working_dir o) as [dir| | |]; cbn [snd In]; try contradiction.
  destruct (starts_with path dir) eqn:E; cbn [negb snd In]; try contradiction.
  intros [<-|[]]. apply starts_with_spec in E as (rest & E). eauto.
Qed.

Lemma file_outside o compile name path dir : os_canonicalize o name = Ok path -> os_working_dir o = Ok dir ->
  (~ exists rest, path = dir ++ rest) -> file_load_module o compile name = (Err INVALID_SCRIPT_LOCATION, []).
Proof.
  intros E1 E2 N. unfold file_load_module. rewrite E1, E2. destruct (starts_with path dir) eqn:E; [|reflexivity].
  apply starts_with_spec in E. contradiction.
Qed.
Lemma file_inside o compile name dir rest text : os_canonicalize o name = Ok (dir ++ rest) -> os_working_dir o = Ok dir ->
  os_read o (dir ++ rest) = Ok text -> fst (file_load_module o compile name) = compile text.
Proof.
  intros E1 E2 E3. unfold file_load_module. rewrite E1, E2. assert (S : starts_with (dir ++ rest) dir = true) by (apply starts_with_spec; eauto).
  rewrite S. cbn. now rewrite E3.
Qed.

(** Two names of one file. *)
Definition two_names : os :=
  MkOs (fun name => if (String.eqb name "m.dm" || String.eqb name "./m.dm")%bool then Ok ["home"; "m.dm"]%string else Err IO_ERROR)
       (Ok ["home"]%string) (fun _ => Ok ""%string).
(** The compiled empty module. *)
Definition compile_nothing (_ : string) : outcome bytecode := compile KModule (EBlock [] None).
Definition two_names_world : world := file_world two_names compile_nothing true (fun _ _ _ _ => AnsValue VUnit).
(** import a from "m.dm"; import b from "./m.dm"; *)
Definition import_twice : expr :=
  EBlock [EImportDecl (Some "a"%string) [] "m.dm"; EImportDecl (Some "b"%string) [] "./m.dm"] None.

Definition loads_after (r : res value) : option (list string) :=
  match r with ROk _ s => Some (vm_loads s) | _ => None end.
Lemma import_twice_loads : loads_after (dice_run two_names_world 50 import_twice new_vm) = Some ["./m.dm"; "m.dm"]%string.
Proof. vm_compute. reflexivity. Qed.

Lemma dice_run_executes w n root s s' : final_state (dice_run w n root s) = Some s' -> executes w s s'.
Proof.
  unfold dice_run. destruct (compile KScript root) as [bc|e| |]; cbn [final_state]; intros E; try discriminate.
  - eapply ex_run; [exact E|apply ex_done].
  - injection E as <-. apply ex_done.
Qed.
Lemma loads_after_executes w n root s l : loads_after (dice_run w n root s) = Some l ->
  exists s', executes w s s' /\ vm_loads s' = l.
Proof.
  intros E. destruct (dice_run w n root s) as [v s'|e s'| |] eqn:D; try discriminate. injection E as <-. exists s'.
  split; [|reflexivity]. apply (dice_run_executes w n root). now rewrite D.
Qed.

Lemma same_file_twice : exists s, reachable two_names_world s /\ vm_loads s = ["./m.dm"; "m.dm"]%string /\
  os_canonicalize two_names "./m.dm" = os_canonicalize two_names "m.dm".
Proof.
  destruct (loads_after_executes _ _ _ _ _ import_twice_loads) as (s & E & L). exists s. split; [|split; [exact L|reflexivity]].
  exists new_vm. split; [apply new_vm_ok|exact E].
Qed.

(** A module that cannot be loaded. *)
(** import a from "m.dm"; *)
Definition import_once : expr := EBlock [EImportDecl (Some "a"%string) [] "m.dm"] None.
Definition outcome_of (r : res value) : option (option errcode) :=
  match r with ROk _ _ => Some None | RErr e _ => Some (Some e) | _ => None end.
Definition state_of (r : res value) (s : vm) : vm := match r with ROk _ s' | RErr _ s' => s' | _ => s end.
Lemma import_fails_then_succeeds :
  let first := dice_run sample_world 50 import_once new_vm in
  outcome_of first = Some (Some IO_ERROR) /\
  outcome_of (dice_run sample_world 50 import_once (state_of first new_vm)) = Some None.
Proof. vm_compute. auto. Qed.

(** The import instruction after a failed import. *)
Lemma failed_import_then_known w n m name s e s' r bc fr ups c p below temps :
  assoc_get name (vm_modules s) = None ->
  load_module w (machine w n) name s = RErr e s' ->
  (exists s1, executes w s' s1 /\ m = s1) ->
  nth_error (bc_constants bc) c = Some (CSymbol name) -> fits below temps 1 ->
  exists o, step w r bc fr ups (IByte OpLoadModule c) p (with_stack below temps m)
            = ROk (Continue p) (with_stack below (VObject o :: temps) m).
Proof.
  intros E H (s1 & Ex & ->) Ec F. destruct (failed_import_registered w n name s e s' E H) as (o & Eo).
  exists o. apply step_load_module_known with (name := name); auto. eapply steps_modules; [eapply executes_steps; exact Ex|exact Eo].
Qed.

(** Host definitions of globals. *)
Lemma add_global_replaces name v old s : assoc_get name (vm_globals s) = Some old ->
  exists s', add_global name v s = RErr GLOBAL_ALREADY_EXISTS s' /\ assoc_get name (vm_globals s') = Some v.
Proof.
  intros E. unfold add_global. rewrite E. eexists. split; [reflexivity|]. cbn [vm_globals set_globals].
  now rewrite assoc_get_set, String.eqb_refl.
Qed.
Lemma add_global_vacant name v s : assoc_get name (vm_globals s) = None ->
  add_global name v s = ROk tt (set_globals (assoc_set name v (vm_globals s)) s).
Proof. intros E. unfold add_global. now rewrite E. Qed.
Lemma new_module_replaces name m s : assoc_get name (vm_modules s) = Some m ->
  exists o s', new_module name s = RErr MODULE_ALREADY_EXISTS s' /\ o = List.length (h_objects (vm_heap s)) /\
    assoc_get name (vm_modules s') = Some (VObject o).
Proof.
  intros E. unfold new_module, rbind, heap_alloc, object_new. cbn [vm_modules set_heap]. rewrite E.
  eexists _, _. split; [reflexivity|]. split; [reflexivity|]. cbn [vm_modules set_modules]. now rewrite assoc_get_set, String.eqb_refl.
Qed.
Lemma globals_from_get fields : forall globals name, NoDup (map fst fields) ->
  assoc_get name (globals_from fields globals)
  = match assoc_get name globals with Some v => Some v | None => assoc_get name fields end.
Proof.
  induction fields as [|[k v] fields IH]; intros globals name N; cbn [globals_from].
  - cbn. now destruct (assoc_get name globals).
  - inversion N as [|? ? Nk N']; subst. rewrite IH by assumption. cbn [assoc_get].
    destruct (assoc_get k globals) as [old|] eqn:Ek.
    + destruct (assoc_get name globals) as [v'|] eqn:En; [reflexivity|].
      destruct (String.eqb_spec name k) as [->|]; [congruence|reflexivity].
    + rewrite assoc_get_set. destruct (String.eqb_spec name k) as [->|Nq]; [now rewrite Ek|].
      reflexivity.
Qed.

Definition field_program : expr :=
  EBlock [EVarDecl (Singular "a") false (ELitObject []) None;
          EVarDecl (Singular "b") false (ELitObject [("x"%string, ELitInt 7)]) None;
          EAssignment AAssign (EFieldAccess (ELitIdent "a") "x") (ELitInt 1);
          EAssignment AAssign (EFieldAccess (ELitIdent "a") "x") (ELitInt 2)]
         (Some (ELitList [EFieldAccess (ELitIdent "a") "x"; EFieldAccess (ELitIdent "b") "x"; EFieldAccess (ELitIdent "a") "y"])).
Lemma reassignment_unchecked :
  match dice_run sample_world 50 (EBlock [EVarDecl (Singular "x") true (ELitInt 5) (Some (TypeAnn "Int" false));
                               EAssignment AAssign (ELitIdent "x") (ELitString "text")]
                              (Some (ELitIdent "x"))) new_vm with
  | ROk v _ => v = VString "text"
  | _ => False
  end.
Proof. vm_compute. reflexivity. Qed.
