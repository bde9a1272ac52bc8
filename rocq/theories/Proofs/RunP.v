(** Whole runs: what they leave on the stack. *)
From Verif.Proofs Require Export CallP HostP.

(** One iteration of the interpreter's loop. *)
Lemma loop_continue w n bc fr ups p i p' p'' s s' :
  fetch vm_operands (bc_constants bc) (bc_data bc) p = Ok (Some (i, p')) ->
  step w (machine w n) bc fr ups i p' s = ROk (Continue p'') s' ->
  r_loop (machine w (S n)) bc fr ups p s = r_loop (machine w n) bc fr ups p'' s'.
Proof. intros F S. cbn [machine r_loop]. unfold loop, rbind, VM.lift. rewrite F. rewrite S. reflexivity. Qed.
Lemma loop_stop w n bc fr ups p i p' s s' :
  fetch vm_operands (bc_constants bc) (bc_data bc) p = Ok (Some (i, p')) ->
  step w (machine w n) bc fr ups i p' s = ROk Stop s' ->
  r_loop (machine w (S n)) bc fr ups p s = ROk tt s'.
Proof. intros F S. cbn [machine r_loop]. unfold loop, rbind, VM.lift. rewrite F. rewrite S. reflexivity. Qed.
Lemma loop_err w n bc fr ups p i p' s e s' :
  fetch vm_operands (bc_constants bc) (bc_data bc) p = Ok (Some (i, p')) ->
  step w (machine w n) bc fr ups i p' s = RErr e s' ->
  r_loop (machine w (S n)) bc fr ups p s = RErr e s'.
Proof. intros F S. cbn [machine r_loop]. unfold loop, rbind, VM.lift. rewrite F. rewrite S. reflexivity. Qed.
Lemma loop_end w n bc fr ups p s :
  fetch vm_operands (bc_constants bc) (bc_data bc) p = Ok None ->
  r_loop (machine w (S n)) bc fr ups p s = ROk tt s.
Proof. intros F. cbn [machine r_loop]. unfold loop, rbind, VM.lift. rewrite F. reflexivity. Qed.

(** A successful run of a debug build leaves the stack pointer where it was. *)
Lemma run_restores w n bc s v s' : w_dbg w = true -> runtime_run w n bc s = ROk v s' ->
  st_ptr (vm_stack s') = st_ptr (vm_stack s).
Proof.
  intros D. unfold runtime_run, run_script. unfold rbind at 1. unfold on_stack at 1, stack_reserve.
  destruct (w_dbg w && negb (st_ptr (vm_stack s) + bc_slot_count bc <? max_stack_size)); [discriminate|].
  set (fr := Frame _ _). unfold rbind at 1. unfold execute. cbn [vm_stack set_stack st_ptr]. unfold rbind at 1.
  destruct (r_loop _ _ _ _ _ _) as [[] s1|e s1| |]; try discriminate. rewrite D. cbn [andb].
  destruct (Nat.eqb_spec (st_ptr (vm_stack s1)) (S (st_ptr (vm_stack s) + bc_slot_count bc))) as [E|]; [|discriminate]. cbn [negb].
  unfold pop, on_stack, stack_pop. rewrite E. unfold stack_get, stack_set. destruct (nth_error _ _); [|discriminate]. cbn [obind].
  destruct (_ <? _); [|discriminate]. cbn [omap]. unfold rbind, on_stack_, on_stack, stack_release. cbn [vm_stack set_stack st_ptr st_vals].
  destruct ((fr_end fr <? fr_start fr) || _); [discriminate|].
  destruct (_ <? frame_length fr); [discriminate|]. destruct (true && _); [discriminate|].
  cbn [omap rret]. intros [= _ <-]. cbn [vm_stack set_stack st_ptr]. unfold frame_length, fr. cbn [fr_start fr_end]. lia.
Qed.

(** A program that fails: { let x = null; nope } *)
Definition failing_program : expr := EBlock [EVarDecl (Singular "x") false ELitNull None] (Some (ELitIdent "nope")).
Definition failing_code : bytecode := MkBytecode
  (match compile KScript failing_program with Ok bc => bc_data bc | _ => [] end) 1 0 [CSymbol "nope"].
Lemma failing_compiles : compile KScript failing_program = Ok failing_code.
Proof. vm_compute. reflexivity. Qed.

Lemma failing_run w n b s : assoc_get "nope" (vm_globals s) = None -> List.length b + 2 <= max_stack_size ->
  runtime_run w (5 + n) failing_code (with_stack b [] s) = RErr GLOBAL_VARIABLE_UNDEFINED (with_stack (b ++ [VNull]) [] s).
Proof.
  intros G L. unfold runtime_run, run_script. change (bc_slot_count failing_code) with 1.
  unfold rbind at 1. rewrite (reserve_ws (w_dbg w) 1) by (unfold fits; cbn [List.length]; lia). cbn [rev app repeat].
  set (fr := Frame _ _). unfold rbind at 1. unfold execute, rbind at 1.
  assert (Lb : List.length (b ++ [VNull]) = List.length b + 1) by (rewrite app_length; reflexivity).
  assert (E : r_loop (machine w (5 + n)) failing_code fr None 0%Z (with_stack (b ++ [VNull]) [] s)
              = RErr GLOBAL_VARIABLE_UNDEFINED (with_stack (b ++ [VNull]) [] s)).
  { cbn [Nat.add].
    rewrite (loop_continue _ _ _ _ _ _ (INone OpPushNull) 1%Z 1%Z _ (with_stack (b ++ [VNull]) [VNull] s)); [|vm_compute; reflexivity|].
    2:{ cbn [step]. unfold rbind. rewrite push_ws by (unfold fits; rewrite Lb; cbn; lia). reflexivity. }
    rewrite (loop_continue _ _ _ _ _ _ (IByte OpStoreLocal 0) 3%Z 3%Z _ (with_stack (b ++ [VNull]) [VNull] s)); [|vm_compute; reflexivity|].
    2:{ cbn [step]. unfold rbind. rewrite pop_ws by (unfold fits; rewrite Lb; cbn; lia).
        rewrite frame_set_ws by (unfold fits, fr; cbn [fr_start fr_end List.length]; rewrite ?Lb; lia).
        rewrite push_ws by (unfold fits; rewrite set_nth_length, Lb; cbn; lia).
        cbn [fr fr_start]. unfold fr. cbn [fr_start]. replace (List.length b + List.length (@nil value) + 0) with (List.length b + 0) by (cbn; lia).
        rewrite set_nth_app_r. reflexivity. }
    rewrite (loop_continue _ _ _ _ _ _ (INone OpPop) 4%Z 4%Z _ (with_stack (b ++ [VNull]) [] s)); [|vm_compute; reflexivity|].
    2:{ cbn [step]. unfold rbind. rewrite pop_ws by (unfold fits; rewrite Lb; cbn; lia). reflexivity. }
    apply (loop_err _ _ _ _ _ _ (IByte OpLoadGlobal 0) 6%Z); [vm_compute; reflexivity|].
    cbn [step]. unfold rbind, symbol_at, const_at, rbind. cbn [nth_error bc_constants failing_code value_of_const rret as_symbol VM.lift].
    unfold load_global. cbn [vm_globals with_stack set_stack]. rewrite G. reflexivity. }
  rewrite E. reflexivity.
Qed.

(** [k] failing runs in a row. *)
Fixpoint fails_times (w : world) (k : nat) (s : vm) : option vm :=
  match k with
  | 0 => Some s
  | S k' =>
      match fails_times w k' s with
      | Some s' => match runtime_run w 5 failing_code s' with RErr _ s2 => Some s2 | _ => None end
      | None => None
      end
  end.
Lemma fails_times_leak w s k : assoc_get "nope" (vm_globals s) = None -> S k <= max_stack_size ->
  fails_times w k (with_stack [] [] s) = Some (with_stack (repeat VNull k) [] s).
Proof.
  intros G. induction k as [|k IH]; intros L; [reflexivity|]. cbn [fails_times]. rewrite IH by lia.
  rewrite (failing_run w 0) by (auto; rewrite repeat_length; lia).
  cbn [repeat]. now rewrite repeat_cons.
Qed.
Lemma full_stack_panics w n bc s b : w_dbg w = true -> S (List.length b) = max_stack_size -> 0 < bc_slot_count bc ->
  runtime_run w n bc (with_stack b [] s) = RPanic.
Proof.
  intros D L P. unfold runtime_run, run_script. unfold rbind at 1. unfold on_stack, stack_reserve. rewrite D.
  rewrite ptr_ws. cbn [List.length andb].
  match goal with |- context [?a <? max_stack_size] => destruct (Nat.ltb_spec a max_stack_size) end; [lia|]. reflexivity.
Qed.
Lemma register_stack name k ms fs s s' : register name k ms fs s = Ok s' -> vm_stack s' = vm_stack s.
Proof.
  unfold register. destruct (class_with_base _ _ _) as [[c h1]| | |]; try discriminate. cbn [obind].
  destruct (add_methods _ _ _) as [h2| | |]; try discriminate. cbn [obind].
  destruct (add_fields _ _ _) as [h3| | |]; try discriminate. cbn [obind]. now intros [= <-].
Qed.
Lemma obind_inv {A B} (m : outcome A) (f : A -> outcome B) b : obind m f = Ok b -> exists a, m = Ok a /\ f a = Ok b.
Proof. destruct m; try discriminate. eauto. Qed.
Lemma runtime_new_stack s : runtime_new = Ok s -> vm_stack s = stack_new VNull.
Proof.
  unfold runtime_new. destruct (class_new _ _) as [any h0]. intros H.
  apply obind_inv in H as (h1 & _ & H). apply obind_inv in H as ([mc h2] & _ & H). cbv zeta in H.
  repeat (let s1 := fresh "s" in let E := fresh "E" in apply obind_inv in H as (s1 & E & H); apply register_stack in E).
  apply register_stack in H. rewrite H, E5, E4, E3, E2, E1, E0, E. reflexivity.
Qed.
Lemma new_vm_stack : new_vm = with_stack [] [] new_vm.
Proof.
  apply ws_id. rewrite (runtime_new_stack _ new_vm_ok). unfold stack_with, stack_new. cbn [app rev List.length].
  now rewrite Nat.sub_0_r.
Qed.
Lemma ok_inj {A} (a b : A) : Ok a = Ok b -> a = b.
Proof. now intros [= ->]. Qed.
Lemma new_vm_nope : assoc_get "nope" (vm_globals new_vm) = None.
Proof.
  assert (E : omap (fun s => assoc_get "nope" (vm_globals s)) runtime_new = Ok None) by (vm_compute; reflexivity).
  rewrite new_vm_ok in E. cbn [omap] in E. exact (ok_inj _ _ E).
Qed.
