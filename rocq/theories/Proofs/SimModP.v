(** Simulation of imports: loading and running a module. *)
From Verif.Model Require Import Assembler.
From Verif.Spec Require Import SupportSpec.
From Verif.Proofs Require Import CodecP StackP VmPrimP CallP ReachP CodeP MemP StepP ScopeSimP CallSimP NativeSimP SimP SimBlockP SimFnP.
#[local] Open Scope string_scope.
#[local] Open Scope list_scope.
#[local] Open Scope nat_scope.

Definition module_ctx (bc : bytecode) : ctx := Ctx bc [("#export", false)] [] [] None None None 0.
(** The code of a module: its text, then its exports. *)
Record module_code (lit : nat -> fn_bytecode) (md : module) (bc : bytecode) : Prop := {
  mc_slots : md_slots md = bc_slot_count bc;
  mc_room : 0 < bc_slot_count bc;
  mc_body : exists p p1, code lit (module_ctx bc) (md_first md) (md_tree md) 0 p /\
    at_ bc p (INone OpPop) p1 /\ at_ bc p1 (IByte OpLoadLocal 0) (List.length (bc_data bc)) }.
(** The loader and the library agree. *)
Definition same_library (w : world) (lit : nat -> fn_bytecode) (library : list string -> string -> outcome module) : Prop :=
  forall seen name,
    match library seen name with
    | Ok md => exists bc, w_load w seen name = Ok bc /\ module_code lit md bc
    | Err e => w_load w seen name = Err e
    | Panic => w_load w seen name = Panic
    | NoFuel => True
    end.

Lemma blind_begin name : blind (begin_import name).
Proof.
  intros K b t s. unfold begin_import. change (vm_module_class (with_stack b t (overlay K s))) with (vm_module_class s).
  apply (blind_bind (heap_alloc (object_new (Some (vm_module_class s)))) (fun o s1 => ROk o (set_loads (name :: vm_loads s1) (set_modules (assoc_set name (VObject o) (vm_modules s1)) s1)))).
  - apply blind_alloc. apply hk_object_new.
  - intros o K1 b1 t1 s1. reflexivity.
Qed.
Lemma load_module_new w r name s : assoc_get name (vm_modules s) = None ->
  load_module w r name s = (let* o := begin_import name in let* bc := VM.lift (w_load w (vm_loads s) name) in let* v := run_module w r bc (VObject o) in push v) s.
Proof.
  intros E. unfold load_module. rewrite E. unfold begin_import, heap_alloc, rbind.
  destruct (object_new _ _) as [o h]. reflexivity.
Qed.

Section Module.
Variables (w : world) (lit : nat -> fn_bytecode) (I : interp).
Notation Inv := (Inv lit).
Hypothesis SE : sim_eval w lit I.
Section Run.
Variables (room : nat) (md : module) (bc : bytecode) (x : value).
Variables (rho : names_of) (V : view) (b : list value) (m : memory) (K : links) (t : list value).
Let slots := bc_slot_count bc.
Let base := List.length (b ++ rev t).
Let fr := Frame base (base + slots).
Let B := (b ++ rev t) ++ x :: repeat VNull (slots - 1).
Let l0 := List.length (m_cells m).
Let m1 := set_cells (m_cells m ++ [Some x]) m.
Let V1 := put (base + 0) l0 false V.
Let G := module_ctx bc.
Let S := Scene [("#export", l0)] None (room - slots) false.
Let R := gresult w lit (fun r => (let* v := run_module w r bc x in push v) (state m K b t)) rho V b t.
Hypothesis MC : module_code lit md bc.
Hypothesis HI : Inv rho V b m K.
Hypothesis HR : List.length b + List.length t + room <= max_stack_size.
Hypothesis HN : slots + enough <= room.

Lemma mod_base : base = List.length b + List.length t.
Proof. unfold base. now rewrite app_length, rev_length. Qed.
Lemma mod_len : List.length B = base + slots.
Proof. pose proof (mc_room _ _ _ MC). unfold B. rewrite app_length. fold base. cbn [List.length]. rewrite repeat_length. unfold slots. lia. Qed.
Lemma mod_none i : List.length b <= i -> V i = None.
Proof. intros L. destruct (V i) as [[l fl]|] eqn:EV; [|reflexivity]. destruct (i_bound _ _ _ _ _ _ HI _ _ _ EV). lia. Qed.
Lemma mod_low i : i < List.length b -> nth_error B i = nth_error b i.
Proof. intros L. unfold B. rewrite <- app_assoc, nth_error_app1 by assumption. reflexivity. Qed.
Lemma mod_first : nth_error B (base + 0) = Some x.
Proof. unfold B. rewrite nth_error_app2 by (fold base; lia). fold base. replace (base + 0 - base) with 0 by lia. reflexivity. Qed.

Lemma mod_enter r : run_module w r bc x (state m K b t) =
  (let* v := execute w r bc fr None in on_stack_ (stack_release VNull (w_dbg w) fr) >>> rret v) (state m1 K B []).
Proof.
  pose proof mod_base as LB. pose proof (mc_room _ _ _ MC) as MR. fold slots in MR.
  unfold run_module. unfold rbind at 1. unfold state at 1. fold slots.
  rewrite reserve_ws by (unfold fits, enough in *; lia). rewrite <- LB. fold fr. cbn [fr_start fr].
  unfold rbind at 1. rewrite set_ws.
  - replace (set_nth (b ++ rev t ++ repeat VNull slots) base x) with B; [reflexivity|].
    unfold B. rewrite app_assoc. replace base with (List.length (b ++ rev t) + 0) by (unfold base; lia). rewrite set_nth_app_r. f_equal.
    destruct slots as [|k]; [lia|]. cbn [repeat set_nth]. rewrite Nat.sub_0_r || replace (Datatypes.S k - 1) with k by lia. reflexivity.
  - rewrite !app_length, repeat_length, rev_length. lia.
  - unfold fits, enough in *. rewrite !app_length, repeat_length, rev_length. cbn [List.length]. lia.
Qed.

Lemma mod_here : here lit G S fr None [] rho V1 B m1 K [].
Proof.
  pose proof mod_base. pose proof mod_len. pose proof (mc_room _ _ _ MC) as MR. fold slots in MR.
  split; cbn [G module_ctx S s_fn s_env s_chain s_room g_fn g_null g_depth g_loop List.length fr fr_end]; auto; try (unfold enough in *; lia).
  - split; cbn [module_ctx g_vars g_outer g_ups g_bc List.length G fr fr_start fr_end].
    + exists [("#export", l0)], []. split; [reflexivity|]. split; [|split; cbn [upv]; auto].
      * cbn [locals List.length]. split; [reflexivity|]. split; [apply put_same|exact Logic.I].
      * intros i u Q. destruct i; discriminate Q.
      * intros i y [].
    + intros i L. unfold V1. rewrite put_other by lia. apply mod_none. lia.
    + apply le_n.
    + fold slots. lia.
  - apply (Inv_put lit rho V B m K (base + 0) false (Some x)); [|apply mod_none; lia|apply mod_first].
    eapply Inv_stack; [exact HI|]. intros i Vi. apply mod_low. destruct (V i) as [[l fl]|] eqn:EV; [|congruence]. now destruct (i_bound _ _ _ _ _ _ HI _ _ _ EV).
Qed.

Notation s0 := (state m1 K B []).
Notation leads := (leads w bc fr None).
Lemma mod_done rho' V' b' m' K' v : leads 0 s0 (Done (state m' K' b' [v])) -> good lit base rho V B rho' V' b' m' K' -> (forall i, V' i = V i) ->
  R (AVal v m').
Proof.
  intros (c & L) [A1 A2 (A3 & A4)] EV. pose proof mod_base as LB. pose proof mod_len as LB2.
  set (c1 := firstn base b'). set (c2 := skipn base b'). set (b1 := firstn (List.length b) b').
  assert (E1 : c1 = b1 ++ rev t).
  { unfold c1. rewrite LB. rewrite <- (firstn_skipn (List.length b) b') at 1. rewrite firstn_app, firstn_length, firstn_firstn.
    rewrite A3. replace (min (List.length b + List.length t) (List.length b)) with (List.length b) by lia. fold b1. f_equal.
    replace (List.length b + List.length t - min (List.length b) (List.length B)) with (List.length t) by lia.
    apply (nth_ext _ _ VNull VNull); [rewrite firstn_length, skipn_length, rev_length; lia|]. intros i Li. rewrite firstn_length in Li.
    assert (X : nth_error b' (List.length b + i) = nth_error B (List.length b + i)).
    { apply A4; [lia|]. apply mod_none. lia. }
    assert (Y : nth_error (firstn (List.length t) (skipn (List.length b) b')) i = nth_error (rev t) i).
    { rewrite <- (firstn_skipn (List.length b) b') in X. rewrite nth_error_app2 in X by (rewrite firstn_length; lia).
      rewrite firstn_length in X. replace (List.length b + i - min (List.length b) (List.length b')) with i in X by lia.
      unfold B in X. rewrite <- app_assoc in X. rewrite nth_error_app2 in X by lia. replace (List.length b + i - List.length b) with i in X by lia.
      rewrite nth_error_app1 in X by (rewrite rev_length; lia). rewrite <- X.
      apply firstn_nth. lia. }
    destruct (nth_error (rev t) i) as [y|] eqn:Ey; [|apply nth_error_None in Ey; rewrite rev_length in Ey; lia].
    rewrite (nth_error_nth _ _ VNull Ey). apply nth_error_nth. exact Y. }
  assert (L1 : List.length b1 = List.length b) by (unfold b1; rewrite firstn_length; lia).
  assert (N1 : forall i, i < List.length b -> nth_error b1 i = nth_error b' i).
  { intros i Li. rewrite <- (firstn_skipn (List.length b) b'). fold b1. rewrite nth_error_app1 by lia. reflexivity. }
  exists rho', b1, K'. split.
  - exists c. intros k Lk. unfold rbind at 1. rewrite mod_enter. unfold rbind at 1. unfold execute. unfold rbind at 1.
    specialize (L k Lk). unfold runs in L. cbn [Z.of_nat] in L. rewrite L. unfold state. rewrite !ptr_ws.
    assert (BB : negb (Nat.eqb (List.length b' + List.length [v]) (Datatypes.S (List.length B + @List.length value []))) = false).
    { cbn [List.length]. rewrite negb_false_iff. apply Nat.eqb_eq. lia. }
    rewrite BB, andb_false_r. rewrite pop_ws by (unfold fits, enough in *; cbn [List.length]; lia).
    rewrite <- (firstn_skipn base b'). fold c1 c2.
    assert (S1 : List.length c1 = base) by (unfold c1; rewrite firstn_length; lia).
    assert (S2 : List.length c2 = slots) by (unfold c2; rewrite skipn_length; lia).
    unfold fr. rewrite <- S1, <- S2. unfold rbind at 1. unfold enough in *. rewrite release_ws by (rewrite ?S1, ?S2; lia).
    unfold rret. rewrite E1, ws_shift. rewrite push_ws by (unfold fits; rewrite ?L1; cbn [List.length]; rewrite ?app_length; cbn [List.length app]; lia). reflexivity.
  - split; [|exact A2|].
    + eapply Inv_stack; [eapply Inv_view; [exact A1|intros; symmetry; apply EV]|]. intros i Vi. apply N1.
      destruct (V i) as [[l fl]|] eqn:EVi; [|congruence]. now destruct (i_bound _ _ _ _ _ _ HI _ _ _ EVi).
    + split; [exact L1|]. intros i Li Vi. rewrite N1 by assumption. rewrite A4 by (auto; lia). apply mod_low. exact Li.
Qed.
Lemma mod_fail e m' : fails w bc fr None 0 s0 e (m_vm m') -> R (AFail e m').
Proof.
  intros (st & K' & c & L). exists st, K', c. intros k Lk. unfold rbind at 1. rewrite mod_enter. unfold rbind at 1. unfold execute. unfold rbind at 1.
  specialize (L k Lk). unfold runs in L. cbn [Z.of_nat] in L. rewrite L. reflexivity.
Qed.
Lemma mod_crash : leads 0 s0 Crashed -> R ACrash.
Proof.
  intros (c & L). exists c. intros k Lk. unfold rbind at 1. rewrite mod_enter. unfold rbind at 1. unfold execute. unfold rbind at 1.
  specialize (L k Lk). unfold runs in L. cbn [Z.of_nat] in L. rewrite L. reflexivity.
Qed.

Lemma run_module_sim : R (match i_eval I S (md_first md) (md_tree md) m1 with
  | AVal _ m3 => match nth_error (m_cells m3) l0 with Some (Some v) => AVal v m3 | _ => AUnknown end
  | AFail e m3 => AFail e m3
  | ACrash => ACrash
  | _ => AUnknown
  end).
Proof.
  destruct (mc_body _ _ _ MC) as (p & p1 & C & C1 & C2). pose proof (mc_room _ _ _ MC) as MR. fold slots in MR.
  assert (RS : enough <= s_room S) by (cbn [S s_room]; lia).
  pose proof (proj1 SE G S fr None [] rho V1 B m1 K [] _ _ _ _ mod_here RS C) as P.
  destruct (i_eval I S (md_first md) (md_tree md) m1) as [v m3|m3|m3|v m3|m3|e m3| |]; cbn [post rest] in P; try exact Logic.I.
  - destruct P as (rho' & b' & K' & L & [A1 A2 A3]). cbn [G module_ctx g_bc fr fr_start] in L, A3.
    destruct (nth_error (m_cells m3) l0) as [[v0|]|] eqn:EC; try exact Logic.I.
    assert (E0 : nth_error b' (base + 0) = Some v0).
    { eapply (i_val _ _ _ _ _ _ A1 _ l0 false); [apply put_same|exact EC]. }
    pose proof mod_base. pose proof mod_len. destruct A3 as (A3 & A4).
    assert (F : fits b' [] 1) by (unfold fits, enough in *; cbn [List.length]; lia).
    eapply mod_done with (V' := V); [| |auto].
    + eapply leads_trans; [exact L|]. eapply leads_trans; [eapply lead_pop; [exact C1|exact F]|].
      eapply leads_trans; [eapply lead_load_local; [exact C2| | |exact E0|exact F]; cbn [fr fr_start fr_end]; lia|].
      apply lead_end. apply fetch_end. lia.
    + split; [|exact A2|].
      * eapply Inv_forget; [exact A1|]. intros i. destruct (Nat.eq_dec i (base + 0)) as [->|N].
        -- right. split; [apply mod_none; lia|]. intros l fl. unfold V1. rewrite put_same. congruence.
        -- left. symmetry. unfold V1. now apply put_other.
      * split; [exact A3|]. intros i Li Vi. apply A4; [exact Li|]. unfold V1. rewrite put_other by lia. exact Vi.
  - apply mod_fail. exact P.
  - apply mod_crash. exact P.
Qed.
End Run.

Variable library : list string -> string -> outcome module.
Hypothesis LIB : same_library w lit library.
Lemma import_run_sim room name m rho V b K t : Inv rho V b m K -> List.length b + List.length t + room <= max_stack_size -> 1 <= room ->
  gresult w lit (fun r => load_module w r name (state m K b t)) rho V b t (import library I room name m).
Proof.
  intros HI HR H1. unfold import. destruct (assoc_get name (vm_modules (m_vm m))) as [v|] eqn:EM.
  - exists rho, b, K. split.
    + apply eventually_now. intros r. unfold load_module. change (vm_modules (state m K b t)) with (vm_modules (m_vm m)). rewrite EM.
      unfold state. apply push_ws. unfold fits. cbn [List.length]. lia.
    + split; [exact HI|apply ext_refl|apply keep_refl].
  - assert (X : forall r, load_module w r name (state m K b t) = match begin_import name (m_vm m) with
      | ROk o s => (let* bc := VM.lift (w_load w (vm_loads (m_vm m)) name) in let* v := run_module w r bc (VObject o) in push v) (state (set_vm s m) K b t)
      | RErr e s => RErr e (state (set_vm s m) K b t) | RPanic => RPanic | RNoFuel => RNoFuel end).
    { intros r. rewrite load_module_new by exact EM. unfold rbind at 1. rewrite on_state by apply blind_begin.
      destruct (begin_import name (m_vm m)); reflexivity. }
    unfold with_vm. destruct (begin_import name (m_vm m)) as [o s|e s| |] eqn:EB.
    2: { exists (vm_stack (state (set_vm s m) K b t)), K. apply eventually_now. intros r. rewrite X. reflexivity. }
    2: { apply eventually_now. exact X. }
    2: exact Logic.I.
    assert (HI1 : Inv rho V b (set_vm s m) K).
    { eapply same_inv; [|exact HI]. exists s. reflexivity. }
    specialize (LIB (vm_loads (m_vm m)) name). destruct (library (vm_loads (m_vm m)) name) as [md|e| |].
    + destruct LIB as (bc & EL & MC). rewrite (mc_slots _ _ _ MC). destruct (Nat.ltb_spec room (bc_slot_count bc + enough)) as [|RM]; [exact Logic.I|].
      cbn [alloc]. pose proof (run_module_sim room md bc (VObject o) rho V b (set_vm s m) K t MC HI1 HR RM) as P.
      cbv beta in P. rewrite EL in X.
      match type of P with gresult _ _ ?f _ _ _ _ ?a => set (a0 := a) in *; assert (Y : forall r, load_module w r name (state m K b t) = f r) by (intros r; rewrite X; reflexivity) end.
      change (gresult w lit (fun r => load_module w r name (state m K b t)) rho V b t a0). clearbody a0. clear X. unfold gresult in *. unfold eventually in *.
      destruct a0 as [v m3|m3|m3|v m3|m3|e m3| |]; auto.
      * destruct P as (r1 & b1 & K1 & (c & P) & P2). exists r1, b1, K1. split; [|exact P2]. exists c. intros. rewrite Y. now apply P.
      * destruct P as (st & K1 & (c & P)). exists st, K1, c. intros. rewrite Y. now apply P.
      * destruct P as (c & P). exists c. intros. rewrite Y. now apply P.
    + exists (vm_stack (state (set_vm s m) K b t)), K. apply eventually_now. intros r. rewrite X, LIB. reflexivity.
    + apply eventually_now. intros r. rewrite X, LIB. reflexivity.
    + exact Logic.I.
Qed.
End Module.
