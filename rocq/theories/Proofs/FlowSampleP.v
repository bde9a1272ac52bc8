(** Programs for the examples beside the theorems on the meaning of compiled code. *)
From Verif.Model Require Export Script.
From Verif.Spec Require Export FlowSpec.
From Verif.Proofs Require Export SampleP.
From Verif.Proofs Require Import StackP RunP CompileP.
#[local] Open Scope string_scope.
#[local] Open Scope list_scope.
#[local] Open Scope nat_scope.

(** A release build. *)
Definition release_world : world := MkWorld false (fun _ _ => Err IO_ERROR) (fun _ _ _ _ => AnsValue VUnit).
Lemma sample_blind : natives_blind sample_world. Proof. intros c m args h cs us. reflexivity. Qed.
Lemma release_blind : natives_blind release_world. Proof. intros c m args h cs us. reflexivity. Qed.

Definition parsed (t : string) : expr := match parse (chars t) with Ok e => e | _ => ELitUnit end.
Definition coded (t : string) : bytecode := match compile KScript (parsed t) with Ok b => b | _ => MkBytecode [] 0 0 [] end.
Definition is_ok {A} (o : outcome A) : bool := match o with Ok _ => true | _ => false end.
Lemma is_ok_eq {A} (o : outcome A) d : is_ok o = true -> o = Ok (match o with Ok e => e | _ => d end).
Proof. destruct o; cbn [is_ok]; [reflexivity|discriminate|discriminate|discriminate]. Qed.

Lemma max_stack_big : (1000 <= Z.of_nat max_stack_size)%Z.
Proof. with_strategy transparent [max_stack_size] (unfold max_stack_size; lia). Qed.
Lemma new_vm_open : vm_open new_vm = [].
Proof.
  assert (E : omap vm_open runtime_new = Ok []) by (vm_compute; reflexivity). rewrite new_vm_ok in E. cbn [omap] in E. exact (ok_inj _ _ E).
Qed.
Lemma new_vm_ready : ready [] new_vm.
Proof. split; [|exact new_vm_open]. rewrite new_vm_stack. reflexivity. Qed.

Definition solo (t : string) : program := alone sample_world (coded t).
Definition checks (t : string) (room : nat) : bool :=
  is_ok (parse (chars t)) && is_ok (compile KScript (parsed t)) && supported script_place (parsed t) && all_limited (coded t) &&
  (Z.of_nat (bc_slot_count (coded t) + room) <=? 1000)%Z.
Lemma checks_parse t room : checks t room = true -> parse (chars t) = Ok (parsed t).
Proof. unfold checks. rewrite !andb_true_iff. intros ((((A & _) & _) & _) & _). exact (is_ok_eq _ ELitUnit A). Qed.
Lemma checks_runnable t room w : checks t room = true -> natives_blind w -> runnable w (alone w (coded t)) (parsed t) (coded t) [] new_vm room.
Proof.
  unfold checks. rewrite !andb_true_iff. intros ((((_ & B) & C) & D) & E) N. apply Z.leb_le in E.
  split; [apply linked_alone; [exact (is_ok_eq _ _ B)|exact C|exact D]|exact N|exact new_vm_ready|]. pose proof max_stack_big. cbn [List.length]. lia.
Qed.

Definition value_meant (a : answer) : option value := match a with AVal v _ => Some v | _ => None end.
Definition error_meant (a : answer) : option errcode := match a with AFail e _ => Some e | _ => None end.
Definition cells_meant (a : answer) : list (option value) := match a with AVal _ m => m_cells m | _ => [] end.
Definition height_of {A} (r : res A) : option nat := match r with ROk _ s => Some (st_ptr (vm_stack s)) | _ => None end.
Definition error_of {A} (r : res A) : option errcode := match r with RErr e _ => Some e | _ => None end.
Definition panics {A} (r : res A) : bool := match r with RPanic => true | _ => false end.

(** Closures, recursion, early return, both kinds of for, while with break, objects, null chains. *)
Definition tour : string := "
let mut total = 0
let add = |n| {
  total += n
  total
}
fn factorial(n) {
  if n < 2 { return 1 }
  n * factorial(n - 1)
}
for i in 1..=4 { add(factorial(i)) }
for x in [10, 20] { total = total + x }
while true {
  total = total + 1
  if total > 69 && true { break }
}
let o = #{ inner: #{ none: null } }
let missing = o.inner.none?.field ?? 5
total + missing
".
Lemma tour_checks : checks tour 200 = true.
Proof. vm_compute. reflexivity. Qed.
Lemma tour_means : value_meant (meaning sample_world (solo tour) 60 200 (parsed tour) new_vm) = Some (VInt 75).
Proof. vm_compute. reflexivity. Qed.

(** Classes: constructors with an early return, inheritance, super calls, static methods, operators. *)
Definition shapes : string := "
class Shape {
  fn new(self, name) {
    self.name = name
  }
  fn area(self) { 0 }
  fn twice(self) { self.area() * 2 }
  fn unit() { Shape(3) }
  op +(self, other) -> Int { self.area() + other.area() }
}
class Square : Shape {
  fn new(self, side) {
    super(7)
    self.side = side
    if side < 0 {
      self.side = 0
      return
    }
    self.side = side + 1
  }
  fn area(self) { self.side * self.side + super.area() + self.name }
}
let s = Square(3)
let t = Square(-5)
let pick = |x| if x is Shape { x.twice() } else { 1 }
pick(s) + pick(t) + pick(Shape.unit()) * 1000 + (s + t)
".
Lemma shapes_checks : checks shapes 200 = true.
Proof. vm_compute. reflexivity. Qed.
Lemma shapes_means : value_meant (meaning sample_world (solo shapes) 60 200 (parsed shapes) new_vm) = Some (VInt 90).
Proof. vm_compute. reflexivity. Qed.

(** Array methods that call closures, nested in one another, and the text of values. *)
Definition host : string := "
let mut calls = 0
let count = |x| {
  calls += 1
  x
}
let tens = [1, 2, 3].map(|x| [x, x * 10].map(count))
let big = tens.filter(|p| p[1] > 10).map(|p| p[1])
let found = big.first(|x| x > 20)
String([found, big, calls, count, #{ a: null, b: true }.class_of().name()]) + Int(String(-calls)).to_string() + ""!""
".
Lemma host_checks : checks host 200 = true.
Proof. vm_compute. reflexivity. Qed.
Lemma host_means : value_meant (meaning sample_world (solo host) 60 200 (parsed host) new_vm) =
  Some (VString "[30, [20, 30], 6, closure{__anonymous_fn_0}, Any]-6!").
Proof. vm_compute. reflexivity. Qed.

(** ** Meeting the hypotheses on parts of a program, by running the interpreter *)
Definition memory_of (a : answer) : memory := match a with AVal _ m => m | _ => MeaningSpec.start new_vm end.
Lemma by_value a v : value_meant a = Some v -> a = AVal v (memory_of a).
Proof. destruct a; cbn [value_meant]; intros H; try discriminate H. injection H as ->. reflexivity. Qed.
Lemma by_eval w pg S k e m v fuel : value_meant (i_eval (interpreter w pg fuel) S k e m) = Some v ->
  evaluates w pg S k e m (AVal v (memory_of (i_eval (interpreter w pg fuel) S k e m))).
Proof. intros H. split; [discriminate|]. exists fuel. now apply by_value. Qed.
Lemma by_call w pg room f args m v fuel : value_meant (i_call (interpreter w pg fuel) room f args m) = Some v ->
  calls w pg room f args m (AVal v (memory_of (i_call (interpreter w pg fuel) room f args m))).
Proof. intros H. split; [discriminate|]. exists fuel. now apply by_value. Qed.
Definition read (f : string) (v : value) (m : memory) : memory := match get_field f v (m_vm m) with ROk _ s => set_vm s m | _ => m end.
Lemma by_field v f m x : value_of (get_field f v (m_vm m)) = Some x -> field_of v f m x (read f v m).
Proof. unfold field_of, read. destruct (get_field f v (m_vm m)) as [y s| | |]; cbn [value_of]; intros H; try discriminate H. injection H as ->. now exists s. Qed.
Definition run_pass (t : string) (S : scene) (k : nat) (x : string) (body : expr) (v : value) (m : memory) : answer :=
  i_eval (interpreter sample_world (solo t) 20) (declare x (List.length (m_cells m)) S) k body (set_cells (m_cells m ++ [Some v]) m).
Lemma by_pass t S k x body v m : (if value_meant (run_pass t S k x body v m) then true else false) = true ->
  pass sample_world (solo t) S k x body v m (memory_of (run_pass t S k x body v m)).
Proof.
  unfold run_pass, pass. generalize 20 as fuel. intros fuel. generalize (declare x (List.length (m_cells m)) S) (set_cells (m_cells m ++ [Some v]) m). intros S1 m1.
  destruct (value_meant _) as [r|] eqn:E; [|intros H; discriminate H]. intros _. exists r. split; [discriminate|]. exists fuel. exact (by_value _ _ E).
Qed.

(** for i in 2..5: three passes. *)
Definition squares : string := "for i in 2..5 { let square = i * i
 square + 1 }".
Definition squares_body : expr := match parsed squares with EBlock _ (Some (EFor _ _ b)) => b | _ => ELitUnit end.
Definition squares_pass (i : Z) (m : memory) : memory := memory_of (run_pass squares (top_scene 200 1) 0 "i" squares_body (VInt i) m).
Definition sq0 : memory := MeaningSpec.start new_vm.
Definition sq_last : memory := memory_of (i_eval (interpreter sample_world (solo squares) 5) (top_scene 200 0) 0 (ELitInt 5) sq0).
Definition sq_first : memory := memory_of (i_eval (interpreter sample_world (solo squares) 5) (top_scene 200 1) 0 (ELitInt 2) sq_last).
Definition sq2 : memory := squares_pass 2 sq_first.
Definition sq3 : memory := squares_pass 3 sq2.
Definition sq4 : memory := squares_pass 4 sq3.
Lemma squares_checks : checks squares 200 = true.
Proof. vm_compute. reflexivity. Qed.
Lemma squares_text : parsed squares = script_of (EFor "i" (EBinary (range_op false) (ELitInt 2) (ELitInt 5)) squares_body).
Proof. vm_compute. reflexivity. Qed.
Lemma squares_last : evaluates sample_world (solo squares) (top_scene 200 0) 0 (ELitInt 5) sq0 (AVal (VInt 5) sq_last).
Proof. apply by_eval. vm_compute. reflexivity. Qed.
Lemma squares_first : evaluates sample_world (solo squares) (top_scene 200 1) 0 (ELitInt 2) sq_last (AVal (VInt 2) sq_first).
Proof. apply by_eval. vm_compute. reflexivity. Qed.
Lemma squares_counting :
  counting (fun i m m' => pass sample_world (solo squares) (top_scene 200 1) 0 "i" squares_body (VInt i) m m' /\ kept (VInt i) m m') 2 3 sq_first sq4.
Proof.
  apply (cn_next _ _ _ _ sq2); [split; [apply by_pass|unfold kept]; vm_compute; reflexivity|]. change (2 + 1)%Z with 3%Z.
  apply (cn_next _ _ _ _ sq3); [split; [apply by_pass|unfold kept]; vm_compute; reflexivity|]. change (3 + 1)%Z with 4%Z.
  apply (cn_next _ _ _ _ sq4); [split; [apply by_pass|unfold kept]; vm_compute; reflexivity|]. constructor.
Qed.

(** for x in [10, 20]: an array's own iterator. *)
Definition each : string := "for x in [10, 20] { x + 1 }".
Definition each_body : expr := match parsed each with EBlock _ (Some (EFor _ _ b)) => b | _ => ELitUnit end.
Definition each_list : expr := ELitList [ELitInt 10; ELitInt 20].
Definition ea0 : memory := MeaningSpec.start new_vm.
Definition ea1 : memory := memory_of (i_eval (interpreter sample_world (solo each) 5) (top_scene 200 0) 0 each_list ea0).
Definition each_iter : value := VFnBound (VArray 0) (VFnNative NArrayIter).
Definition each_next : value := VFnNative (NArrayNext 0).
Definition ea2 : memory := read "iter" (VArray 0) ea1.
Definition ea3 : memory := memory_of (i_call (interpreter sample_world (solo each) 5) 200 each_iter [] ea2).
Definition ea4 : memory := read "next" (VObject 11) ea3.
Definition each_step (m : memory) : answer := i_call (interpreter sample_world (solo each) 5) 199 each_next [] m.
Definition each_pass (o : value) (v : value) (m : memory) : memory :=
  memory_of (run_pass each (top_scene 200 1) 0 "x" each_body v (read "value" o (read "is_done" o (memory_of (each_step m))))).
Definition ea5 : memory := each_pass (VObject 12) (VInt 10) ea4.
Definition ea6 : memory := each_pass (VObject 13) (VInt 20) ea5.
Definition ea7 : memory := read "is_done" (VObject 14) (memory_of (each_step ea6)).
Lemma each_checks : checks each 200 = true.
Proof. vm_compute. reflexivity. Qed.
Lemma each_text : parsed each = script_of (EFor "x" each_list each_body).
Proof. vm_compute. reflexivity. Qed.
Lemma each_eval : evaluates sample_world (solo each) (top_scene 200 0) 0 each_list ea0 (AVal (VArray 0) ea1).
Proof. apply by_eval. vm_compute. reflexivity. Qed.
Lemma each_iter_field : field_of (VArray 0) "iter" ea1 each_iter ea2.
Proof. apply by_field. vm_compute. reflexivity. Qed.
Lemma each_call : calls sample_world (solo each) 200 each_iter [] ea2 (AVal (VObject 11) ea3).
Proof. apply by_call. vm_compute. reflexivity. Qed.
Lemma each_next_field : field_of (VObject 11) "next" ea3 each_next ea4.
Proof. apply by_field. vm_compute. reflexivity. Qed.
Lemma each_draining :
  draining (fun m r m' => calls sample_world (solo each) 199 each_next [] m (AVal r m')) (pass sample_world (solo each) (top_scene 200 1) 0 "x" each_body)
    [VInt 10; VInt 20] ea4 ea7.
Proof.
  apply (dr_next _ _ ea4 (VObject 12) (memory_of (each_step ea4)) (read "is_done" (VObject 12) (memory_of (each_step ea4))) (VInt 10)
    (read "value" (VObject 12) (read "is_done" (VObject 12) (memory_of (each_step ea4)))) ea5).
  - apply by_call. vm_compute. reflexivity.
  - apply by_field. vm_compute. reflexivity.
  - apply by_field. vm_compute. reflexivity.
  - apply by_pass. vm_compute. reflexivity.
  - apply (dr_next _ _ ea5 (VObject 13) (memory_of (each_step ea5)) (read "is_done" (VObject 13) (memory_of (each_step ea5))) (VInt 20)
      (read "value" (VObject 13) (read "is_done" (VObject 13) (memory_of (each_step ea5)))) ea6).
    + apply by_call. vm_compute. reflexivity.
    + apply by_field. vm_compute. reflexivity.
    + apply by_field. vm_compute. reflexivity.
    + apply by_pass. vm_compute. reflexivity.
    + apply (dr_done _ _ ea6 (VObject 14) (memory_of (each_step ea6)) ea7).
      * apply by_call. vm_compute. reflexivity.
      * apply by_field. vm_compute. reflexivity.
Qed.

(** ** Programs that go wrong *)
(** A return while an operand is on the stack. *)
Definition return_in_operand : string := "
let f = || { 1 + if true { return 2 } else { 3 } }
f()".
Definition return_in_operand_used : string := "
let f = || { 1 + if true { return 2 } else { 3 } }
10 + f()".
Definition return_in_for : string := "
let f = || { for i in 0..3 { return i } }
f()".
Definition break_in_for : string := "for x in [1, 2, 3] { break }".
Definition null_in_operand : string := "
let b = null
(1 + b?.c)?.d".
Definition run_of (w : world) (t : string) : res value := dice_run_script w 200 (chars t) new_vm.

(** ** Short circuits *)
Definition and_sample : string := "1 < 0 && nope".
Definition or_sample : string := "0 < 1 || nope".
Definition left_of (t : string) : expr := match parsed t with EBlock _ (Some (EBinary _ l _)) => l | _ => ELitUnit end.
Definition coalesce_sample : string := "#{ a: null }.a?.b ?? 7".
Lemma and_checks : checks and_sample 200 = true. Proof. vm_compute. reflexivity. Qed.
Lemma coalesce_checks : checks coalesce_sample 200 = true. Proof. vm_compute. reflexivity. Qed.
Lemma and_sample_ok : runnable sample_world (solo and_sample) (parsed and_sample) (coded and_sample) [] new_vm 200 /\
  parsed and_sample = script_of (EBinary BLogicalAnd (left_of and_sample) (ELitIdent "nope")) /\
  exists m, evaluates sample_world (solo and_sample) (top_scene 200 0) 0 (left_of and_sample) (MeaningSpec.start new_vm) (AVal (VBool false) m) /\
    logical false (AVal (VBool false) m) (fun m x => evaluates sample_world (solo and_sample) (top_scene 200 0) 0 (ELitIdent "nope") m x) (AVal (VBool false) m).
Proof.
  split; [exact (checks_runnable _ _ _ and_checks sample_blind)|]. split; [vm_compute; reflexivity|]. eexists. split.
  - apply (by_eval _ _ _ _ _ _ _ 10). vm_compute. reflexivity.
  - eapply lg_decided. reflexivity.
Qed.
Lemma coalesce_sample_ok : runnable sample_world (solo coalesce_sample) (parsed coalesce_sample) (coded coalesce_sample) [] new_vm 200 /\
  parsed coalesce_sample = script_of (EBinary BCoalesce (left_of coalesce_sample) (ELitInt 7)) /\
  exists m m', evaluates sample_world (solo coalesce_sample) (top_scene 200 0) 0 (left_of coalesce_sample) (MeaningSpec.start new_vm) (AVal VNull m) /\
    coalesced (AVal VNull m) (fun m x => evaluates sample_world (solo coalesce_sample) (top_scene 200 0) 0 (ELitInt 7) m x) (AVal (VInt 7) m').
Proof.
  split; [exact (checks_runnable _ _ _ coalesce_checks sample_blind)|]. split; [vm_compute; reflexivity|]. eexists. eexists. split.
  - apply (by_eval _ _ _ _ _ _ _ 10). vm_compute. reflexivity.
  - eapply co_right; [reflexivity|]. apply (by_eval _ _ _ _ _ _ _ 10). vm_compute. reflexivity.
Qed.
Lemma squares_ok :
  runnable sample_world (solo squares) (script_of (EFor "i" (EBinary (range_op false) (ELitInt 2) (ELitInt 5)) squares_body)) (coded squares) [] new_vm 200 /\
  evaluates sample_world (solo squares) (top_scene 200 0) 0 (ELitInt 5) (MeaningSpec.start new_vm) (AVal (VInt 5) sq_last) /\
  evaluates sample_world (solo squares) (top_scene 200 1) 0 (ELitInt 2) sq_last (AVal (VInt 2) sq_first) /\
  counting (fun i m m' => pass sample_world (solo squares) (top_scene 200 1) 0 "i" squares_body (VInt i) m m' /\ kept (VInt i) m m') 2 (count false 2 5) sq_first sq4.
Proof.
  rewrite <- squares_text. split; [exact (checks_runnable _ _ _ squares_checks sample_blind)|]. split; [exact squares_last|]. split; [exact squares_first|exact squares_counting].
Qed.
Lemma each_ok :
  runnable sample_world (solo each) (script_of (EFor "x" each_list each_body)) (coded each) [] new_vm 200 /\
  evaluates sample_world (solo each) (top_scene 200 0) 0 each_list (MeaningSpec.start new_vm) (AVal (VArray 0) ea1) /\
  field_of (VArray 0) "iter" ea1 each_iter ea2 /\ calls sample_world (solo each) 200 each_iter [] ea2 (AVal (VObject 11) ea3) /\
  field_of (VObject 11) "next" ea3 each_next ea4 /\
  draining (fun m r m' => calls sample_world (solo each) 199 each_next [] m (AVal r m')) (pass sample_world (solo each) (top_scene 200 1) 0 "x" each_body) [VInt 10; VInt 20] ea4 ea7.
Proof.
  rewrite <- each_text. split; [exact (checks_runnable _ _ _ each_checks sample_blind)|]. split; [exact each_eval|]. split; [exact each_iter_field|].
  split; [exact each_call|]. split; [exact each_next_field|exact each_draining].
Qed.
