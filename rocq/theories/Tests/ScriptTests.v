(** The scripts that the repository itself tests (dice/tests/scripts.rs, the enabled tests), run in the
    model from source text to result.  These are tests of the model, not properties. *)
From Verif.Model Require Import Script Prelude.
From Verif.Proofs Require Import SampleP.

Definition result_of (t : string) : option value := value_of (dice_run_script sample_world 200 (chars t) new_vm).

Example test_lazy_and_both_true : result_of "true && true"%string = Some (VBool true).
Proof. vm_compute. reflexivity. Qed.
Example test_lazy_and_lhs_true : result_of "true && false"%string = Some (VBool false).
Proof. vm_compute. reflexivity. Qed.
Example test_lazy_and_rhs_true : result_of "false && true"%string = Some (VBool false).
Proof. vm_compute. reflexivity. Qed.
Example test_lazy_and_both_false : result_of "false && false"%string = Some (VBool false).
Proof. vm_compute. reflexivity. Qed.
Example test_lazy_or_both_true : result_of "true || true"%string = Some (VBool true).
Proof. vm_compute. reflexivity. Qed.
Example test_lazy_or_lhs_true : result_of "true || false"%string = Some (VBool true).
Proof. vm_compute. reflexivity. Qed.
Example test_lazy_or_rhs_true : result_of "false || true"%string = Some (VBool true).
Proof. vm_compute. reflexivity. Qed.
Example test_lazy_or_both_false : result_of "false || false"%string = Some (VBool false).
Proof. vm_compute. reflexivity. Qed.
Example test_multiplication : result_of "5 * 5 * 5"%string = Some (VInt (125)).
Proof. vm_compute. reflexivity. Qed.
Example test_multiplication_parens_lhs : result_of "(5 * 5) * 5"%string = Some (VInt (125)).
Proof. vm_compute. reflexivity. Qed.
Example test_multiplication_parens_rhs : result_of "5 * (5 * 5)"%string = Some (VInt (125)).
Proof. vm_compute. reflexivity. Qed.
Example test_addition : result_of "5 + 5 + 5"%string = Some (VInt (15)).
Proof. vm_compute. reflexivity. Qed.
Example test_precedence : result_of "5 + 5 * 5"%string = Some (VInt (30)).
Proof. vm_compute. reflexivity. Qed.
Example test_subtraction : result_of "5-2"%string = Some (VInt (3)).
Proof. vm_compute. reflexivity. Qed.
Example test_add_negative : result_of "5+-2"%string = Some (VInt (3)).
Proof. vm_compute. reflexivity. Qed.
Example test_negate : result_of "- -5"%string = Some (VInt (5)).
Proof. vm_compute. reflexivity. Qed.
Example test_not : result_of "!true"%string = Some (VBool false).
Proof. vm_compute. reflexivity. Qed.
Example test_equality : result_of "2 + 3 == 5"%string = Some (VBool true).
Proof. vm_compute. reflexivity. Qed.
Example test_while_loop : result_of "
        let mut x = 0
        while x < 10 {
            x = x + 1
        }
        x
    "%string = Some (VInt (10)).
Proof. vm_compute. reflexivity. Qed.

(** data/scripts/prelude.dm, loaded as the prelude, and programs that use it. *)
Definition prelude_world : world :=
  MkWorld true (fun _ name => if String.eqb name "prelude" then compile_source KModule (chars prelude) else Err IO_ERROR)
    (fun _ _ _ _ => AnsValue VUnit).
Definition after_prelude (ts : list string) : list (option value) :=
  match load_prelude prelude_world 200 "prelude" new_vm with
  | ROk _ s => map (fun t => value_of (dice_run_script prelude_world 400 (chars t) s)) ts
  | _ => []
  end.
(** Name, program, expected result. *)
Definition programs : list (string * string * value) :=
  [("closures", "
fn counter() { let mut n = 0
  let f = || { n += 1
       n }
  f }
let c = counter()
c()
c()
c() + counter()()", VInt 4);
   ("fib", "
fn fib(n) { if n < 2 { n } else { fib(n - 1) + fib(n - 2) } }
fib(10)", VInt 55);
   ("range_loop", "
let mut s = 0
for i in 0..10 { s += i }
for i in 1..=10 { s += i }
s", VInt 100);
   ("range_object", "
let r = 3..6
let mut s = 0
for i in r { s = s * 10 + i }
s", VInt 345);
   ("array_loop_not_iterable", "
let mut s = 0
let r = Range(1, 4)
for i in r { for j in r { s += i * j } }
s", VInt 36);
   ("classes", "
class Shape { fn new(self, n) { self.n = n }
  fn area(self) { 0 }
  fn describe(self) { self.area() + self.n } }
class Square : Shape { fn new(self, side) { super(1000)
    self.side = side }
  fn area(self) { self.side * self.side } }
Square(7).describe()", VInt 1049);
   ("operators_overload", "
class V { fn new(self, x) { self.x = x }
  op +(self, o) { V(self.x + o.x) } }
(V(3) + V(4)).x", VInt 7);
   ("result_or", "
fn half(n) { if n % 2 == 0 { Ok(n / 2) } else { Err(n) } }
let a = half(10) or e { 0 - e }
let b = half(7) or e { 0 - e }
a * 100 + b", VInt 493);
   ("propagate", "
fn half(n) { if n % 2 == 0 { Ok(n / 2) } else { Err(n) } }
fn quarter(n) { let h = half(n)!!
  half(h) }
quarter(12).result * 1000 + quarter(6).result * 10 + quarter(5).result", VInt 3035);
   ("null_chain", "
let o = #{ a: null, b: #{ c: 5 } }
if o.a?.x.y is Any? { (o.a?.x.y ?? 1) + (o.b?.c ?? 100) } else { 0 }", VInt 6);
   ("pipeline", "
fn inc(x) { x + 1 }
3 |> inc |> |x| x * 2", VInt 8);
   ("while_break", "
let mut i = 0
loop { i += 1
  if i == 7 { break } }
let mut j = 0
while true { j += 1
  if j > 3 { break } }
i * 10 + j", VInt 74);
   ("destructure", "
let { a, b } = #{ a: 4, b: 2 }
a * 10 + b", VInt 42);
   ("static_method", "
class A { fn make(x) { x + 1 } }
A.make(4)", VInt 5);
   ("backslash", "roll \2d6\ is String", VBool true);
   ("float", "0.1 + 0.2 == 0.30000000000000004", VBool true);
   ("float2", "1.5 * 2.0 == 3.0", VBool true);
   ("list", "let xs = [1, 2, 3]
xs[1] = 20
xs[0] + xs[1] + xs[2]", VInt 24)]%string.
Example prelude_programs : after_prelude (map (fun p => snd (fst p)) programs) = map (fun p => Some (snd p)) programs.
Proof. vm_compute. reflexivity. Qed.
