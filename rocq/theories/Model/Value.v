(** Runtime values and the heap: dice-runtime/src/value.rs, value/*.rs, upvalue.rs, type_id.rs.
    Gc pointers are addresses (indices) into append-only tables; the garbage collector, which frees
    only unreachable cells, is not modelled.  HashMaps are association lists.  RefLock borrow flags are
    modelled only for the element vector of arrays, the only ones held across calls. *)
From Verif.Model Require Export Float.

(** Native functions, dice-runtime/src/classes/*.rs (one constructor per registered function whose
    behaviour is modelled; [NExternal] stands for the others, identified by class and method name: the
    transcendental functions of the float library). *)
Inductive float_fn : Type :=
| FAbs | FSqrt | FFloor | FCeil | FRound | FMin | FMax | FIsFinite | FIsInfinite | FIsNan | FIsNormal.
Inductive native : Type :=
| NArrayNew | NArrayPush | NArrayPop | NArrayLength | NArrayFirst | NArrayFilter | NArrayMap
| NArrayIter
| NArrayNext (cell : nat)          (* the closure built by iter, classes/array.rs:132-144 *)
| NClassOf                         (* classes/any.rs:63-68 *)
| NToString | NFields | NMethods   (* classes/any.rs:27-61 *)
| NStringNew | NFloatNew | NFloatFn (f : float_fn)
| NBoolNew | NClassName | NClassBase | NFunctionNew
| NIntNew | NIntAbs | NIntPow | NIntIsPositive | NIntIsNegative | NIntMin | NIntMax
| NStringConcat
| NExternal (class_name method_name : string).

(** Value, value.rs:39-54.  FnBound (fn_bound.rs:7-10) is immutable and never compared by address, so
    it is represented by its contents. *)
Inductive value : Type :=
| VNull
| VUnit
| VBool (b : bool)
| VInt (z : Z)
| VFloat (f : f64)
| VFnScript (f : fn_bytecode)
| VFnClosure (addr : nat)
| VFnNative (n : native)
| VFnBound (receiver function : value)
| VArray (addr : nat)
| VString (s : string)
| VSymbol (s : string)
| VObject (addr : nat)
| VClass (addr : nat).

(** ValueKind, value.rs:205-218, and kind(), value.rs:132-149. *)
Inductive vkind : Type :=
| KdNull | KdUnit | KdBool | KdInt | KdFloat | KdFunction | KdArray | KdString | KdSymbol | KdObject | KdClass.

Definition kind (v : value) : vkind :=
  match v with
  | VNull => KdNull
  | VUnit => KdUnit
  | VBool _ => KdBool
  | VInt _ => KdInt
  | VFloat _ => KdFloat
  | VFnClosure _ | VFnScript _ | VFnNative _ | VFnBound _ _ => KdFunction
  | VArray _ => KdArray
  | VString _ => KdString
  | VSymbol _ => KdSymbol
  | VObject _ => KdObject
  | VClass _ => KdClass
  end.

Definition vkind_eqb (a b : vkind) : bool :=
  match a, b with
  | KdNull, KdNull | KdUnit, KdUnit | KdBool, KdBool | KdInt, KdInt | KdFloat, KdFloat
  | KdFunction, KdFunction | KdArray, KdArray | KdString, KdString | KdSymbol, KdSymbol
  | KdObject, KdObject | KdClass, KdClass => true
  | _, _ => false
  end.

(** ValueMap, value.rs:35. *)
Definition value_map := list (string * value).

(** ObjectInner, object.rs:112-115: the class and the (shared) field table. *)
Record object_inner := MkObject { ob_class : option nat; ob_fields : nat }.

(** ArrayInner, array.rs:72-77.  [ar_borrows] counts the live shared borrows of the element vector
    (elements(), array.rs:20-22); a mutable borrow while it is positive panics. *)
Record array_inner := MkArray { ar_elements : list value; ar_object : nat; ar_borrows : nat }.

(** ClassInner, class.rs:119-130.  The method table is owned by one class, so it is stored inline.
    instance_type_id, a fresh uuid (type_id.rs:9-12), is the class's own address. *)
Record class_inner := MkClass {
  cl_name : string;
  cl_methods : value_map;
  cl_object : nat;
  cl_type_id : nat;
  cl_type_ids : list nat;
  cl_base : option nat }.

(** FnClosureInner, fn_closure.rs:47-52. *)
Record closure_inner := MkClosure { fc_script : fn_bytecode; fc_upvalues : list nat }.

(** UpvalueState, upvalue.rs:9-12. *)
Inductive upvalue_state : Type := Open (slot : nat) | Closed (v : value).

Record heap := MkHeap {
  h_fields : list value_map;
  h_objects : list object_inner;
  h_arrays : list array_inner;
  h_classes : list class_inner;
  h_closures : list closure_inner;
  h_upvalues : list upvalue_state;
  h_iters : list (nat * nat) }.     (* captured state of the array iterators: array, current *)

Definition heap_empty : heap := MkHeap [] [] [] [] [] [] [].

(** Field updates of the heap record. *)
Definition hset_fields x h := MkHeap x (h_objects h) (h_arrays h) (h_classes h) (h_closures h) (h_upvalues h) (h_iters h).
Definition hset_objects x h := MkHeap (h_fields h) x (h_arrays h) (h_classes h) (h_closures h) (h_upvalues h) (h_iters h).
Definition hset_arrays x h := MkHeap (h_fields h) (h_objects h) x (h_classes h) (h_closures h) (h_upvalues h) (h_iters h).
Definition hset_classes x h := MkHeap (h_fields h) (h_objects h) (h_arrays h) x (h_closures h) (h_upvalues h) (h_iters h).
Definition hset_closures x h := MkHeap (h_fields h) (h_objects h) (h_arrays h) (h_classes h) x (h_upvalues h) (h_iters h).
Definition hset_upvalues x h := MkHeap (h_fields h) (h_objects h) (h_arrays h) (h_classes h) (h_closures h) x (h_iters h).
Definition hset_iters x h := MkHeap (h_fields h) (h_objects h) (h_arrays h) (h_classes h) (h_closures h) (h_upvalues h) x.

(** Object::new, object.rs:18-31. *)
Definition object_new (class : option nat) (h : heap) : nat * heap :=
  let fields := List.length (h_fields h) in
  let h1 := hset_fields (h_fields h ++ [[]]) h in
  (List.length (h_objects h1), hset_objects (h_objects h1 ++ [MkObject class fields]) h1).

(** Object::deep_clone, object.rs:33-43: a new object that shares the field table. *)
Definition object_deep_clone (o : nat) (h : heap) : outcome (nat * heap) :=
  match nth_error (h_objects h) o with
  | Some ob => Ok (List.length (h_objects h),
                   hset_objects (h_objects h ++ [MkObject (ob_class ob) (ob_fields ob)]) h)
  | None => Panic
  end.

(** Object::class, object.rs:63-65. *)
Definition object_class (o : nat) (h : heap) : outcome (option nat) :=
  match nth_error (h_objects h) o with Some ob => Ok (ob_class ob) | None => Panic end.

(** Object::field, object.rs:74-76 (and fields().get). *)
Definition object_field (o : nat) (name : string) (h : heap) : outcome (option value) :=
  match nth_error (h_objects h) o with
  | Some ob =>
      match nth_error (h_fields h) (ob_fields ob) with
      | Some m => Ok (assoc_get name m)
      | None => Panic
      end
  | None => Panic
  end.

(** Object::set_field, object.rs:67-72. *)
Definition object_set_field (o : nat) (name : string) (v : value) (h : heap) : outcome heap :=
  match nth_error (h_objects h) o with
  | Some ob =>
      match nth_error (h_fields h) (ob_fields ob) with
      | Some m => Ok (hset_fields (set_nth (h_fields h) (ob_fields ob) (assoc_set name v m)) h)
      | None => Panic
      end
  | None => Panic
  end.

(** Array::from_vec, array.rs:36-46. *)
Definition array_from_vec (vs : list value) (h : heap) : nat * heap :=
  let (o, h1) := object_new None h in
  (List.length (h_arrays h1), hset_arrays (h_arrays h1 ++ [MkArray vs o 0]) h1).

(** Array::elements, array.rs:20-22. *)
Definition array_elements (a : nat) (h : heap) : outcome (list value) :=
  match nth_error (h_arrays h) a with Some ar => Ok (ar_elements ar) | None => Panic end.

(** A mutable borrow of the elements followed by an update: array.rs:24-34; it panics while a shared
    borrow is alive. *)
Definition array_update (a : nat) (vs : list value) (h : heap) : outcome heap :=
  match nth_error (h_arrays h) a with
  | Some ar =>
      if Nat.eqb (ar_borrows ar) 0 then
        Ok (hset_arrays (set_nth (h_arrays h) a (MkArray vs (ar_object ar) 0)) h)
      else Panic
  | None => Panic
  end.

(** Taking and dropping a shared borrow of the elements. *)
Definition array_set_borrows (f : nat -> nat) (a : nat) (h : heap) : outcome heap :=
  match nth_error (h_arrays h) a with
  | Some ar =>
      Ok (hset_arrays (set_nth (h_arrays h) a (MkArray (ar_elements ar) (ar_object ar) (f (ar_borrows ar)))) h)
  | None => Panic
  end.

(** Array::push, array.rs:28-30. *)
Definition array_push (a : nat) (v : value) (h : heap) : outcome heap :=
  obind (array_elements a h) (fun vs => array_update a (vs ++ [v]) h).

(** Array::pop, array.rs:32-34: Vec::pop. *)
Definition array_pop (a : nat) (h : heap) : outcome (option value * heap) :=
  obind (array_elements a h) (fun vs =>
  omap (fun h' => (nth_error vs (List.length vs - 1), h'))
    (array_update a (firstn (List.length vs - 1) vs) h)).

(** Class::new, class.rs:25-42. *)
Definition class_new (name : string) (h : heap) : nat * heap :=
  let (o, h1) := object_new None h in
  let c := List.length (h_classes h1) in
  (c, hset_classes (h_classes h1 ++ [MkClass name [] o c [c] None]) h1).

(** Class::with_base, class.rs:44-69, and derive, class.rs:71-73. *)
Definition class_with_base (name : string) (base : nat) (h : heap) : outcome (nat * heap) :=
  match nth_error (h_classes h) base with
  | Some b =>
      let methods := filter (fun kv => negb (String.eqb (fst kv) "new")) (cl_methods b) in
      obind (object_deep_clone (cl_object b) h) (fun '(o, h1) =>
      let c := List.length (h_classes h1) in
      Ok (c, hset_classes (h_classes h1 ++ [MkClass name methods o c (c :: cl_type_ids b) (Some base)]) h1))
  | None => Panic
  end.

Definition class_get (c : nat) (h : heap) : outcome class_inner :=
  match nth_error (h_classes h) c with Some k => Ok k | None => Panic end.

(** Class::is_class, class.rs:75-79. *)
Definition class_is_class (c class : nat) (h : heap) : outcome bool :=
  obind (class_get c h) (fun k =>
  obind (class_get class h) (fun k' => Ok (existsb (Nat.eqb (cl_type_id k')) (cl_type_ids k)))).

(** Class::method, class.rs:89-92. *)
Definition class_method (c : nat) (name : string) (h : heap) : outcome (option value) :=
  omap (fun k => assoc_get name (cl_methods k)) (class_get c h).

(** Class::set_method, class.rs:94-102: panics unless the value is a function. *)
Definition class_set_method (c : nat) (name : string) (m : value) (h : heap) : outcome heap :=
  if vkind_eqb (kind m) KdFunction then
    omap (fun k =>
      hset_classes (set_nth (h_classes h) c
        (MkClass (cl_name k) (assoc_set name m (cl_methods k)) (cl_object k) (cl_type_id k)
           (cl_type_ids k) (cl_base k))) h) (class_get c h)
  else Panic.

(** PartialEq for Class: class.rs:18 (derived: Gc compares contents) and class.rs:141-145. *)
Definition class_eqb (a b : nat) (h : heap) : outcome bool :=
  obind (class_get a h) (fun x =>
  obind (class_get b h) (fun y =>
  Ok (String.eqb (cl_name x) (cl_name y) && Nat.eqb (cl_type_id x) (cl_type_id y)))).

(** FnClosure::new, fn_closure.rs:12-16. *)
Definition closure_new (f : fn_bytecode) (ups : list nat) (h : heap) : nat * heap :=
  (List.length (h_closures h), hset_closures (h_closures h ++ [MkClosure f ups]) h).

(** Upvalue::new_open, upvalue.rs:19-21. *)
Definition upvalue_new_open (slot : nat) (h : heap) : nat * heap :=
  (List.length (h_upvalues h), hset_upvalues (h_upvalues h ++ [Open slot]) h).

(** state / state_mut, upvalue.rs:27-33. *)
Definition upvalue_state_of (u : nat) (h : heap) : outcome upvalue_state :=
  match nth_error (h_upvalues h) u with Some x => Ok x | None => Panic end.
Definition upvalue_write (u : nat) (x : upvalue_state) (h : heap) : outcome heap :=
  if u <? List.length (h_upvalues h) then Ok (hset_upvalues (set_nth (h_upvalues h) u x) h) else Panic.

(** as_bool .. as_class, value.rs:73-130. *)
Definition as_bool (v : value) : outcome bool :=
  match v with VBool b => Ok b | _ => Err INVALID_BOOL_CONVERSION end.
Definition as_int (v : value) : outcome Z :=
  match v with VInt z => Ok z | _ => Err INVALID_INT_CONVERSION end.
Definition as_symbol (v : value) : outcome string :=
  match v with VSymbol s => Ok s | _ => Err INVALID_SYMBOL_CONVERSION end.
Definition as_class (v : value) : outcome nat :=
  match v with VClass c => Ok c | _ => Err INVALID_CLASS_CONVERSION end.
(** as_object: an object itself, or the object embedded in a class or an array (Deref, class.rs:132-138,
    array.rs:64-70). *)
Definition as_object (v : value) (h : heap) : outcome nat :=
  match v with
  | VObject o => Ok o
  | VClass c => match nth_error (h_classes h) c with Some k => Ok (cl_object k) | None => Panic end
  | VArray a => match nth_error (h_arrays h) a with Some ar => Ok (ar_object ar) | None => Panic end
  | _ => Err INVALID_OBJECT_CONVERSION
  end.

(** Constants become values when pushed. *)
Definition value_of_const (c : const) : value :=
  match c with
  | CInt z => VInt z
  | CFloat f => VFloat f
  | CString s => VString s
  | CSymbol s => VSymbol s
  | CFunction f => VFnScript f
  end.

(** PartialEq for Value, value.rs:158-177.  Objects compare by address (object.rs:83-90), classes by name
    and type id, closures by function id and address of the upvalue slice (fn_closure.rs:33-38: two
    closures have the same slice when they are the same closure; zero-length slices all have the same
    dangling address), arrays by derived equality: element vectors equal and the embedded object the same
    (array.rs:13, 72).  Comparing cyclic arrays does not terminate in the code; [fuel] bounds the nesting. *)
Definition closure_eqb (a b : nat) (h : heap) : outcome bool :=
  match nth_error (h_closures h) a, nth_error (h_closures h) b with
  | Some x, Some y =>
      Ok (Nat.eqb (fn_id (fc_script x)) (fn_id (fc_script y)) &&
          (Nat.eqb a b || (Nat.eqb (List.length (fc_upvalues x)) 0 && Nat.eqb (List.length (fc_upvalues y)) 0)))
  | _, _ => Panic
  end.

(** Slice equality: lengths first, then elements from the left, stopping at the first difference. *)
Fixpoint list_eqb_with (eq : value -> value -> outcome bool) (l l' : list value) : outcome bool :=
  match l, l' with
  | [], [] => Ok true
  | x :: t, y :: t' => obind (eq x y) (fun b => if b then list_eqb_with eq t t' else Ok false)
  | _, _ => Ok false
  end.

Fixpoint value_eqb (fuel : nat) (h : heap) (a b : value) : outcome bool :=
  match fuel with
  | O => NoFuel
  | S fuel' =>
      match a, b with
      | VNull, VNull => Ok true
      | VUnit, VUnit => Ok true
      | VBool x, VBool y => Ok (Bool.eqb x y)
      | VInt x, VInt y => Ok (Z.eqb x y)
      | VFloat x, VFloat y => Ok (f64_eqb x y)
      | VFnClosure x, VFnClosure y => closure_eqb x y h
      | VFnScript f, VFnScript g => Ok (Nat.eqb (fn_id f) (fn_id g))
      | VArray x, VArray y =>
          match nth_error (h_arrays h) x, nth_error (h_arrays h) y with
          | Some p, Some q =>
              obind (if Nat.eqb (List.length (ar_elements p)) (List.length (ar_elements q))
                     then list_eqb_with (value_eqb fuel' h) (ar_elements p) (ar_elements q)
                     else Ok false)
                (fun e => Ok (e && Nat.eqb (ar_object p) (ar_object q)))
          | _, _ => Panic
          end
      | VString x, VString y => Ok (String.eqb x y)
      | VSymbol x, VSymbol y => Ok (String.eqb x y)
      | VObject x, VObject y => Ok (Nat.eqb x y)
      | VClass x, VClass y => class_eqb x y h
      | _, _ => Ok false
      end
  end.
