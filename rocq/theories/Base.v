(** Numeric and Python/numpy primitives shared by every model file. *)
From Coq Require Export List ZArith QArith Qround Qabs Lia Bool Arith.
Export ListNotations.
Open Scope Z_scope.

(** Exceptions as values: the Python exception classes the modelled code raises. *)
Inductive exn :=
| ETypeError | EValueError | EIndexError | EKeyError | EAssertionError
| EZeroDivision | ERuntimeError | EAttributeError | EOverflow | ENameError
| ENotImplemented.

Inductive res (A : Type) := Ok (a : A) | Err (e : exn).
Arguments Ok {A} a.
Arguments Err {A} e.

Definition rbind {A B} (m : res A) (f : A -> res B) : res B :=
  match m with Ok a => f a | Err e => Err e end.
Definition rmap {A B} (f : A -> B) (m : res A) : res B :=
  match m with Ok a => Ok (f a) | Err e => Err e end.
Notation "'do' x <- m ; f" := (rbind m (fun x => f))
  (at level 200, x name, m at level 100, f at level 200, right associativity).

(** Apply a possibly failing function left to right, stopping at the first error
    (a Python list comprehension). *)
Fixpoint mapM {A B} (f : A -> res B) (l : list A) : res (list B) :=
  match l with
  | [] => Ok []
  | x :: r => do y <- f x; do ys <- mapM f r; Ok (y :: ys)
  end.

(** numpy/Python clip *)
Definition clipZ (lo hi x : Z) : Z := Z.min (Z.max x lo) hi.

(** Two's complement wrap of a mathematical integer to [bits] bits. *)
Definition wrap_s (bits : Z) (x : Z) : Z :=
  (x + 2 ^ (bits - 1)) mod 2 ^ bits - 2 ^ (bits - 1).
Definition wrap_u (bits : Z) (x : Z) : Z := x mod 2 ^ bits.

(** Cast float -> int32 on x86-64 (numpy [astype("int32")]) of a float that
    already is an integer: out of range gives INT_MIN. *)
Definition cast_i32 (z : Z) : Z :=
  if (-(2^31) <=? z) && (z <=? 2^31 - 1) then z else -(2^31).

(** Truncation toward zero of a rational (C float->int conversion). *)
Definition Qtrunc (x : Q) : Z := if Qle_bool 0 x then Qfloor x else Qceiling x.

(** Round half to even: Python's [round] and [np.round]. *)
Definition Qround_even (x : Q) : Z :=
  let f := Qfloor x in
  match Qcompare (x - inject_Z f) (1#2) with
  | Lt => f
  | Gt => f + 1
  | Eq => if Z.even f then f else f + 1
  end.

(** Finite sums *)
Definition sumZ (l : list Z) : Z := fold_right Z.add 0 l.
Definition sumQ (l : list Q) : Q := fold_right Qplus 0%Q l.

(** Python list indexing [l[i]] (negative indices count from the end). *)
Definition py_index {A} (l : list A) (i : Z) : res A :=
  let n := Z.of_nat (length l) in
  let j := if i <? 0 then i + n else i in
  if (j <? 0) || (n <=? j) then Err EIndexError
  else match nth_error l (Z.to_nat j) with Some a => Ok a | None => Err EIndexError end.

(** Python slicing [l[a:b]] (step 1); [None] is an omitted bound. *)
Definition py_norm (n : Z) (i : Z) : Z :=
  if i <? 0 then Z.max 0 (i + n) else Z.min i n.
Definition py_slice {A} (l : list A) (a b : option Z) : list A :=
  let n := Z.of_nat (length l) in
  let a' := match a with Some i => py_norm n i | None => 0 end in
  let b' := match b with Some i => py_norm n i | None => n end in
  firstn (Z.to_nat (b' - a')) (skipn (Z.to_nat a') l).
