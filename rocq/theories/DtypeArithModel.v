(** Model of core/itcl_quantization/quantization/operators.py class Dtype (lines 211-327)
    and the widening helpers (lines 330-335; identical copies in
    inference_engine/itcl_inference_engine/util/quantization.py 43-48).
    Modelled: integer numpy dtypes int8..int64 / uint8..uint64 and 1-D values of equal length
    (a scalar is a one-element list).  Not modelled: float dtypes, arrays of rank >= 2
    (where the builtin any() in __has_overflow raises ValueError) and numpy broadcasting. *)
From Verif Require Import Base DtypeModel.
Open Scope Z_scope.
Open Scope list_scope.

(** numpy astype between integer dtypes *)
Definition np_wrap (sg : bool) (b x : Z) : Z := if sg then wrap_s b x else wrap_u b x.

(** operators.py:212-225: value, kind ("int"/"uint") and bits = 8*2^dk *)
Record dt := { dvals : list Z; dsg : bool; dk : nat }.
Definition dbits (d : dt) : Z := np_bits (dk d).
(** 234-238 *)
Definition dmin (d : dt) : Z := np_min (dsg d) (dbits d).
Definition dmax (d : dt) : Z := np_max (dsg d) (dbits d).

(** 240-241 __double_dtype: same kind, min(64, 2*bits) bits *)
Definition double_k (k : nat) : nat := Nat.min 3 (S k).

(** 243-248 get_larger_dtype *)
Definition larger (a b : dt) : dt := if dbits b <? dbits a then a else b.

(** 283-289 __has_overflow(value, larger) *)
Definition has_overflow (vs : list Z) (d : dt) : bool :=
  existsb (fun v => dmax d <? v) vs || existsb (fun v => v <? dmin d) vs.

Definition zip_with {A B C} (f : A -> B -> C) (a : list A) (b : list B) : list C :=
  map (fun p => f (fst p) (snd p)) (combine a b).

(** Common body of __add__ 250-262, __sub__ 264-281, __mul__ 291-306 *)
Definition dt_op (op : Z -> Z -> Z) (self other : dt) : dt :=
  let lg := larger self other in
  let nk := double_k (dk lg) in
  let nb := np_bits nk in
  let a := map (np_wrap (dsg lg) nb) (dvals self) in
  let b := map (np_wrap (dsg lg) nb) (dvals other) in
  let r := map (clipZ (np_min (dsg lg) nb) (np_max (dsg lg) nb))
               (zip_with (fun x y => np_wrap (dsg lg) nb (op x y)) a b) in
  if has_overflow r self
  then {| dvals := r; dsg := dsg lg; dk := nk |}
  else {| dvals := r; dsg := dsg lg; dk := dk lg |}.

(** An operand: a Dtype or a plain value *)
Inductive operand := ODt (d : dt) | ORaw (vs : list Z).

(** 250-262 (308-313 __adjust_other wraps plain values in the dtype of self) *)
Definition dt_add (self : dt) (o : operand) : res dt :=
  match o with
  | ODt d => Ok (dt_op Z.add self d)
  | ORaw vs => Ok (dt_op Z.add self {| dvals := vs; dsg := dsg self; dk := dk self |})
  end.
(** 264-281, 291-306: a plain value has no .bits *)
Definition dt_sub (self : dt) (o : operand) : res dt :=
  match o with ODt d => Ok (dt_op Z.sub self d) | ORaw _ => Err EAttributeError end.
Definition dt_mul (self : dt) (o : operand) : res dt :=
  match o with ODt d => Ok (dt_op Z.mul self d) | ORaw _ => Err EAttributeError end.

(** 330-335: np.intN(np.intN(x) * np.intN(y)) *)
Definition int8_multiplication (x y : Z) : Z := wrap_s 16 (wrap_s 16 (wrap_s 16 x * wrap_s 16 y)).
Definition int8_addition (x y : Z) : Z := wrap_s 16 (wrap_s 16 (wrap_s 16 x + wrap_s 16 y)).
Definition int16_multiplication (x y : Z) : Z := wrap_s 32 (wrap_s 32 (wrap_s 32 x * wrap_s 32 y)).
Definition int16_addition (x y : Z) : Z := wrap_s 32 (wrap_s 32 (wrap_s 32 x + wrap_s 32 y)).
Definition int32_multiplication (x y : Z) : Z := wrap_s 64 (wrap_s 64 (wrap_s 64 x * wrap_s 64 y)).
Definition int32_addition (x y : Z) : Z := wrap_s 64 (wrap_s 64 (wrap_s 64 x + wrap_s 64 y)).
