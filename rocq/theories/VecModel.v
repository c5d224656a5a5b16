(** Model of Quantization.float_activation and create_LUT (core/itcl_quantization/quantization/operators.py:164-193) on an arbitrary
    Python callable: it may raise, and it may return bools, ints or floats.  np.vectorize(f) without [otypes] (operators.py:175) takes
    the dtype of the whole result from the value f returns on the first element and casts every other value to it.
    QuantModel.create_LUT is the same code on functions from floats to floats.  Floats are exact rationals. *)
From Verif Require Import Base DtypeModel QuantModel.
From Coq Require Import Qminmax.
Open Scope Z_scope.
Open Scope list_scope.

(** what the callable returns: False/True, an int, a float *)
Inductive pynum := PyBool (b : bool) | PyInt (z : Z) | PyFloat (q : Q).
(** its numerical value *)
Definition pyval (y : pynum) : Q := match y with PyBool b => if b then 1%Q else 0%Q | PyInt z => inject_Z z | PyFloat q => q end.

(** np.asanyarray(results, dtype): float(y); int(y), which truncates, in an int64 array; bool(y) *)
Definition np_cast (first y : pynum) : res Q :=
  match first with
  | PyFloat _ => Ok (pyval y)
  | PyInt _ =>
      let z := match y with PyInt z => z | _ => Qtrunc (pyval y) end in
      if (- 2 ^ 63 <=? z) && (z <=? 2 ^ 63 - 1) then Ok (inject_Z z) else Err EOverflow
  | PyBool _ => Ok (if Qeq_bool (pyval y) 0 then 0%Q else 1%Q)
  end.
(** np.vectorize(f)(xs): one extra call on the first element (ValueError when there is none), then every element in order *)
Definition vectorize (f : Q -> res pynum) (xs : list Q) : res (list Q) :=
  match xs with
  | [] => Err EValueError
  | x0 :: _ => do y0 <- f x0; do ys <- mapM f xs; mapM (np_cast y0) ys
  end.
(** operators.py:164-177 *)
Definition float_activation_py (d : gdtype) (f : Q -> res pynum) (in_s : Q) (in_zp : Z) : res (list Q) :=
  vectorize f (map (dequant1 in_zp in_s) (code_range d)).
(** operators.py:179-193 *)
Definition create_LUT_py (d : gdtype) (f : Q -> res pynum) (in_s : Q) (in_zp : Z) (out_s : Q) (out_zp : Z) (policy : option (nd Q)) : res (list Z) :=
  do a <- float_activation_py d f in_s in_zp;
  Ok (nd_to_list (quantize d (nd_of_list 0%Q a) out_zp out_s policy)).

(** Python's max(0, x): the first argument unless the second is greater; max(x, 0); max(0.0, x) *)
Definition relu_0x (x : Q) : res pynum := Ok (if Qle_bool x 0 then PyInt 0 else PyFloat x).
Definition relu_x0 (x : Q) : res pynum := Ok (if Qle_bool 0 x then PyFloat x else PyInt 0).
Definition relu_float (x : Q) : res pynum := Ok (PyFloat (if Qle_bool x 0 then 0%Q else x)).
(** model_converters/tflite2json/itcl_tflite2json/operators/SigmoidLUT.py:14, model_converters/onnx2json/helpers/nodeBuilders/QLinearSigmoid.py
    1 / (1 + math.exp(-x)); math.exp raises OverflowError above [lim] (about 709.78) *)
Definition py_sigmoid (ex : Q -> Q) (lim : Q) (x : Q) : res pynum :=
  if Qle_bool (- x) lim then Ok (PyFloat (1 / (1 + ex (- x)))%Q) else Err EOverflow.
