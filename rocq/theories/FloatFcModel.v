(** The multipliers of inference_engine/itcl_inference_engine/layers/tflite/fullyconnected.py:282-356 and util/floating.py:10-29 with every float
    operation in binary64 (FcModel takes the exact rational input_scale * weight_scale / output_scale). Scales are Python floats read from JSON. *)
From Verif Require Import Base DtypeModel QuantModel FcModel FloatModel.
Open Scope Z_scope.
Open Scope list_scope.

(** math.frexp on a double: exact; infinities and NaN are returned unchanged with exponent 0 *)
Definition frexp_f (a : f64) : f64 * Z :=
  match a with Fin x => let '(m, e) := frexp x in (Fin m, e) | _ => (a, 0) end.
(** built-in round(float) -> int: ties to even; OverflowError / ValueError *)
Definition py_round_f (a : f64) : res Z :=
  match a with Fin x => Ok (Qround_even x) | Inf _ => Err EOverflow | NaN => Err EValueError end.
(** Python float division *)
Definition py_div_f (a b : f64) : res f64 :=
  match b with Fin y => if Qeq_bool y 0 then Err EZeroDivision else Ok (fdiv a b) | _ => Ok (fdiv a b) end.
(** the literal 1e-6 *)
Definition f1e_6 : Q := fl64 (1 # 1000000).
(** [a < b] for a finite b; False for NaN *)
Definition f_ltb (a : f64) (b : Q) : bool :=
  match a with Fin x => negb (Qle_bool b x) | Inf n => n | NaN => false end.

(** fullyconnected.py:324-356 __build *)
Definition fc_mult_build_f (si sw so : f64) : res fia :=
  do m <- py_div_f (fmul si sw) so;
  if f_ltb m f1e_6 then adjust_mult 0 0 else
  let '(q, shift) := frexp_f m in
  do qm <- py_round_f (fmul q (f_of_Z (2 ^ 31)));
  if negb (qm <=? 2 ^ 31) then Err EAssertionError else
  let '(qm, shift) := if qm =? 2 ^ 31 then (qm / 2, shift + 1) else (qm, shift) in
  if negb (qm <=? 2 ^ 32 - 1) then Err EAssertionError else
  let '(qm, shift) := if shift <? -31 then (0, 0) else (qm, shift) in
  adjust_mult qm shift.
(** fullyconnected.py:111-124 build *)
Definition fc_build_f (input_s : f64) (input_zp : Z) (weight_s : f64) (weight_zp : Z) (weights : list (list Z))
    (bias : list Z) (output_s : f64) (output_zp : Z) (output_dtype : gdtype) : res fc :=
  do m <- fc_mult_build_f input_s weight_s output_s;
  Ok (mkfc input_zp (map (map (fun w => i64 (w - weight_zp))) weights) bias m output_zp output_dtype).
(** floating.py:10-29 FloatingIntegerApprox.__init__ *)
Definition fia_init_f (v : f64) : res fia :=
  let '(q, shift) := frexp_f v in
  do qm <- py_round_f (fmul q (f_of_Z (2 ^ 31)));
  if negb (qm <=? 2 ^ 31) then Err EAssertionError else
  let '(qm, shift) := if qm =? 2 ^ 31 then (qm / 2, shift + 1) else (qm, shift) in
  let qm := if shift <? -31 then 0 else qm in
  let sh := 31 - shift in
  if sh - 1 <? 0 then Err EValueError
  else Ok (mkfia qm sh (2 ^ (sh - 1))).
