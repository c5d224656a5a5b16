(** IEEE-754 binary64 arithmetic over the rationals, and the core quantizer computed in it:
    core/itcl_quantization/quantization/operators.py lines 112-193 with every float operation
    rounded (the other model files treat floats as exact rationals).
    Simplifications: zero has no sign (dividing by zero means dividing by +0), NaN has no payload,
    the rounding mode is round-to-nearest, ties-to-even (numpy never changes it). *)
From Verif Require Import Base DtypeModel QuantModel FcModel.
Open Scope Z_scope.
Open Scope list_scope.

(** IEEE-754 rounding of a rational to [p] significant bits with least exponent [emin]
    (round to nearest, ties to even), before the overflow test. *)
Definition fl (p emin : Z) (x : Q) : Q :=
  if Qeq_bool x 0 then 0%Q
  else let u := pow2 (Z.max (frexp_exp x - p) emin) in
       Qred (inject_Z (Qround_even (x / u)) * u)%Q.
(** binary64 has 53 significant bits and least exponent -1074. *)
Definition fl64 (x : Q) : Q := fl 53 (-1074) x.

(** A binary64 value: finite, +-infinity ([Inf true] is -inf) or NaN. *)
Inductive f64 := Fin (q : Q) | Inf (neg : bool) | NaN.

Definition Qneg (x : Q) : bool := negb (Qle_bool 0 x).
(** Rounding with the overflow test of IEEE-754: 2^1024 and more is infinite. *)
Definition rnd (x : Q) : f64 :=
  let y := fl64 x in if Qle_bool (pow2 1024) (Qabs y) then Inf (Qneg y) else Fin y.

Definition fadd (a b : f64) : f64 :=
  match a, b with
  | Fin x, Fin y => rnd (x + y)
  | NaN, _ | _, NaN => NaN
  | Inf n, Fin _ | Fin _, Inf n => Inf n
  | Inf n, Inf m => if Bool.eqb n m then Inf n else NaN
  end.
Definition fmul (a b : f64) : f64 :=
  match a, b with
  | Fin x, Fin y => rnd (x * y)
  | NaN, _ | _, NaN => NaN
  | Inf n, Fin x | Fin x, Inf n => if Qeq_bool x 0 then NaN else Inf (xorb n (Qneg x))
  | Inf n, Inf m => Inf (xorb n m)
  end.
Definition fdiv (a b : f64) : f64 :=
  match a, b with
  | Fin x, Fin y =>
      if Qeq_bool y 0 then (if Qeq_bool x 0 then NaN else Inf (Qneg x)) else rnd (x / y)
  | NaN, _ | _, NaN => NaN
  | Inf n, Fin x => Inf (xorb n (Qneg x))
  | Fin _, Inf _ => Fin 0
  | Inf _, Inf _ => NaN
  end.
(** np.floor *)
Definition ffloor (a : f64) : f64 :=
  match a with Fin x => Fin (inject_Z (Qfloor x)) | _ => a end.
(** ndarray.clip with integer bounds (exact in binary64 for bounds up to 2^53); NaN stays NaN. *)
Definition fclip (lo hi : Z) (a : f64) : f64 :=
  match a with
  | Fin x => if Qlt_le_dec x (inject_Z lo) then (if hi <? lo then Fin (inject_Z hi) else Fin (inject_Z lo))
             else if Qlt_le_dec (inject_Z hi) x then Fin (inject_Z hi) else Fin x
  | Inf true => Fin (inject_Z (Z.min lo hi))
  | Inf false => Fin (inject_Z hi)
  | NaN => NaN
  end.
(** astype("int32") on x86-64: truncation; out of range, infinities and NaN give INT_MIN. *)
Definition fcast_i32 (a : f64) : Z :=
  match a with Fin x => cast_i32 (Qtrunc x) | _ => -(2^31) end.
(** Python int -> float64 *)
Definition f_of_Z (z : Z) : f64 := rnd (inject_Z z).

(** operators.py:154-162 Quantization.round, one element *)
Definition qf_round (d : gdtype) (extra : f64) (x : f64) : Z :=
  fcast_i32 (fclip (gmin d) (gmax d) (ffloor (fadd x extra))).

(** operators.py:130 [data / scale + zero_point], one element *)
Definition qf_affine (zp : Z) (s x : f64) : f64 := fadd (fdiv x s) (f_of_Z zp).

(** operators.py:112-139 Quantization.quantize in binary64 *)
Definition quantize_f (d : gdtype) (data : nd f64) (zp : Z) (s : f64) (policy : option (nd f64)) : nd Z :=
  let float_res := nd_map (qf_affine zp s) data in
  match policy with
  | Some p =>
      match nd_bin fadd float_res p with
      | Some r => nd_map (qf_round d (Fin 0)) r
      | None => nd_map (qf_round d (Fin (1#2))) float_res
      end
  | None => nd_map (qf_round d (Fin (1#2))) float_res
  end.
Definition quantf1 (d : gdtype) (zp : Z) (s x : f64) : Z := qf_round d (Fin (1#2)) (qf_affine zp s x).
Definition quantf1p (d : gdtype) (zp : Z) (s x p : f64) : Z := qf_round d (Fin 0) (fadd (qf_affine zp s x) p).

(** operators.py:141-152 Quantization.dequantize in binary64: int32 subtraction, exact
    conversion of the int32 to float64, one rounded product. *)
Definition dequantf1 (zp : Z) (s : f64) (q : Z) : f64 :=
  fmul (Fin (inject_Z (wrap_s 32 (wrap_s 32 q - zp)))) s.
Definition dequantize_f (data : nd Z) (zp : Z) (s : f64) : nd f64 := nd_map (dequantf1 zp s) data.

(** operators.py:164-177 float_activation and 179-193 create_LUT for any float64 activation *)
Definition float_activation_f (d : gdtype) (f : f64 -> f64) (in_s : f64) (in_zp : Z) : list f64 :=
  map f (map (dequantf1 in_zp in_s) (code_range d)).
Definition create_LUT_f (d : gdtype) (f : f64 -> f64) (in_s : f64) (in_zp : Z) (out_s : f64) (out_zp : Z)
  (policy : option (nd f64)) : list Z :=
  nd_to_list (quantize_f d (nd_of_list NaN (float_activation_f d f in_s in_zp)) out_zp out_s policy).

(** np comparison [a > b] of binary64 values (False when an operand is NaN) *)
Definition fgt (a b : f64) : bool :=
  match a, b with
  | Fin x, Fin y => negb (Qle_bool x y)
  | NaN, _ | _, NaN => false
  | Inf false, Inf false => false
  | Inf false, _ => true
  | Inf true, _ => false
  | Fin _, Inf n => n
  end.
(** irounding_policy.py:23-33 get_base_rounding in binary64, one element *)
Definition base_roundingf1 (s x : f64) : f64 :=
  let t := fdiv x s in
  if fgt (ffloor (fadd t (Fin (1#2)))) t then Fin 1 else Fin 0.
Definition get_base_rounding_f (t : nd f64) (s : f64) : nd f64 := nd_map (base_roundingf1 s) t.

(** tensor.py:30-75 NodeLUT.__init__ / _create in binary64: the table built with the
    round-to-nearest policy of get_base_rounding *)
Definition node_lut_f (d : gdtype) (fn : f64 -> f64) (in_s : f64) (in_zp : Z) (out_s : f64) (out_zp : Z) : list Z :=
  let policy := get_base_rounding_f (nd_of_list NaN (float_activation_f d fn in_s in_zp)) out_s in
  create_LUT_f d fn in_s in_zp out_s out_zp (Some policy).
(** tensor.py:117-130 NodeLUT.__call__ on it *)
Definition node_lut_f_call (d : gdtype) (table : list Z) (v : Z) : res Z := py_index table (v + - gmin d).
