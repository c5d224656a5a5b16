(** quantizer/itcl_quantizer/quantizer/distributions/distribution.py:121-171 Distribution.quantize with every
    float operation rounded.  The data may be float32 or float64, and NumPy's promotion of mixed operands
    differs between versions, so the subtraction of two data values and the other operations are rounded in
    two arbitrary IEEE formats [f1] and [f2] (binary32 or binary64).  Overflow is not modelled (the theorems
    bound the data); the reported minimum and maximum are arguments. *)
From Verif Require Import Base DtypeModel FcModel FloatModel DistModel.
From Coq Require Import Qminmax.
Open Scope Z_scope.

(** An IEEE binary format: significand bits, least exponent, overflow threshold 2^emax. *)
Record fmt := mkfmt { f_p : Z; f_emin : Z; f_emax : Z }.
Definition binary32 : fmt := mkfmt 24 (-149) 128.
Definition binary64 : fmt := mkfmt 53 (-1074) 1024.
Definition flf (f : fmt) (x : Q) : Q := fl (f_p f) (f_emin f) x.

(** distribution.py:140-171 *)
Definition dist_quantize_f (f1 f2 : fmt) (mn mx : Q) (q : gdtype) (force_zp : option Z) (force_s : option Q)
  (symmetric : bool) : res (Q * Z) :=
  let min_ := Qmin mn 0 in let max_ := Qmax mx 0 in
  let q_max := gmax q in
  let q_min := if symmetric then - q_max else gmin q in
  if q_max - q_min =? 0 then Err EZeroDivision
  else
    let scale := flf f2 (flf f1 (max_ - min_) / inject_Z (q_max - q_min)) in
    let den := flf f1 (min_ - max_) in
    if Qeq_bool den 0 then Err EValueError    (* ZeroDivisionError, or round(nan): ValueError *)
    else
      let zp := Qround_even (flf f2 (flf f2 (flf f2 (min_ * inject_Z q_max) - flf f2 (max_ * inject_Z q_min)) / den)) in
      do sz <- match force_zp with
               | None => Ok (scale, zp)
               | Some z =>
                   let den := if symmetric then q_max else Z.abs q_min in
                   if den =? 0 then Err EZeroDivision
                   else Ok (flf f2 (Qmax (Qabs min_) (Qabs max_) / inject_Z den), z)
               end;
      let '(s, z) := sz in
      let s := match force_s with Some s' => s' | None => s end in
      if Qeq_bool s 0 then Ok (1%Q, 0) else Ok (s, z).
