(** Model of
    - inference_engine/itcl_inference_engine/util/floating.py (FloatingIntegerApprox), and
    - inference_engine/itcl_inference_engine/layers/tflite/fullyconnected.py
      (FullyConnected, FullyConnectedQuantizedMultiplier).
    Floats are exact rationals: [frexp], scaling by 2^31 and [round] are exact on doubles, so for
    every double multiplier these definitions compute what Python computes. *)
From Verif Require Import Base DtypeModel.
Open Scope Z_scope.
Open Scope list_scope.

(** 2^e for any integer e *)
Definition pow2 (e : Z) : Q := Qpower 2 e.

(** math.frexp: (m, e) with x = m * 2^e and 1/2 <= |m| < 1, (0,0) for 0. *)
Definition frexp_exp (x : Q) : Z :=
  let a := Qabs x in
  let e0 := Z.log2 (Qnum a) - Z.log2 (Zpos (Qden a)) in
  if Qlt_le_dec a (pow2 e0) then e0 else e0 + 1.
Definition frexp (x : Q) : Q * Z :=
  if Qeq_bool x 0 then (0%Q, 0) else (x / pow2 (frexp_exp x), frexp_exp x)%Q.

(** floating.py:10-29 __init__. [1 << n] raises ValueError for negative n. *)
Record fia := mkfia { fia_q : Z; fia_shift : Z; fia_round : Z }.
Definition fia_init (v : Q) : res fia :=
  let '(q, shift) := frexp v in
  let qm := Qround_even (q * inject_Z (2 ^ 31)) in
  if negb (qm <=? 2 ^ 31) then Err EAssertionError else
  let '(qm, shift) := if qm =? 2 ^ 31 then (qm / 2, shift + 1) else (qm, shift) in
  let qm := if shift <? -31 then 0 else qm in
  let sh := 31 - shift in
  if sh - 1 <? 0 then Err EValueError
  else Ok (mkfia qm sh (2 ^ (sh - 1))).

(** floating.py:31-37 __mul__ on Python integers (integer_only = True): [>>] on a negative count
    is ValueError, but [fia_init] never stores one. *)
Definition fia_mul (f : fia) (x : Z) : Z := (x * fia_q f + fia_round f) / 2 ^ fia_shift f.

(** fullyconnected.py:305-322 __adjust_mult *)
Definition adjust_mult (qm shift : Z) : res fia :=
  if negb (0 <=? qm) then Err EAssertionError else
  if negb ((-31 <=? shift) && (shift <=? 30)) then Err EAssertionError else
  let shift' := 31 - shift in
  Ok (mkfia qm shift' (2 ^ (shift' - 1))).

(** fullyconnected.py:324-356 __build, on the float [m] = input_scale*weight_scale/output_scale.
    max_int32 in util/quantization.py is 2^32-1 (see DtypeModel), so line 351 never fires;
    line 353 is dead because m >= 1e-6. *)
Definition fc_mult_build (m : Q) : res fia :=
  if Qlt_le_dec m (1 # 1000000) then adjust_mult 0 0 else
  let '(q, shift) := frexp m in
  let qm := Qround_even (q * inject_Z (2 ^ 31)) in
  if negb (qm <=? 2 ^ 31) then Err EAssertionError else
  let '(qm, shift) := if qm =? 2 ^ 31 then (qm / 2, shift + 1) else (qm, shift) in
  if negb (qm <=? 2 ^ 32 - 1) then Err EAssertionError else
  let '(qm, shift) := if shift <? -31 then (0, 0) else (qm, shift) in
  adjust_mult qm shift.

(** fullyconnected.py:283-303, 338: the multiplier of three scales; the scales come from JSON, so a zero output scale is Python's
    ZeroDivisionError. *)
Definition fc_mult_of (si sw so : Q) : res fia :=
  if Qeq_bool so 0 then Err EZeroDivision else fc_mult_build (si * sw / so)%Q.

Definition i64 (x : Z) : Z := wrap_s 64 x.

(** The layer object (fullyconnected.py:66-79). *)
Record fc := mkfc {
  fc_in_zp : Z; fc_w : list (list Z); fc_bias : list Z; fc_mult : fia; fc_out_zp : Z; fc_dtype : gdtype }.

(** fullyconnected.py:111-124 build; bias_s and bias_zp are ignored by the code. *)
Definition fc_build (input_s : Q) (input_zp : Z) (weight_s : Q) (weight_zp : Z) (weights : list (list Z))
    (bias : list Z) (output_s : Q) (output_zp : Z) (output_dtype : gdtype) : res fc :=
  do m <- fc_mult_of input_s weight_s output_s;
  Ok (mkfc input_zp (map (map (fun w => i64 (w - weight_zp))) weights) bias m output_zp output_dtype).

(** An input array: 1-D, 2-D (a batch of rows) or any other number of dimensions. *)
Inductive tensor := T1 (x : list Z) | T2 (xs : list (list Z)) | Tn (ndim : nat).
Definition tensor_ndim (t : tensor) : nat :=
  match t with T1 _ => 1 | T2 _ => 2 | Tn n => n end%nat.

(** int64 inner product; numpy's matmul accumulates modulo 2^64. Different lengths: ValueError. *)
Fixpoint dot64 (a b : list Z) : res Z :=
  match a, b with
  | [], [] => Ok 0
  | x :: a', y :: b' => do r <- dot64 a' b'; Ok (i64 (i64 (x * y) + r))
  | _, _ => Err EValueError
  end.

(** numpy broadcasting sum of two 1-D int64 arrays. *)
Fixpoint map2 {A B C} (f : A -> B -> C) (a : list A) (b : list B) : list C :=
  match a, b with x :: a', y :: b' => f x y :: map2 f a' b' | _, _ => [] end.
Definition badd64 (a b : list Z) : res (list Z) :=
  if (length a =? length b)%nat then Ok (map2 (fun x y => i64 (x + y)) a b)
  else match a, b with
       | [x], _ => Ok (map (fun y => i64 (x + y)) b)
       | _, [y] => Ok (map (fun x => i64 (x + y)) a)
       | _, _ => Err EValueError
       end.

(** fullyconnected.py:171-195 __calculate_accumulator for one input vector:
    row of [input @ W.T] (2-D) or [W @ input] (1-D), plus bias. *)
Definition fc_center (l : fc) (x : list Z) : list Z := map (fun v => i64 (i64 v - i64 (fc_in_zp l))) x.
Definition fc_acc_1d (l : fc) (x : list Z) : res (list Z) :=
  do m <- mapM (fun w => dot64 w (fc_center l x)) (fc_w l);
  badd64 m (fc_bias l).
Definition fc_acc_2d (l : fc) (xs : list (list Z)) : res (list (list Z)) :=
  do m <- mapM (fun x => mapM (fun w => dot64 (fc_center l x) w) (fc_w l)) xs;
  mapM (fun r => badd64 r (fc_bias l)) m.

(** fullyconnected.py:218-232, 258-267, 276-280 on one element: scale, add zero point, clip. *)
Definition fc_requant (l : fc) (acc : Z) : Z :=
  let res := i64 (i64 (i64 acc * fia_q (fc_mult l)) + fia_round (fc_mult l)) in
  let shifted := res / 2 ^ fia_shift (fc_mult l) in
  clipZ (gmin (fc_dtype l)) (gmax (fc_dtype l)) (i64 (shifted + fc_out_zp l)).

(** fullyconnected.py:269-280 infer. A 0-d input makes np.matmul raise ValueError. *)
Definition fc_infer (l : fc) (t : tensor) : res tensor :=
  match t with
  | T1 x => do a <- fc_acc_1d l x; Ok (T1 (map (fc_requant l) a))
  | T2 xs => do a <- fc_acc_2d l xs; Ok (T2 (map (map (fc_requant l)) a))
  | Tn n => if (2 <? n)%nat then Err EAssertionError else Err EValueError
  end.
