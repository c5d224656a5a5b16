(** Model of the loss functions of the quantization scripts: classification
    (quantizer/quantize_mnist.py:24-33, quantizer/qubo_adaround/quantize.py, quantize_clasificacion.py:28-37, quantizepruebas.py: minus the
    number of hits of the argmax) and regression (quantizer/quantize_regression_x3.py:19-23, quantizer/qubo_adaround/quantize_regresion.py:30-33,
    demo/x3_fpga/quantize_x3.py:29-30: mean squared error with numpy broadcasting).  Exact rationals. *)
From Verif Require Import Base EngineModel BuildModel PipeModel.
Open Scope Z_scope.
Open Scope list_scope.

(** numpy argmax of one row: the first index of the maximum (ValueError for an empty row) *)
Fixpoint argmax_from (best : Q) (bi i : nat) (l : list Q) : nat :=
  match l with
  | [] => bi
  | x :: r => if Qle_bool x best then argmax_from best bi (S i) r else argmax_from x i (S i) r
  end.
Definition np_argmax (l : list Q) : res nat :=
  match l with [] => Err EValueError | x :: r => Ok (argmax_from x 0 1 r) end.
(** quantize_mnist.py:26  res.T.argmax(axis=0): one class per sample *)
Definition predictions (y : list (list Q)) : res (list nat) := mapM np_argmax y.
(** quantize_mnist.py:28-32: the loop over zip(res, y_test) (stops at the shorter one) *)
Fixpoint count_hits (pred label : list nat) : nat :=
  match pred, label with
  | p :: ps, e :: es => ((if (p =? e)%nat then 1 else 0) + count_hits ps es)%nat
  | _, _ => 0%nat
  end.
(** quantize_mnist.py:24-33; net.infer of a network that ends with DEQUANTIZE returns floats *)
Definition hits_of (out : res pval) (y_test : list nat) : res nat :=
  do v <- out; do p <- predictions (asF v); Ok (count_hits p y_test).
Definition class_loss (out : res pval) (y_test : list nat) : res Q :=
  do h <- hits_of out y_test; Ok (- inject_Z (Z.of_nat h))%Q.

(** numpy broadcasting of one axis *)
Definition bc_dim (a b : nat) : res nat :=
  if (a =? b)%nat then Ok a else if (a =? 1)%nat then Ok b else if (b =? 1)%nat then Ok a else Err EValueError.
Definition rows_of (m : list (list Q)) : nat := length m.
Definition cols_of (m : list (list Q)) : nat := length (hd [] m).
Definition bc_get (m : list (list Q)) (i j : nat) : Q :=
  nth (if (cols_of m =? 1)%nat then 0%nat else j) (nth (if (rows_of m =? 1)%nat then 0%nat else i) m []) 0%Q.
(** quantize_regression_x3.py:23, quantize_x3.py:29-30, quantize_regresion.py:32  np.mean(np.square(a - b)); the mean of nothing is NaN
    (EZeroDivision here) *)
Definition np_mse (a b : list (list Q)) : res Q :=
  do n <- bc_dim (rows_of a) (rows_of b);
  do k <- bc_dim (cols_of a) (cols_of b);
  if (n * k =? 0)%nat then Err EZeroDivision
  else Ok (sumQ (map (fun i => sumQ (map (fun j => (bc_get a i j - bc_get b i j) * (bc_get a i j - bc_get b i j))%Q (seq 0 k))) (seq 0 n))
           / inject_Z (Z.of_nat (n * k)))%Q.
Definition mse_loss (out : res pval) (target : list (list Q)) : res Q := do v <- out; np_mse (asF v) target.
(** targets stored as a vector: numpy aligns its axis with the columns *)
Definition flat_targets (y : list Q) : list (list Q) := [y].
