(** Model of inference_engine/itcl_inference_engine/layers/onnx/{q_linear_add,q_linear_mmul,
    quantize_linear,dequantize_linear,q_linear_sigmoid,softmax}.py and layers/tflite/softmax.py.
    Zero points are Python ints (from JSON), so int32 arithmetic stays int32 and wraps. *)
From Verif Require Import Base DtypeModel QuantModel FcModel.
Open Scope Z_scope.
Open Scope list_scope.

Definition i32 (x : Z) : Z := wrap_s 32 x.
Definition u8 : gdtype := {| gmin := 0; gmax := 255; grepr := chars_of "uint8" |}.

(** q_linear_add.py:37-43 *)
Record qadd := mkqadd { qa_is : Q; qa_izp : Z; qa_b : nd Z; qa_bs : Q; qa_bzp : Z; qa_os : Q; qa_ozp : Z }.

(** q_linear_add.py:95-104 on one pair of elements: np.round is half to even, the clip is on floats
    that are integers, the final astype(uint8) is then exact. *)
Definition qadd1 (l : qadd) (x b : Z) : Z :=
  let i := i32 (i32 x - qa_izp l) in
  let b := i32 (i32 b - qa_bzp l) in
  clipZ 0 255 (Qround_even ((qa_is l * inject_Z i + qa_bs l * inject_Z b) / qa_os l) + qa_ozp l).
(** q_linear_add.py:80-104 infer; incompatible shapes: ValueError from numpy. *)
Definition qadd_infer (l : qadd) (x : nd Z) : res (nd Z) :=
  match nd_bin (qadd1 l) x (qa_b l) with Some r => Ok r | None => Err EValueError end.

(** q_linear_mmul.py:38-44; [qm_w] is the stored (already transposed) matrix by columns, i.e. the
    rows of the JSON tensor. *)
Record qmm := mkqmm { qm_M : Q; qm_izp : Z; qm_w : list (list Z); qm_wzp : Z; qm_ozp : Z }.
Definition qmm_build (is : Q) (izp : Z) (w : list (list Z)) (ws : Q) (wzp : Z) (os : Q) (ozp : Z) : qmm :=
  mkqmm (is * ws / os) izp w wzp ozp.

(** int32 inner product, accumulated modulo 2^32 *)
Fixpoint dot32 (a b : list Z) : res Z :=
  match a, b with
  | [], [] => Ok 0
  | x :: a', y :: b' => do r <- dot32 a' b'; Ok (i32 (i32 (x * y) + r))
  | _, _ => Err EValueError
  end.
(** q_linear_mmul.py:98-100 on one accumulator *)
Definition qmm1 (l : qmm) (acc : Z) : Z := clipZ 0 255 (Qround_even (qm_M l * inject_Z acc) + qm_ozp l).
(** q_linear_mmul.py:95-100 for one input vector (a row of the last axis) *)
Definition qmm_row (l : qmm) (x : list Z) : res (list Z) :=
  do acc <- mapM (fun w => dot32 (map (fun v => i32 (i32 v - qm_izp l)) x) (map (fun v => i32 (i32 v - qm_wzp l)) w)) (qm_w l);
  Ok (map (qmm1 l) acc).
(** q_linear_mmul.py:83-100 infer on 1-D and batched inputs *)
Definition qmm_infer (l : qmm) (t : tensor) : res tensor :=
  match t with
  | T1 x => do y <- qmm_row l x; Ok (T1 y)
  | T2 xs => do ys <- mapM (qmm_row l) xs; Ok (T2 ys)
  | Tn _ => Err EValueError  (* 0-d: matmul raises; more than 2-d is row-wise too and is modelled by T2 *)
  end.

(** quantize_linear.py:39-49, dequantize_linear.py:44-45: the uint8 Quantization object. *)
Definition quantize_linear (s : Q) (zp : Z) (x : nd Q) : nd Z := quantize u8 x zp s None.
Definition dequantize_linear (s : Q) (zp : Z) (x : nd Z) : nd Q := dequantize x zp s.
(** q_linear_sigmoid.py:58-76, the float sigmoid is a parameter *)
Definition qsigmoid_infer (sig : Q -> Q) (is : Q) (izp : Z) (os : Q) (ozp : Z) (x : nd Z) : nd Z :=
  quantize_linear os ozp (nd_map sig (dequantize_linear is izp x)).

(** onnx/softmax.py:24-35 on a batch of rows: exponentials divided by the sum over the WHOLE array.
    [ex] is np.exp, kept abstract. *)
Definition softmax_infer (ex : Q -> Q) (xs : list (list Q)) : list (list Q) :=
  let total := sumQ (map sumQ (map (map ex) xs)) in
  map (map (fun x => ex x / total)%Q) xs.

(** tflite/softmax.py:28-29: returns its input *)
Definition tflite_softmax_infer {A} (x : A) : A := x.
