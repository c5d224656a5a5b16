(** inference_engine/itcl_inference_engine/layers/onnx/q_linear_add.py and q_linear_mmul.py with every float operation in binary64
    (OnnxModel takes scales and multipliers as exact rationals).  Scales are Python floats read from JSON; the integer parts (int32
    subtraction and products) are those of OnnxModel. *)
From Verif Require Import Base DtypeModel QuantModel FcModel OnnxModel FloatModel FloatFcModel.
Open Scope Z_scope.
Open Scope list_scope.

(** np.round on a double: nearest integer, ties to even; exact; infinities and NaN unchanged *)
Definition frint (a : f64) : f64 :=
  match a with Fin x => Fin (inject_Z (Qround_even x)) | _ => a end.
(** astype(np.uint8) of a double in 0..255: truncation.  What NaN becomes depends on the platform: [nan]. *)
Definition fcast_u8 (nan : Z) (a : f64) : Z :=
  match a with Fin x => Qtrunc x mod 256 | _ => nan end.
(** q_linear_add.py:98-104 and q_linear_mmul.py:98-100: [np.clip(np.round(v) + o_zp, 0, 255).astype(np.uint8)], one element *)
Definition finish_f (nan : Z) (v : f64) (ozp : Z) : Z :=
  fcast_u8 nan (fclip 0 255 (fadd (frint v) (f_of_Z ozp))).

(** q_linear_add.py:95-98 on one pair of elements.  Division by numpy: a zero scale gives an infinity or NaN and no exception. *)
Definition qadd1_f (nan : Z) (l : qadd) (x b : Z) : Z :=
  let i := i32 (i32 x - qa_izp l) in
  let b := i32 (i32 b - qa_bzp l) in
  finish_f nan (fdiv (fadd (fmul (Fin (qa_is l)) (f_of_Z i)) (fmul (Fin (qa_bs l)) (f_of_Z b))) (Fin (qa_os l))) (qa_ozp l).
(** q_linear_add.py:80-104 infer; incompatible shapes: ValueError from numpy. *)
Definition qadd_infer_f (nan : Z) (l : qadd) (x : nd Z) : res (nd Z) :=
  match nd_bin (qadd1_f nan l) x (qa_b l) with Some r => Ok r | None => Err EValueError end.

(** q_linear_mmul.py:38-44; [fm_w] as qm_w of OnnxModel *)
Record fqmm := mkfqmm { fm_M : f64; fm_izp : Z; fm_w : list (list Z); fm_wzp : Z; fm_ozp : Z }.
(** q_linear_mmul.py:39 [input_scale * w_scale / out_scale] on Python floats: ZeroDivisionError *)
Definition qmm_build_f (is : Q) (izp : Z) (w : list (list Z)) (ws : Q) (wzp : Z) (os : Q) (ozp : Z) : res fqmm :=
  do m <- py_div_f (fmul (Fin is) (Fin ws)) (Fin os);
  Ok (mkfqmm m izp w wzp ozp).
(** q_linear_mmul.py:98-100 on one int32 accumulator *)
Definition qmm1_f (nan : Z) (l : fqmm) (acc : Z) : Z := finish_f nan (fmul (fm_M l) (f_of_Z acc)) (fm_ozp l).
(** q_linear_mmul.py:95-100 for one input vector *)
Definition qmm_row_f (nan : Z) (l : fqmm) (x : list Z) : res (list Z) :=
  do acc <- mapM (fun w => dot32 (map (fun v => i32 (i32 v - fm_izp l)) x) (map (fun v => i32 (i32 v - fm_wzp l)) w)) (fm_w l);
  Ok (map (qmm1_f nan l) acc).
(** q_linear_mmul.py:83-100 infer on 1-D and batched inputs *)
Definition qmm_infer_f (nan : Z) (l : fqmm) (t : tensor) : res tensor :=
  match t with
  | T1 x => do y <- qmm_row_f nan l x; Ok (T1 y)
  | T2 xs => do ys <- mapM (qmm_row_f nan l) xs; Ok (T2 ys)
  | Tn _ => Err EValueError
  end.
