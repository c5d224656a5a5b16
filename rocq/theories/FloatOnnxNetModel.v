(** The engine's ONNX operators on batches with every float operation in binary64, assembled by network/sequential.py
    (EngineModel.seq_init/seq_infer): ConvModel.load_onnx with doubles and 2-D arrays. *)
From Verif Require Import Base DtypeModel QuantModel LutModel FcModel EngineModel FloatModel FloatFcModel PipeModel FloatEngineModel OnnxModel ConvModel FloatOnnxModel.
Open Scope Z_scope.
Open Scope list_scope.

(** a 2-D array as an nd array; a bias is a vector or a matrix *)
Definition nd_of_mat (m : list (list Z)) : nd Z :=
  mknd [length m; length (hd [] m)] (fun i => nth (nth 1 i O) (nth (nth 0 i O) m []) 0).
Definition nd_of_pt (t : ptensor) : option (nd Z) :=
  match t with PNone => None | PVec b => Some (nd_of_list 0 b) | PMat m => Some (nd_of_mat m) end.
(** a scale read from JSON; JSON's NaN and Infinity are not modelled *)
Definition finite (s : f64) : res Q := match s with Fin q => Ok q | _ => Err ENotImplemented end.
Definition wrong_kind : res fval := Err ENotImplemented.

(** layers/onnx/quantize_linear.py:23-49 (util/quantization.py: the uint8 Quantization object).  Integer input is not modelled. *)
Definition fo_quantize (b : fbody) : res (layer fval) :=
  do i <- py_index (fb_in b) 0;
  Ok (fun v => match v with GF m => Ok (GI (map (map (quantf1 u8 (fn_zp i) (fn_scale i))) m)) | GI _ => wrong_kind end).
(** layers/onnx/dequantize_linear.py:28-45 *)
Definition fo_dequantize (b : fbody) : res (layer fval) :=
  do i <- py_index (fb_in b) 0;
  Ok (fun v => match v with GI m => Ok (GF (map (map (dequantf1 (fn_zp i) (fn_scale i))) m)) | GF _ => wrong_kind end).
(** layers/onnx/q_linear_add.py:45-104.  The tensor is taken to have the declared shape and dtype (line 71). *)
Definition fo_add (nan : Z) (b : fbody) : res (layer fval) :=
  do i <- py_index (fb_in b) 0; do w <- py_index (fb_in b) 1; do o <- py_index (fb_in b) 2;
  match nd_of_pt (fn_tensor w) with
  | None => Err EValueError
  | Some t =>
      do is <- finite (fn_scale i); do ws <- finite (fn_scale w); do os <- finite (fn_scale o);
      Ok (fun v => match v with
                   | GI m => do r <- qadd_infer_f nan (mkqadd is (fn_zp i) t ws (fn_zp w) os (fn_zp o)) (nd_of_mat m);
                             do y <- rows2 r; Ok (GI y)
                   | GF _ => wrong_kind end)
  end.
(** layers/onnx/q_linear_mmul.py:19-100.  A one-dimensional weight is not modelled. *)
Definition fo_matmul (nan : Z) (b : fbody) : res (layer fval) :=
  do i <- py_index (fb_in b) 0; do w <- py_index (fb_in b) 1; do o <- py_index (fb_in b) 2;
  match fn_tensor w with
  | PNone => Err EValueError
  | PVec _ => Err ENotImplemented
  | PMat W =>
      do is <- finite (fn_scale i); do ws <- finite (fn_scale w); do os <- finite (fn_scale o);
      do l <- qmm_build_f is (fn_zp i) W ws (fn_zp w) os (fn_zp o);
      Ok (fun v => match v with
                   | GI m => do t <- qmm_infer_f nan l (T2 m); match t with T2 y => Ok (GI y) | _ => wrong_kind end
                   | GF _ => wrong_kind end)
  end.
(** layers/onnx/q_linear_sigmoid.py:37-76; [sg] is _sigmoid (79-89) on doubles *)
Definition fo_sigmoid (sg : f64 -> f64) (b : fbody) : res (layer fval) :=
  do i <- py_index (fb_in b) 0; do o <- py_index (fb_in b) 1;
  Ok (fun v => match v with
               | GI m => Ok (GI (map (map (fun c => quantf1 u8 (fn_zp o) (fn_scale o) (sg (dequantf1 (fn_zp i) (fn_scale i) c)))) m))
               | GF _ => wrong_kind end).
(** layers/onnx/tanh.py:15-27; [th] is np.tanh on doubles *)
Definition fo_tanh (th : f64 -> f64) : res (layer fval) :=
  Ok (fun v => match v with GF m => Ok (GF (map (map th) m)) | GI _ => wrong_kind end).
(** layers/onnx/build_operator.py:31-55 with from_model of each class; tables as FloatEngineModel.fe_lut (layers/common/lut.py).
    Softmax (np.sum of exponentials, in numpy's pairwise order) is not modelled. *)
Definition fo_builders (sg th : f64 -> f64) (nan : Z) : builders fbody fval :=
  mkbuilders (fun _ _ => Err EValueError) (fun k b => match k with
    | OQuantize => fo_quantize b
    | ODequantize => fo_dequantize b
    | OAdd => fo_add nan b
    | OMatMul => fo_matmul nan b
    | OSigmoid => fo_sigmoid sg b
    | OSigmoidLUT | OTanhLUT => fe_lut b
    | OTanh => fo_tanh th
    | OSoftmax => Err ENotImplemented
    end).
(** loading a file and running a batch of doubles; to_int8 is only used by files that do not start with a QUANTIZE-like name *)
Definition fo_execute (sg th : f64 -> f64) (nan : Z) (j : jnet fbody) (batch : list (list f64)) : res fval :=
  do n <- seq_init (fo_builders sg th nan) j;
  snd (seq_infer (fun _ _ _ => Err ENotImplemented) n (GF batch)).
