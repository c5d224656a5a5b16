(** The inference engine's dense operators with binary64 scales and activations, assembled by network/sequential.py (EngineModel.seq_init/seq_infer):
    PipeModel's engine half with every float operation rounded. *)
From Verif Require Import Base DtypeModel QuantModel LutModel FcModel EngineModel FloatModel FloatFcModel PipeModel.
Open Scope Z_scope.
Open Scope list_scope.

(** a JSON node: scale (a Python float), zero point, dtype, tensor, table *)
Record fnode := mkfn { fn_scale : f64; fn_zp : Z; fn_dtype : chars; fn_tensor : ptensor; fn_lut : option lut_json }.
Record fbody := mkfb { fb_in : list fnode; fb_out : list fnode }.
(** 2-D numpy arrays of float64 / of integers *)
Inductive fval := GF (m : list (list f64)) | GI (m : list (list Z)).

(** layers/tflite/quantize.py:35-61.  Simplification: integer input to QUANTIZE (it would be converted to float64) is not modelled. *)
Definition fe_quantize (b : fbody) : res (layer fval) :=
  do o <- py_index (fb_out b) 0;
  do q <- parse_dtype (fn_dtype o);
  Ok (fun v => match v with GF m => Ok (GI (map (map (quantf1 q (fn_zp o) (fn_scale o))) m)) | GI _ => Err ENotImplemented end).
(** layers/tflite/dequantize.py:38-65.  Float input to the integer operators below is not modelled. *)
Definition fe_dequantize (b : fbody) : res (layer fval) :=
  do i <- py_index (fb_in b) 0;
  do _ <- parse_dtype (fn_dtype i);
  Ok (fun v => match v with GI m => Ok (GF (map (map (dequantf1 (fn_zp i) (fn_scale i))) m)) | GF _ => Err ENotImplemented end).
(** layers/tflite/fullyconnected.py:126-169, as PipeModel.ie_fc *)
Definition fe_fc (b : fbody) : res (layer fval) :=
  do i <- py_index (fb_in b) 0; do k <- py_index (fb_in b) 1; do bi <- py_index (fb_in b) 2;
  do o <- py_index (fb_out b) 0;
  match fn_tensor k, fn_tensor bi with
  | PMat w, PVec bv =>
      do _ <- fc_mult_build_f (fn_scale i) (fn_scale k) (fn_scale o);
      do q <- parse_dtype (fn_dtype o);
      do l <- fc_build_f (fn_scale i) (fn_zp i) (fn_scale k) (fn_zp k) w bv (fn_scale o) (fn_zp o) q;
      Ok (fun v => match v with
                   | GI m => do t <- fc_infer l (T2 m); match t with T2 m' => Ok (GI m') | _ => Err EAssertionError end
                   | GF _ => Err ENotImplemented end)
  | _, _ => Err EValueError
  end.
(** layers/common/lut.py:41-68, as PipeModel.ie_lut *)
Definition fe_lut (b : fbody) : res (layer fval) :=
  do i <- py_index (fb_in b) 0;
  do a <- lut_from_node (fn_lut i);
  Ok (fun v => match v with
               | GI m => match concat m with
                         | [] => Err EValueError
                         | _ => do m' <- mapM (mapM (fun x => lookup (la_table a) (x + la_offset a))) m; Ok (GI m')
                         end
               | GF _ => Err ENotImplemented end).
(** layers/tflite/build_layer.py:18-43; the other layers are outside this file *)
Definition fe_builders : builders fbody fval :=
  mkbuilders (fun k b => match k with
    | KQuantize => fe_quantize b
    | KDequantize => fe_dequantize b
    | KFullyConnected => fe_fc b
    | KTanhLUT | KSigmoidLUT => fe_lut b
    | KSoftMax => do _ <- py_index (fb_in b) 0; Ok (fun v => Ok v)
    | _ => Err ENotImplemented
    end) (fun _ _ => Err ENotImplemented).
(** loading a file and running a batch; to_int8 is only used by files that do not start with QUANTIZE *)
Definition fe_execute (j : jnet fbody) (batch : list (list f64)) : res fval :=
  do n <- seq_init fe_builders j;
  snd (seq_infer (fun _ _ _ => Err ENotImplemented) n (GF batch)).
