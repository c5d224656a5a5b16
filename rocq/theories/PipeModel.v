(** Numeric model of the whole TFLite-style pipeline on dense networks: keras_builder.py's calibration and export, and the
    inference engine's loading and batch inference of the exported file.
    quantizer/itcl_quantizer/tensor_extractor/keras/keras_builder.py, layers/keras_input.py, layers/keras_dense.py,
    layers/activations.py, layers/dequantize.py, tensor_extractor/tensor.py, util/network.py;
    inference_engine/itcl_inference_engine/layers/tflite/{quantize,dequantize,fullyconnected,softmax}.py, layers/common/lut.py.
    BuildModel has the same graph without numbers (and LSTM layers); here the arrays are included.
    Floats are exact rationals; arrays are 2-D batches (lists of rows); an activation is an elementwise function.
    The equalizer and AdaRound passes (keras_builder.py:88-99) are not part of this file (see NodeModel, OptModel, EqModel). *)
From Verif Require Import Base DtypeModel QuantModel LutModel FcModel EngineModel DistModel BuildModel.
From Verif Require NodeModel.
From Coq Require Import Qminmax.
Open Scope Z_scope.
Open Scope list_scope.

(** ** Keras layers *)
(** keras.layers.Dense: get_weights() is [kernel] or [kernel, bias], kernel of shape (inputs, units) *)
Record kdense := mkkd {
  kd_name : chars; kd_units : nat; kd_kernel : list (list Q); kd_bias : option (list Q);
  kd_act : chars;      (* activation.__name__ *)
  kd_fn : Q -> Q }.    (* the activation, elementwise *)
Inductive plyr := PDense (l : kdense) | PSkip.   (* Dropout and InputLayer produce nothing *)

(** np.transpose of a matrix with n columns *)
Definition transpose (n : nat) (m : list (list Q)) : list (list Q) :=
  map (fun j => map (fun r => nth j r 0%Q) m) (seq 0 n).
(** keras_dense.py:95-100 *)
Definition kd_w (l : kdense) : list (list Q) := transpose (kd_units l) (kd_kernel l).
Definition kd_b (l : kdense) : list Q :=
  match kd_bias l with Some b => b | None => repeat 0%Q (length (kd_w l)) end.

(** sum of products of two vectors *)
Definition dotQ (a b : list Q) : Q := sumQ (map2 Qmult a b).
(** keras_dense.py:253-255: the layer without its activation, on one row: x @ kernel + bias *)
Definition preact (l : kdense) (x : list Q) : list Q := map2 (fun w b => dotQ x w + b)%Q (kd_w l) (kd_b l).

(** ** Exported nodes *)
Inductive ptensor := PNone | PVec (v : list Z) | PMat (m : list (list Z)).
(** tensor.py:326-335, 494-522: every node of a dense network carries a tensor entry; scale and zero point are never null *)
Record pnode := mkpn {
  pn_scale : Q; pn_zp : Z; pn_dtype : chars; pn_shape : list nat; pn_tensor : ptensor; pn_lut : option lut_json }.
Record pbody := mkpb { pb_in : list pnode; pb_out : list pnode }.

(** distribution.py:23-45 with the default arguments *)
Definition calibrate (a : list Q) : res dist := mk_dist a 512 true.
(** number of columns of a batch *)
Definition width {A} (m : list (list A)) : nat := length (hd [] m).

(** keras_input.py:18-37 *)
Definition pipe_input (dtype : chars) (data : list (list Q)) : res (jop pbody * pnode) :=
  do q <- parse_dtype dtype;
  do d <- calibrate (concat data);
  do sz <- dist_quantize d q None None false;
  let n := mkpn (fst sz) (snd sz) (grepr q) [width data] PNone None in
  Ok (mkjop (str "QUANTIZE") (str "QUANTIZE") (mkpb [] [n]), n).

(** np.clip *)
Definition clipQ (lo hi x : Q) : Q := Qmin (Qmax x lo) hi.
(** keras_dense.py:153-184 __quantize_kernel; the base optimizer's trim (optimizers/MinMaxOptimizer) is the identity *)
Definition quant_kernel (q : gdtype) (sym : bool) (w : list (list Q)) : res pnode :=
  do d <- calibrate (concat w);
  do sz <- dist_quantize d q (Some 0) None sym;
  do lo <- get_min d; do hi <- get_max d;
  Ok (mkpn (fst sz) (snd sz) (grepr q) [length w; width w]
        (PMat (map (map (fun x => quant1 q (snd sz) (fst sz) (clipQ lo hi x))) w)) None).
(** keras_dense.py:186-221 *)
Definition quant_bias (q : gdtype) (si sk : Q) (b : list Q) : pnode :=
  let s := (si * sk)%Q in mkpn s 0 (grepr q) [length b] (PVec (map (quant1 q 0 s) b)) None.
(** keras_dense.py:39-55, 112-117 *)
Definition fused_of (act : chars) : fused :=
  if chars_eqb (upper act) (str "RELU") then FRelu
  else if chars_eqb (upper act) (str "RELU6") then FRelu6 else FNone.
(** keras_dense.py:223-265: the shape exported for this node is the one of the layer's float INPUT *)
Definition quant_bias_add (q : gdtype) (act : chars) (data out : list (list Q)) : res pnode :=
  do d <- calibrate (concat out);
  do d' <- fused_trim (fused_of act) d;
  do sz <- dist_quantize d' q None None false;
  Ok (mkpn (fst sz) (snd sz) (grepr q) [width data] PNone None).
(** tensor.py:30-75, 159-171, 284-311: with_lut on a node; the table is built with the NODE's dtype *)
Definition attach_lut (n : pnode) (q : gdtype) (f : Q -> Q) (os : Q) (oz : Z) : pnode :=
  let l := NodeModel.lut_new q f (pn_scale n) (pn_zp n) os oz in
  mkpn (pn_scale n) (pn_zp n) (pn_dtype n) (pn_shape n) (pn_tensor n)
    (Some (mklutj (Some (NodeModel.l_table l)) None (Some (NodeModel.lut_offset l)))).
(** activations.py:32-95.  Result: the bias-add node (with its table, if any), the operator and output node (if any), and the
    data handed to the next layer. Skipped activations hand on the data they were given. *)
Definition quant_activation (l : kdense) (qa qba : gdtype) (ba : pnode) (out : list (list Q))
  : res (pnode * option (jop pbody * pnode) * list (list Q)) :=
  let u := upper (kd_act l) in
  if mem u SKIP_FUNCTIONS then Ok (ba, None, out)
  else
    let act := map (map (kd_fn l)) out in
    do d <- calibrate (concat act);
    do sz <- dist_quantize d qa None None false;
    let islut := mem u LUT_FUNCTIONS in
    let n := if islut then u ++ str "LUT" else u in
    let ba' := if islut then attach_lut ba qba (kd_fn l) (fst sz) (snd sz) else ba in
    let o := mkpn (fst sz) (snd sz) (grepr qa) [width act] PNone None in
    Ok (ba', Some (mkjop n n (mkpb [ba'] [o]), o), act).

(** keras_dense.py:84-121 and 288-379; keras_builder.py:111-123.  [inp] is the previous layer's output node, [data] its float data. *)
Definition pipe_dense (c : layercfg) (l : kdense) (inp : pnode) (data : list (list Q))
  : res (list (jop pbody) * pnode * list (list Q)) :=
  match c with
  | CDense d =>
      do qk <- parse_dtype (d_kernel d); do qa <- parse_dtype (d_act d);
      do qba <- parse_dtype (d_bias_add d); do qb <- parse_dtype (d_bias d);
      do k <- quant_kernel qk (d_sym d) (kd_w l);
      let b := quant_bias qb (pn_scale inp) (pn_scale k) (kd_b l) in
      let out := map (preact l) data in
      do ba <- quant_bias_add qba (kd_act l) data out;
      match d_opt d with
      | Some _ => Err ENotImplemented
      | None =>
          do r <- quant_activation l qa qba ba out;
          let '(ba', act, data') := r in
          let fc := mkjop (str "FULLY_CONNECTED") (str "fully_connected " ++ kd_name l) (mkpb [inp; k; b] [ba']) in
          Ok (match act with
              | None => ([fc], ba', data')
              | Some (op, o) => ([fc; op], o, data')
              end)
      end
  | _ => Err EAttributeError
  end.

(** keras_builder.py:48-56: operators of the layers in order, then the last output node *)
Fixpoint pipe_layers (c : qcfg) (ls : list plyr) (inp : pnode) (data : list (list Q)) : res (list (jop pbody) * pnode) :=
  match ls with
  | [] => Ok ([], inp)
  | PSkip :: r => pipe_layers c r inp data
  | PDense l :: r =>
      do x <- pipe_dense (layer_cfg c (kd_name l)) l inp data;
      let '(ops, out, data') := x in
      do y <- pipe_layers c r out data';
      Ok (ops ++ fst y, snd y)
  end.
(** keras_builder.py:28-61 with dequantize.py:23-42 and network.py:57-94 *)
Definition pipe_build (c : qcfg) (ls : list plyr) (data : list (list Q)) : res (jnet pbody) :=
  do i <- pipe_input (c_quantize c) data;
  do r <- pipe_layers c ls (snd i) data;
  Ok (mkjnet (str "tflite")
        (fst i :: fst r ++ [mkjop (str "DEQUANTIZE") (str "DEQUANTIZE") (mkpb [snd r] [])])
        [Some (mkjnode None None)] [Some (mkjnode None None)]).

(** ** The inference engine on the exported file *)
(** 2-D numpy arrays of floats / of integers *)
Inductive pval := VF (m : list (list Q)) | VI (m : list (list Z)).
Definition asF (v : pval) : list (list Q) := match v with VF m => m | VI m => map (map inject_Z) m end.
Definition asI (v : pval) : list (list Z) := match v with VF m => map (map Qtrunc) m | VI m => m end.

(** layers/tflite/quantize.py:35-61 *)
Definition ie_quantize (b : pbody) : res (layer pval) :=
  do o <- py_index (pb_out b) 0;
  do q <- parse_dtype (pn_dtype o);
  Ok (fun v => Ok (VI (map (map (quant1 q (pn_zp o) (pn_scale o))) (asF v)))).
(** layers/tflite/dequantize.py:38-65 *)
Definition ie_dequantize (b : pbody) : res (layer pval) :=
  do i <- py_index (pb_in b) 0;
  do q <- parse_dtype (pn_dtype i);
  Ok (fun v => Ok (VF (map (map (dequant1 (pn_zp i) (pn_scale i))) (asI v)))).
(** layers/tflite/fullyconnected.py:126-169; [x or []] of a missing tensor is an empty array.  A kernel that is not a matrix or a
    bias that is not a vector does not occur in exported files and is reported as ValueError. *)
Definition ie_fc (b : pbody) : res (layer pval) :=
  do i <- py_index (pb_in b) 0; do k <- py_index (pb_in b) 1; do bi <- py_index (pb_in b) 2;
  do o <- py_index (pb_out b) 0;
  match pn_tensor k, pn_tensor bi with
  | PMat w, PVec bv =>
      (* the multiplier is built before the output dtype is parsed (fullyconnected.py:111-124, 66-79) *)
      do _ <- fc_mult_of (pn_scale i) (pn_scale k) (pn_scale o);
      do q <- parse_dtype (pn_dtype o);
      do l <- fc_build (pn_scale i) (pn_zp i) (pn_scale k) (pn_zp k) w bv (pn_scale o) (pn_zp o) q;
      Ok (fun v => do t <- fc_infer l (T2 (asI v)); match t with T2 m => Ok (VI m) | _ => Err EAssertionError end)
  | _, _ => Err EValueError
  end.
(** layers/common/lut.py:41-68 on a batch; np.vectorize raises ValueError on size 0 *)
Definition ie_lut (b : pbody) : res (layer pval) :=
  do i <- py_index (pb_in b) 0;
  do a <- lut_from_node (pn_lut i);
  Ok (fun v => match concat (asI v) with
               | [] => Err EValueError
               | _ => do m <- mapM (mapM (fun x => lookup (la_table a) (x + la_offset a))) (asI v); Ok (VI m)
               end).
(** layers/tflite/softmax.py:28-32 *)
Definition ie_softmax (b : pbody) : res (layer pval) :=
  do _ <- py_index (pb_in b) 0; Ok (fun v => Ok v).
(** layers/tflite/build_layer.py:18-43.  The float activations TANH and LOGISTIC, ReLU and LSTM operators are never exported for
    dense networks by this pipeline and are outside this file (EngineModel, LstmModel); ONNX files likewise. *)
Definition ie_builders : builders pbody pval :=
  mkbuilders (fun k b => match k with
    | KQuantize => ie_quantize b
    | KDequantize => ie_dequantize b
    | KFullyConnected => ie_fc b
    | KTanhLUT | KSigmoidLUT => ie_lut b
    | KSoftMax => ie_softmax b
    | _ => Err ENotImplemented
    end) (fun _ _ => Err ENotImplemented).
Definition pipe_load (j : jnet pbody) : res (seqnet pval) := seq_init ie_builders j.
(** util/quantization.py to_int8 is only used for networks that do not start with a QUANTIZE operator *)
Definition no_toi8 (v : pval) (z : Z) (s : Q) : res pval := Err ENotImplemented.
Definition pipe_infer (n : seqnet pval) (batch : list (list Q)) : res pval := snd (seq_infer no_toi8 n (VF batch)).
