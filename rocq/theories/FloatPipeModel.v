(** The dense pipeline of PipeModel.v in floating point: keras_builder.py's calibration and export with every float operation of the
    quantizer rounded; FloatEngineModel.v runs the file.
    quantizer/itcl_quantizer/tensor_extractor/keras/keras_builder.py, layers/keras_input.py, layers/keras_dense.py,
    layers/activations.py, layers/dequantize.py, tensor_extractor/tensor.py, util/network.py.
    Simplifications: data, kernels and biases are float64 arrays (rationals that the theorems require to be doubles), so
    elementwise operations on arrays are binary64; the reported minimum and maximum of a tensor are exact (they are
    when it holds two different values: np.histogram's outer edges; a fused ReLU
    cuts at a bin edge, an exact rational here: the theorems require it to be a number of both formats); the calibration arithmetic is rounded in two arbitrary
    IEEE formats, as in FloatDistModel.v; Keras's own forward pass is an arbitrary function. *)
From Verif Require Import Base DtypeModel QuantModel LutModel FcModel EngineModel DistModel BuildModel PipeModel
  FloatModel FloatDistModel FloatEngineModel.
Open Scope Z_scope.
Open Scope list_scope.

(** A Keras dense layer: [fd_layer] its weights and names, with the real function its activation stands for; [fd_g] the activation
    in doubles (numpy calls it on the table's arguments); [fd_pre], [fd_post]: what Keras computes on a batch for the layer
    without activation (keras_dense.py:253-255) and for the activation (activations.py:56). *)
Record fdense := mkfd {
  fd_layer : kdense; fd_g : f64 -> f64;
  fd_pre : list (list Q) -> list (list Q); fd_post : list (list Q) -> list (list Q) }.
Inductive flyr := FDense (l : fdense) | FSkip.

(** distribution.py:121-171 on the reported range *)
Definition quantize_range (f1 f2 : fmt) (d : dist) (q : gdtype) (force_zp : option Z) (sym : bool) : res (Q * Z) :=
  do lo <- get_min d; do hi <- get_max d;
  dist_quantize_f f1 f2 lo hi q force_zp None sym.
(** a node with a (float64) scale *)
Definition fnode_of (sz : Q * Z) (q : gdtype) (t : ptensor) : fnode := mkfn (Fin (fst sz)) (snd sz) (grepr q) t None.

(** keras_input.py:18-37 *)
Definition fpipe_input (f1 f2 : fmt) (dtype : chars) (data : list (list Q)) : res (jop fbody * fnode) :=
  do q <- parse_dtype dtype;
  do d <- calibrate (concat data);
  do sz <- quantize_range f1 f2 d q None false;
  let n := fnode_of sz q PNone in
  Ok (mkjop (str "QUANTIZE") (str "QUANTIZE") (mkfb [] [n]), n).
(** keras_dense.py:153-184 __quantize_kernel *)
Definition fquant_kernel (f1 f2 : fmt) (q : gdtype) (sym : bool) (w : list (list Q)) : res fnode :=
  do d <- calibrate (concat w);
  do sz <- quantize_range f1 f2 d q (Some 0) sym;
  do lo <- get_min d; do hi <- get_max d;
  Ok (fnode_of sz q (PMat (map (map (fun x => quantf1 q (snd sz) (Fin (fst sz)) (Fin (clipQ lo hi x)))) w))).
(** keras_dense.py:186-221: the bias scale is the rounded product *)
Definition fquant_bias (q : gdtype) (si sk : f64) (b : list Q) : fnode :=
  let s := fmul si sk in mkfn s 0 (grepr q) (PVec (map (fun x => quantf1 q 0 s (Fin x)) b)) None.
(** keras_dense.py:223-265 *)
Definition fquant_bias_add (f1 f2 : fmt) (q : gdtype) (act : chars) (out : list (list Q)) : res fnode :=
  do d <- calibrate (concat out);
  do d' <- fused_trim (fused_of act) d;
  do sz <- quantize_range f1 f2 d' q None false;
  Ok (fnode_of sz q PNone).
(** tensor.py:30-75, 159-171, 284-311 *)
Definition fattach_lut (n : fnode) (q : gdtype) (g : f64 -> f64) (os : f64) (oz : Z) : fnode :=
  mkfn (fn_scale n) (fn_zp n) (fn_dtype n) (fn_tensor n)
    (Some (mklutj (Some (node_lut_f q g (fn_scale n) (fn_zp n) os oz)) None (Some (- gmin q)))).
(** activations.py:32-95 *)
Definition fquant_activation (f1 f2 : fmt) (l : fdense) (qa qba : gdtype) (ba : fnode) (out : list (list Q))
  : res (fnode * option (jop fbody * fnode) * list (list Q)) :=
  let u := upper (kd_act (fd_layer l)) in
  if mem u SKIP_FUNCTIONS then Ok (ba, None, out)
  else
    let act := fd_post l out in
    do d <- calibrate (concat act);
    do sz <- quantize_range f1 f2 d qa None false;
    let islut := mem u LUT_FUNCTIONS in
    let n := if islut then u ++ str "LUT" else u in
    let ba' := if islut then fattach_lut ba qba (fd_g l) (Fin (fst sz)) (snd sz) else ba in
    let o := fnode_of sz qa PNone in
    Ok (ba', Some (mkjop n n (mkfb [ba'] [o]), o), act).
(** keras_dense.py:84-121 and 288-379; keras_builder.py:111-123 *)
Definition fpipe_dense (f1 f2 : fmt) (c : layercfg) (l : fdense) (inp : fnode) (data : list (list Q))
  : res (list (jop fbody) * fnode * list (list Q)) :=
  match c with
  | CDense d =>
      do qk <- parse_dtype (d_kernel d); do qa <- parse_dtype (d_act d);
      do qba <- parse_dtype (d_bias_add d); do qb <- parse_dtype (d_bias d);
      do k <- fquant_kernel f1 f2 qk (d_sym d) (kd_w (fd_layer l));
      let b := fquant_bias qb (fn_scale inp) (fn_scale k) (kd_b (fd_layer l)) in
      let out := fd_pre l data in
      do ba <- fquant_bias_add f1 f2 qba (kd_act (fd_layer l)) out;
      match d_opt d with
      | Some _ => Err ENotImplemented
      | None =>
          do r <- fquant_activation f1 f2 l qa qba ba out;
          let '(ba', act, data') := r in
          let fc := mkjop (str "FULLY_CONNECTED") (str "fully_connected " ++ kd_name (fd_layer l)) (mkfb [inp; k; b] [ba']) in
          Ok (match act with
              | None => ([fc], ba', data')
              | Some (op, o) => ([fc; op], o, data')
              end)
      end
  | _ => Err EAttributeError
  end.
(** keras_builder.py:48-56 *)
Fixpoint fpipe_layers (f1 f2 : fmt) (c : qcfg) (ls : list flyr) (inp : fnode) (data : list (list Q)) : res (list (jop fbody) * fnode) :=
  match ls with
  | [] => Ok ([], inp)
  | FSkip :: r => fpipe_layers f1 f2 c r inp data
  | FDense l :: r =>
      do x <- fpipe_dense f1 f2 (layer_cfg c (kd_name (fd_layer l))) l inp data;
      let '(ops, out, data') := x in
      do y <- fpipe_layers f1 f2 c r out data';
      Ok (ops ++ fst y, snd y)
  end.
(** keras_builder.py:28-61 with dequantize.py:23-42 and network.py:57-94 *)
Definition fpipe_build (f1 f2 : fmt) (c : qcfg) (ls : list flyr) (data : list (list Q)) : res (jnet fbody) :=
  do i <- fpipe_input f1 f2 (c_quantize c) data;
  do r <- fpipe_layers f1 f2 c ls (snd i) data;
  Ok (mkjnet (str "tflite")
        (fst i :: fst r ++ [mkjop (str "DEQUANTIZE") (str "DEQUANTIZE") (mkfb [snd r] [])])
        [Some (mkjnode None None)] [Some (mkjnode None None)]).
