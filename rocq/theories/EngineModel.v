(** Model of the inference engine around the fully connected layer
    (inference_engine/itcl_inference_engine):
    layers/common/lut.py, layers/common/relu.py, layers/tflite/{quantize,dequantize,tanh,logistic,softmax}.py,
    util/check_layer_type.py, layers/tflite/build_layer.py, layers/onnx/build_operator.py,
    network/sequential.py. *)
From Verif Require Import Base DtypeModel QuantModel LutModel.
Open Scope Z_scope.
Open Scope list_scope.

(** ** layers/common/lut.py *)
(** The table object: a plain list or a ReducedLUT (lut.py:15). *)
Inductive table := Full (l : list Z) | Reduced (r : rlut).
Definition lookup (t : table) (i : Z) : res Z :=
  match t with Full l => py_index l i | Reduced r => getitem r i end.

(** The JSON "LUT" entry of a node; absent keys and null are both None. *)
Record lut_json := mklutj { lj_table : option (list Z); lj_reduced : option rlut_json; lj_offset : option Z }.

Record lutact := mkact { la_table : table; la_offset : Z }.

(** lut.py:23-39 from_node. [node["LUT"]] None: ValueError. *)
Definition lut_from_node (j : option lut_json) : res lutact :=
  match j with
  | None => Err EValueError
  | Some j =>
      let t := match lj_reduced j with
               | Some r => Reduced (deserialize r)
               | None => Full (match lj_table j with Some l => l | None => [] end)
               end in
      Ok (mkact t (match lj_offset j with Some o => o | None => 0 end))
  end.

(** lut.py:59-68 infer, on the flattened input: np.vectorize raises ValueError on size 0. *)
Definition lut_infer (a : lutact) (xs : list Z) : res (list Z) :=
  match xs with
  | [] => Err EValueError
  | _ => mapM (fun x => lookup (la_table a) (x + la_offset a)) xs
  end.

(** ** layers/common/relu.py:7-39 *)
Record relu := mkrelu { re_in_s : Q; re_in_zp : Z; re_out_s : Q; re_out_zp : Z }.
(** lines 35-37 on one element: int16 cast, clip below at in_zp, rescale in float, cast to int8
    (truncate toward zero, then wrap: x86-64/numpy behaviour). *)
Definition relu_infer1 (r : relu) (x : Z) : Z :=
  let y := Z.max (wrap_s 16 x) (re_in_zp r) in
  let k := (re_in_s r / re_out_s r)%Q in
  wrap_s 8 (Qtrunc (inject_Z (re_out_zp r) + k * (inject_Z (y - re_out_zp r)))).

(** ** layers/tflite/tanh.py:62-73 and logistic.py:60-72, on one element; the float activation
    [f] is a parameter (np.tanh / keras sigmoid). *)
Definition i8 : gdtype := {| gmin := -128; gmax := 127; grepr := chars_of "int8" |}.
Definition tanh_infer1 (f : Q -> Q) (in_s : Q) (in_zp x : Z) : Z :=
  quant1 i8 0 (1 # 128) (f (dequant1 in_zp in_s x)).
Definition logistic_infer1 (f : Q -> Q) (in_s : Q) (in_zp x : Z) : Z :=
  quant1 i8 (-128) (1 # 256) (f (dequant1 in_zp in_s x)).

(** ** util/check_layer_type.py and layers/tflite/build_layer.py *)
(** Python's [p in s] *)
Fixpoint prefix_of (p s : chars) : bool :=
  match p, s with
  | [], _ => true
  | a :: p', b :: s' => Ascii.eqb a b && prefix_of p' s'
  | _, [] => false
  end.
Fixpoint contains (p s : chars) : bool :=
  prefix_of p s || match s with [] => false | _ :: r => contains p r end.

Inductive kind := KTanh | KTanhLUT | KFullyConnected | KSigmoid | KSigmoidLUT | KSoftMax
                | KQuantize | KDequantize | KRelu | KLSTM.

(** build_layer.py:18-43 with check_layer_type.py:3-40 *)
Definition build_layer_kind (op : chars) : res kind :=
  let u := upper op in
  if chars_eqb u (chars_of "TANH") then Ok KTanh
  else if chars_eqb u (chars_of "TANHLUT") then Ok KTanhLUT
  else if contains (chars_of "FULLY_CONN") u then Ok KFullyConnected
  else if contains (chars_of "LOGISTIC") u then Ok KSigmoid
  else if contains (chars_of "SIGMOIDLUT") u then Ok KSigmoidLUT
  else if contains (chars_of "SOFTMAX") u then Ok KSoftMax
  else if chars_eqb u (chars_of "QUANTIZE") then Ok KQuantize
  else if contains (chars_of "DEQUANTIZE") u then Ok KDequantize
  else if chars_eqb u (chars_of "RELU") then Ok KRelu
  else if chars_eqb u (chars_of "LSTM") then Ok KLSTM
  else Err EValueError.

(** layers/onnx/build_operator.py:31-55: exact names *)
Inductive okind := OAdd | OMatMul | OQuantize | OSigmoid | OSigmoidLUT | ODequantize | OSoftmax | OTanh | OTanhLUT.
Definition build_operator_kind (op : chars) : res okind :=
  if chars_eqb op (chars_of "QLinearAdd") then Ok OAdd
  else if chars_eqb op (chars_of "QLinearMatMul") then Ok OMatMul
  else if chars_eqb op (chars_of "QuantizeLinear") then Ok OQuantize
  else if chars_eqb op (chars_of "QLinearSigmoid") then Ok OSigmoid
  else if chars_eqb op (chars_of "SigmoidLUT") then Ok OSigmoidLUT
  else if chars_eqb op (chars_of "DequantizeLinear") then Ok ODequantize
  else if chars_eqb op (chars_of "Softmax") then Ok OSoftmax
  else if chars_eqb op (chars_of "Tanh") then Ok OTanh
  else if chars_eqb op (chars_of "TanhLUT") then Ok OTanhLUT
  else Err EValueError.

(** ** network/sequential.py *)
(** The JSON network: [O] is the operator payload (nodes, tensors), kept abstract; scale and zero
    point of the first input/output node. *)
Record jop (O : Type) := mkjop { jo_type : chars; jo_name : chars; jo_body : O }.
Arguments mkjop {O}. Arguments jo_type {O}. Arguments jo_name {O}. Arguments jo_body {O}.
Record jnode := mkjnode { jn_scale : option Q; jn_zp : option Z }.
Record jnet (O : Type) := mkjnet {
  jt_engine : chars; jt_graph : list (jop O); jt_input : list (option jnode); jt_output : list (option jnode) }.
Arguments mkjnet {O}. Arguments jt_engine {O}. Arguments jt_graph {O}. Arguments jt_input {O}. Arguments jt_output {O}.

(** A layer is its [infer] function on values [V]; [from_model] of each class is a parameter. *)
Definition layer (V : Type) := V -> res V.
Record builders (O V : Type) := mkbuilders {
  b_tflite : kind -> O -> res (layer V);
  b_onnx : okind -> O -> res (layer V) }.
Arguments mkbuilders {O V}. Arguments b_tflite {O V}. Arguments b_onnx {O V}.

Definition build_layer {O V} (b : builders O V) (op : jop O) : res (layer V) :=
  do k <- build_layer_kind (jo_type op); b_tflite b k (jo_body op).
Definition build_operator {O V} (b : builders O V) (op : jop O) : res (layer V) :=
  do k <- build_operator_kind (jo_type op); b_onnx b k (jo_body op).

(** sequential.py:116-124 get_engine *)
Definition get_engine {O V} (b : builders O V) (engine : chars) : res (jop O -> res (layer V)) :=
  let u := upper engine in
  if chars_eqb u (chars_of "TFLITE") then Ok (build_layer b)
  else if chars_eqb u (chars_of "ONNX") then Ok (build_operator b)
  else Err EValueError.

(** The network object; [sn_inter] is _intermediate_results, the only mutable attribute. *)
Record seqnet (V : Type) := mkseq {
  sn_quant : bool; sn_in_s : option Q; sn_in_zp : option Z; sn_layers : list (layer V); sn_inter : list V }.
Arguments mkseq {V}. Arguments sn_quant {V}. Arguments sn_in_s {V}. Arguments sn_in_zp {V}.
Arguments sn_layers {V}. Arguments sn_inter {V}.

(** sequential.py:43-71, 126-141 *)
Definition seq_init {O V} (b : builders O V) (net : jnet O) : res (seqnet V) :=
  do inp <- py_index (jt_input net) 0;
  do out <- py_index (jt_output net) 0;
  match inp, out with
  | Some i, Some _ =>
      do g0 <- py_index (jt_graph net) 0;
      let hq := contains (chars_of "QUANT") (upper (jo_name g0)) in
      do build <- get_engine b (jt_engine net);
      do ls <- mapM build (jt_graph net);
      Ok (mkseq hq (jn_scale i) (jn_zp i) ls [])
  | _, _ => Err EValueError
  end.

(** [a or d] for numbers: None and 0 give d. *)
Definition or_Z (a : option Z) (d : Z) : Z := match a with Some z => if z =? 0 then d else z | None => d end.
Definition or_Q (a : option Q) (d : Q) : Q := match a with Some q => if Qeq_bool q 0 then d else q | None => d end.

(** sequential.py:104-109: the loop, with the results appended so far. *)
Fixpoint run_layers {V} (ls : list (layer V)) (x : V) (inter : list V) : list V * res V :=
  match ls with
  | [] => (inter, Ok x)
  | l :: r => match l x with
              | Ok y => run_layers r y (inter ++ [y])
              | Err e => (inter, Err e)
              end
  end.
(** sequential.py:80-114 infer: new object state and result. [toi8] is to_int8 on V. *)
Definition seq_infer {V} (toi8 : V -> Z -> Q -> res V) (n : seqnet V) (x : V) : seqnet V * res V :=
  let with_inter i := mkseq (sn_quant n) (sn_in_s n) (sn_in_zp n) (sn_layers n) i in
  let start := if sn_quant n then Ok x else toi8 x (or_Z (sn_in_zp n) 0) (or_Q (sn_in_s n) 1) in
  match start with
  | Err e => (with_inter [], Err e)
  | Ok x0 => let '(i, r) := run_layers (sn_layers n) x0 [] in (with_inter i, r)
  end.

(** A history of calls on one object. *)
Fixpoint run_calls {V} (toi8 : V -> Z -> Q -> res V) (n : seqnet V) (xs : list V) : seqnet V * list (res V) :=
  match xs with
  | [] => (n, [])
  | x :: r => let '(n', y) := seq_infer toi8 n x in
              let '(n'', ys) := run_calls toi8 n' r in (n'', y :: ys)
  end.
