(** Model of model_converters/tflite2json (itcl_tflite2json/__init__.py, _tflite2json.py, operators/BaseOperator.py,
    operators/TanhLUT.py, operators/SigmoidLUT.py, util/enum2str.py, settings.yaml) and of how the inference engine's
    TFLite layers read its output (layers/tflite/*.py, layers/common/{lut,relu}.py). *)
From Verif Require Import Base DtypeModel QuantModel LutModel FcModel EngineModel PipeModel.
Open Scope Z_scope.
Open Scope list_scope.
Notation str := chars_of (only parsing).

(** ** The flatbuffer, as far as the converter reads it *)
(** QuantizationParameters: an absent vector is None (the generated accessor then returns the int 0). *)
Record tquant := mktq { tq_scale : option (list Q); tq_zp : option (list Z) }.
(** Tensor; [tt_stored]: its buffer holds data; [tt_type]: the name of the type code, "?" if unknown (enum2str.py:6-24). *)
Record ttensor := mktt {
  tt_name : option chars; tt_shape : option (list Z); tt_type : chars; tt_stored : bool; tt_quant : option tquant }.
(** Operator; [to_code]: position in the operator code table, [to_fused]: the builtin options' fused activation. *)
Record toper := mkto { to_code : Z; to_in : list Z; to_out : list Z; to_fused : chars }.
(** Model with one subgraph; [tm_codes]: name of each builtin code, "?" if unknown (enum2str.py:28-46). *)
Record tmodel := mktm {
  tm_version : Z; tm_codes : list chars; tm_tensors : list ttensor; tm_ops : list toper;
  tm_inputs : list Z; tm_outputs : list Z }.
(** The interpreter: get_tensor_details() as (name, index) pairs, and the array of each index (a vector or a matrix of
    integers: quantized models; other arrays are outside the model). *)
Record tdata := mktd { td_shape : list Z; td_val : ptensor }.
Record tinterp := mkti { ti_details : list (chars * Z); ti_get : Z -> tdata }.

(** ** The exported JSON *)
Record tjnode := mktj {
  tj_scale : option Q; tj_zp : option Z; tj_shape : list Z; tj_dtype : chars; tj_name : chars;
  tj_tensor : option ptensor; tj_lut : option lut_json }.
Record tjbody := mktb { tb_in : list tjnode; tb_out : list tjnode; tb_desc : chars }.
Record tjnet := mktjn { tn_version : Z; tn_graph : list (jop tjbody); tn_operators : Z; tn_input : list tjnode; tn_output : list tjnode }.

(** __init__.py:22-24: a dict comprehension, the last entry of a name wins *)
Fixpoint name2idx (l : list (chars * Z)) (k : chars) : option Z :=
  match l with
  | [] => None
  | (n, i) :: r => match name2idx r k with Some j => Some j | None => if chars_eqb n k then Some i else None end
  end.

(** BaseOperator.py:101 [array or 0]: the truth value of an array of one element is that of the element, of an empty array
    False, of a longer one a ValueError; 0 stays 0.  None: not an array afterwards. *)
Definition array_or_0 {A} (zero : A -> bool) (v : option (list A)) : res (option A) :=
  match v with
  | None | Some [] => Ok None
  | Some [x] => Ok (if zero x then None else Some x)
  | Some (_ :: _ :: _) => Err EValueError
  end.
(** BaseOperator.py:97-109 *)
Definition node_quant (q : option tquant) : res (option Q * option Z) :=
  match q with
  | None => Ok (None, None)
  | Some q =>
      do s <- array_or_0 (fun x => Qeq_bool x 0) (tq_scale q);
      do z <- array_or_0 (Z.eqb 0) (tq_zp q);
      match s, z with
      | None, None => Ok (None, None)
      | _, _ => Ok (Some (match s with Some x => x | None => 0%Q end), Some (match z with Some x => x | None => 0 end))
      end
  end.
(** BaseOperator.py:64-119 build_from_node.  get_tensor("") raises TypeError; [0].tolist() of an absent shape vector
    AttributeError, as does decoding an absent name. *)
Definition build_from_node (it : tinterp) (t : ttensor) : res tjnode :=
  do n <- match tt_name t with None => Err EAttributeError | Some [] => Ok (str "?") | Some n => Ok n end;
  do d <- if tt_stored t
          then match name2idx (ti_details it) n with None => Err ETypeError | Some i => Ok (Some (ti_get it i)) end
          else Ok None;
  do sz <- node_quant (tt_quant t);
  do sh <- match d, tt_shape t with
           | Some d, _ => Ok (td_shape d)
           | None, Some s => Ok s
           | None, None => Err EAttributeError
           end;
  Ok (mktj (fst sz) (snd sz) sh (tt_type t) n (match d with Some d => Some (td_val d) | None => None end) None).

(** subgraph.Tensors(i), model.OperatorCodes(i): flatbuffers does not check bounds, so an index outside the table (such as -1 for an
    omitted bias) reads an unrelated part of the file; the model reports an error instead. *)
Definition fb_at {A} (l : list A) (i : Z) : res A :=
  if i <? 0 then Err EIndexError else match nth_error l (Z.to_nat i) with Some a => Ok a | None => Err EIndexError end.

(** BaseOperator.py:34-60 build *)
Definition base_build (it : tinterp) (m : tmodel) (op : toper) : res (jop tjbody) :=
  do ty <- fb_at (tm_codes m) (to_code op);
  do is <- mapM (fb_at (tm_tensors m)) (to_in op);
  do os <- mapM (fb_at (tm_tensors m)) (to_out op);
  do ji <- mapM (build_from_node it) is;
  do jo <- mapM (build_from_node it) os;
  Ok (mkjop ty ty (mktb ji jo ty)).

(** settings.yaml: lut_depth 3, min_removal 0.  TanhLUT.py:38-55, SigmoidLUT.py:52-72 __build_LUT *)
Definition build_lut (f : Q -> Q) (is : Q) (iz : Z) (os : Q) (oz : Z) : res lut_json :=
  let t := create_LUT i8 f is iz os oz None in
  if (length t =? 256)%nat then Ok (mklutj (Some t) (Some (serialize (mk_rlut t 3 0 false))) (Some 128)) else Err EAssertionError.
Definition set_lut (n : tjnode) (l : lut_json) : tjnode :=
  mktj (tj_scale n) (tj_zp n) (tj_shape n) (tj_dtype n) (tj_name n) (tj_tensor n) (Some l).
(** TanhLUT.py:18-36, SigmoidLUT.py:32-50 build *)
Definition lut_build (f : Q -> Q) (name : chars) (it : tinterp) (m : tmodel) (op : toper) : res (jop tjbody) :=
  do o <- base_build it m op;
  match tb_in (jo_body o), tb_out (jo_body o) with
  | i :: is, u :: us =>
      do l <- build_lut f (or_Q (tj_scale i) 1) (or_Z (tj_zp i) 0) (or_Q (tj_scale u) 1) (or_Z (tj_zp u) 0);
      Ok (mkjop name name (mktb (set_lut i l :: is) (u :: us) (tb_desc (jo_body o))))
  | _, _ => Err EIndexError
  end.
(** __init__.py:67-87 _build_from_operator; [tanh] and [sigmoid] are the float functions.  The FULLY_CONNECTED branch is
    disabled in the code. *)
Definition build_from_operator (tanh sigmoid : Q -> Q) (it : tinterp) (m : tmodel) (op : toper) : res (jop tjbody) :=
  do ty <- fb_at (tm_codes m) (to_code op);
  if chars_eqb ty (str "TANH") then lut_build tanh (str "TANHLUT") it m op
  else if chars_eqb ty (str "LOGISTIC") then lut_build sigmoid (str "SIGMOIDLUT") it m op
  else base_build it m op.
(** __init__.py:17-63 convert, up to writing the file *)
Definition convert (tanh sigmoid : Q -> Q) (it : tinterp) (m : tmodel) : res tjnet :=
  do i <- mapM (fun k => do t <- fb_at (tm_tensors m) k; build_from_node it t) (tm_inputs m);
  do o <- mapM (fun k => do t <- fb_at (tm_tensors m) k; build_from_node it t) (tm_outputs m);
  do g <- mapM (build_from_operator tanh sigmoid it m) (tm_ops m);
  Ok (mktjn (tm_version m) g (Z.of_nat (length (tm_ops m))) i o).

(** ** The inference engine on the converted file *)
(** layers/tflite/quantize.py:35-61; arithmetic with a null scale or zero point raises TypeError *)
Definition te_quantize (b : tjbody) : res (layer pval) :=
  do o <- py_index (tb_out b) 0;
  do q <- parse_dtype (tj_dtype o);
  Ok (fun v => match tj_scale o, tj_zp o with
               | Some s, Some z => Ok (VI (map (map (quant1 q z s)) (asF v)))
               | _, _ => Err ETypeError
               end).
(** layers/tflite/dequantize.py:38-65 *)
Definition te_dequantize (b : tjbody) : res (layer pval) :=
  do i <- py_index (tb_in b) 0;
  do q <- parse_dtype (tj_dtype i);
  Ok (fun v => match tj_scale i, tj_zp i with
               | Some s, Some z => Ok (VF (map (map (dequant1 z s)) (asI v)))
               | _, _ => Err ETypeError
               end).
(** layers/tflite/fullyconnected.py:126-169 *)
Definition te_fc (b : tjbody) : res (layer pval) :=
  do i <- py_index (tb_in b) 0; do k <- py_index (tb_in b) 1; do bi <- py_index (tb_in b) 2;
  do o <- py_index (tb_out b) 0;
  match tj_scale i, tj_zp i, tj_scale k, tj_zp k, tj_scale o, tj_zp o with
  | Some si, Some zi, Some sk, Some zk, Some so, Some zo =>
      match tj_tensor k, tj_tensor bi with
      | Some (PMat w), Some (PVec bv) =>
          do _ <- fc_mult_of si sk so;
          do q <- parse_dtype (tj_dtype o);
          do l <- fc_build si zi sk zk w bv so zo q;
          Ok (fun v => do t <- fc_infer l (T2 (asI v)); match t with T2 m => Ok (VI m) | _ => Err EAssertionError end)
      | _, _ => Err EValueError
      end
  | _, _, _, _, _, _ => Err ETypeError
  end.
(** layers/common/lut.py:23-68 *)
Definition te_lut (b : tjbody) : res (layer pval) :=
  do i <- py_index (tb_in b) 0;
  do a <- lut_from_node (tj_lut i);
  Ok (fun v => match concat (asI v) with
               | [] => Err EValueError
               | _ => do m <- mapM (mapM (fun x => lookup (la_table a) (x + la_offset a))) (asI v); Ok (VI m)
               end).
(** layers/common/relu.py:18-39 *)
Definition te_relu (b : tjbody) : res (layer pval) :=
  do i <- py_index (tb_in b) 0; do o <- py_index (tb_out b) 0;
  match tj_scale i, tj_zp i, tj_scale o, tj_zp o with
  | Some si, Some zi, Some so, Some zo =>
      if Qeq_bool so 0 then Err EZeroDivision
      else Ok (fun v => Ok (VI (map (map (relu_infer1 (mkrelu si zi so zo))) (asI v))))
  | _, _, _, _ => Err ETypeError
  end.
Definition te_builders : builders tjbody pval :=
  mkbuilders (fun k b => match k with
    | KQuantize => te_quantize b
    | KDequantize => te_dequantize b
    | KFullyConnected => te_fc b
    | KTanhLUT | KSigmoidLUT => te_lut b
    | KRelu => te_relu b
    | KSoftMax => do _ <- py_index (tb_in b) 0; Ok (fun v => Ok v)    (* softmax.py:24-29 *)
    | KTanh | KSigmoid | KLSTM => Err ENotImplemented     (* not produced by the converter (TANH, LOGISTIC) or not modelled here *)
    end) (fun _ _ => Err ENotImplemented).
Definition to_seq (j : tjnet) : jnet tjbody :=
  mkjnet (str "TFLITE") (tn_graph j) (map (fun n => Some (mkjnode (tj_scale n) (tj_zp n))) (tn_input j))
    (map (fun n => Some (mkjnode (tj_scale n) (tj_zp n))) (tn_output j)).
(** converting, loading and running one batch *)
Definition t_execute (tanh sigmoid : Q -> Q) (toi8 : pval -> Z -> Q -> res pval) (it : tinterp) (m : tmodel) (v : pval) : res pval :=
  do j <- convert tanh sigmoid it m;
  do n <- seq_init te_builders (to_seq j);
  snd (seq_infer toi8 n v).
