(** Model of the quantizer's configuration and network builder:
    quantizer/itcl_quantizer/config/models/keras.py, tensor_extractor/keras/keras_builder.py,
    tensor_extractor/keras/utils.py, the operator lists produced by keras_input.py, keras_dense.py, keras_lstm.py,
    dequantize.py and activations.py, util/network.py; and of model_converters/keras2json/_convert.py.
    Numbers (tensors, scales) are left out here: nodes are object numbers, NodeModel and FcModel treat their contents. *)
From Verif Require Import Base DtypeModel EngineModel.
Open Scope Z_scope.
Open Scope list_scope.
Notation str := chars_of (only parsing).

(** ** config/models/keras.py *)
(** lines 37-72: the three optimizer configurations *)
Inductive optcfg :=
| OAnnealer (t_min t_max : Q) (updates steps max_retries : Z)
| OQubo
| OMinima (max_retries : Z).
(** what an optimizer entry in a JSON/YAML file can contain: the keys of the three classes *)
Record optdict := mkod {
  od_optimizer : option chars; od_t_min : option Q; od_t_max : option Q;
  od_updates : option Z; od_steps : option Z; od_max_retries : option Z }.
Definition dflt {A} (o : option A) (d : A) : A := match o with Some a => a | None => d end.
(** line 72: a pydantic union tries RoundingMinimaCfg, RoundingAnnealerCfg, RoundingQUBOCfg in that order; unknown keys are
    ignored, so only the Literal field "optimizer" can reject.  ValidationError is a ValueError. *)
Definition parse_opt (o : optdict) : res optcfg :=
  let accepts s := match od_optimizer o with None => true | Some c => chars_eqb c s end in
  if accepts (str "base") then Ok (OMinima (dflt (od_max_retries o) 100))
  else if accepts (str "annealer") then
    Ok (OAnnealer (dflt (od_t_min o) (1#10)%Q) (dflt (od_t_max o) 25000%Q) (dflt (od_updates o) 100) (dflt (od_steps o) 5000) (dflt (od_max_retries o) 100))
  else if accepts (str "qubo") then Ok OQubo
  else Err EValueError.

(** lines 83-97 *)
Record densecfg := mkdc {
  d_act : chars; d_bias_add : chars; d_bias : chars; d_kernel : chars;
  d_sym : bool; d_opt : option optcfg; d_reduced_depth : Z }.
Definition dense_default : densecfg := mkdc (str "int8") (str "int8") (str "int32") (str "int8") false None 3.
(** line 111 *)
Inductive layercfg := CDense (d : densecfg) | CQuantize (dtype : chars) | CDequantize.
(** lines 120-126; a Python dict as an association list with distinct keys *)
Record qcfg := mkqc {
  c_dense : densecfg; c_quantize : chars;
  c_ada : option optcfg; c_eq : option Z; c_specific : list (chars * layercfg) }.
Definition cfg_default : qcfg := mkqc dense_default (str "int8") None None [].

(** lines 18-21, 92-97: KerasDenseCfg.tflite; the optimizer's and lut_cfg's own tflite change nothing *)
Definition dense_tflite (d : densecfg) : densecfg :=
  mkdc (d_act d) (d_bias_add d) (d_bias d) (d_kernel d) true (d_opt d) (d_reduced_depth d).
(** lines 131-134, 18-21: QuantizerCfg.tflite; the dict specific_layers is not an Init, so its entries are not visited *)
Definition tflite (c : qcfg) : qcfg :=
  mkqc (dense_tflite (c_dense c)) (c_quantize c) None None (c_specific c).
(** keras_builder.py:112 cfg.specific_layers.get(name, cfg.dense) *)
Fixpoint assoc {A} (k : chars) (l : list (chars * A)) : option A :=
  match l with [] => None | (k', a) :: r => if chars_eqb k k' then Some a else assoc k r end.
Definition layer_cfg (c : qcfg) (name : chars) : layercfg :=
  match assoc name (c_specific c) with Some l => l | None => CDense (c_dense c) end.
(** A "specific_layers" entry read from a file: the union tries KerasDenseCfg first and every field of it has a default, so a
    mapping always becomes a dense configuration (keys of the other classes are ignored) *)
Record layerdict := mkld {
  ld_act : option chars; ld_bias_add : option chars; ld_bias : option chars; ld_kernel : option chars;
  ld_sym : option bool; ld_opt : option optdict; ld_dtype : option chars }.
Definition parse_layer (o : layerdict) : res layercfg :=
  do opt <- match ld_opt o with None => Ok None | Some x => do p <- parse_opt x; Ok (Some p) end;
  Ok (CDense (mkdc (dflt (ld_act o) (str "int8")) (dflt (ld_bias_add o) (str "int8")) (dflt (ld_bias o) (str "int32"))
    (dflt (ld_kernel o) (str "int8")) (dflt (ld_sym o) false) opt 3)).

(** ** keras layers, as far as the builder looks at them *)
Inductive klayer :=
| LDense (name act : chars)      (* activation.__name__ *)
| LLstm (name : chars)
| LDropout
| LInput
| LOther.                        (* any other class *)

(** ** Operators: nodes are object numbers *)
Record oper := mkoper { o_type : chars; o_name : chars; o_in : list nat; o_out : list nat }.
Record qresult := mkqr { r_ops : list oper; r_out : option nat }.

(** activations.py:16-19 *)
Definition LUT_FUNCTIONS : list chars := [str "TANH"; str "SIGMOID"].
Definition SKIP_FUNCTIONS : list chars := [str "LINEAR"; str "SOFTMAX"; str "RELU"; str "RELU6"].
Definition mem (s : chars) (l : list chars) : bool := existsb (chars_eqb s) l.
(** activations.py:32-95: the operator, if any; [o] is the output node *)
Definition activation_op (act : chars) (a o : nat) : option oper :=
  let u := upper act in
  if mem u SKIP_FUNCTIONS then None
  else let n := if mem u LUT_FUNCTIONS then u ++ str "LUT" else u in
       Some (mkoper n n [a] [o]).

(** keras_dense.py:84-121 constructor: the four dtypes must parse, in this order *)
Definition check_dtypes (d : densecfg) : res unit :=
  do _ <- parse_dtype (d_kernel d); do _ <- parse_dtype (d_act d);
  do _ <- parse_dtype (d_bias_add d); do _ <- parse_dtype (d_bias d); Ok tt.
(** keras_dense.py:288-379 with keras_builder.py:111-123; nodes are allocated kernel, bias, bias-add, activation output.
    A wrong kind of configuration has no dense attributes (AttributeError). *)
Definition dense_quantize (c : layercfg) (name act : chars) (prev : qresult) (next : nat) : res (qresult * nat) :=
  match c with
  | CDense d =>
      do _ <- check_dtypes d;
      match r_out prev with
      | None => Err EValueError
      | Some inp =>
          let fc := mkoper (str "FULLY_CONNECTED") (str "fully_connected " ++ name) [inp; next; (next + 1)%nat] [(next + 2)%nat] in
          match d_opt d with
          | Some _ => Err ENotImplemented
          | None =>
              Ok (match activation_op act (next + 2) (next + 3) with
                  | None => (mkqr [fc] (Some (next + 2)%nat), (next + 3)%nat)
                  | Some a => (mkqr [fc; a] (Some (next + 3)%nat), (next + 4)%nat)
                  end)
          end
      end
  | _ => Err EAttributeError
  end.
(** keras_lstm.py:372-532: one operator with 32 inputs and the hidden state as output *)
Definition lstm_quantize (name : chars) (prev : qresult) (next : nat) : res (qresult * nat) :=
  match r_out prev with
  | None => Err EValueError
  | Some inp => Ok (mkqr [mkoper (str "LSTM") (str "lstm_quant " ++ name) (inp :: seq next 31) [(next + 31)%nat]] (Some (next + 31)%nat), (next + 32)%nat)
  end.
(** keras_input.py:18-37 *)
Definition input_quantize (q : chars) : res (qresult * nat) :=
  do _ <- parse_dtype q; Ok (mkqr [mkoper (str "QUANTIZE") (str "QUANTIZE") [] [0%nat]] (Some 0%nat), 1%nat).
(** dequantize.py:23-42: operators[-1].outputs[-1] *)
Definition dequantize_quantize (prev : qresult) : res qresult :=
  match r_ops prev with
  | [] => Err EValueError
  | _ =>
      do op <- py_index (r_ops prev) (-1);
      do out <- py_index (o_out op) (-1);
      Ok (mkqr [mkoper (str "DEQUANTIZE") (str "DEQUANTIZE") [out] []] None)
  end.
(** keras_builder.py:108-134 get_layer_quantizer: None for skipped layers.  For any other class CheckType.is_input calls
    isinstance(layer, tf.keras.layers.Input); Input is a function, so isinstance raises TypeError before line 134. *)
Inductive quantizer := QDense (c : layercfg) (name act : chars) | QLstm (name : chars).
Definition get_layer_quantizer (l : klayer) (c : qcfg) : res (option quantizer) :=
  match l with
  | LDense name act => Ok (Some (QDense (layer_cfg c name) name act))
  | LLstm name => Ok (Some (QLstm name))
  | LDropout | LInput => Ok None
  | LOther => Err ETypeError
  end.
(** keras_builder.py:48-56; [acc] is sequential_quantized reversed *)
Fixpoint quantize_layers (c : qcfg) (ls : list klayer) (prev : qresult) (acc : list qresult) (next : nat) : res (list qresult) :=
  match ls with
  | [] => Ok acc
  | l :: r =>
      do q <- get_layer_quantizer l c;
      match q with
      | None => quantize_layers c r prev acc next
      | Some q =>
          do x <- match q with
                  | QDense lc name act => dense_quantize lc name act prev next
                  | QLstm name => lstm_quantize name prev next
                  end;
          quantize_layers c r (fst x) (fst x :: acc) (snd x)
      end
  end.
(** keras_builder.py:28-61 _quantize *)
Definition quantize_model (c : qcfg) (ls : list klayer) : res (list qresult) :=
  do i <- input_quantize (c_quantize c);
  do acc <- quantize_layers c ls (fst i) [fst i] (snd i);
  match acc with
  | [] => Err EIndexError
  | last :: _ => do d <- dequantize_quantize last; Ok (rev (d :: acc))
  end.

(** util/network.py:26-94: the exported network; input and output descriptions are constants *)
Record netjson := mknj { nj_engine : chars; nj_operators : Z; nj_graph : list oper; nj_in_shape : list Z; nj_out_shape : list Z }.
Definition network (rs : list qresult) : list oper := concat (map r_ops rs).
Definition as_json (ops : list oper) : netjson := mknj (str "tflite") (Z.of_nat (length ops)) ops [1; 784] [1; 10].
Definition build (c : qcfg) (ls : list klayer) : res netjson :=
  do rs <- quantize_model c ls; Ok (as_json (network rs)).
(** the network as the engine reads it (sequential.py:43-71): scale and zero point of the descriptions are null *)
Definition to_engine (j : netjson) : jnet oper :=
  mkjnet (nj_engine j) (map (fun o => mkjop (o_type o) (o_name o) o) (nj_graph j)) [Some (mkjnode None None)] [Some (mkjnode None None)].

(** ** model_converters/keras2json/_convert.py *)
(** a Keras layer: class name, number of weight arrays, activation name, kernel shape (inputs, units) *)
Record kjlayer := mkkj { kj_class : chars; kj_weights : nat; kj_act : chars; kj_rows : Z; kj_cols : Z; kj_dims : nat (* len(_batch_input_shape) *) }.
Record kjop := mkkjop { kjo_type : chars; kjo_kernel : option (list Z); kjo_bias : option (list Z) }.
(** dense.py:11-81: kernel transposed; without bias the zeros have the length of the untransposed kernel *)
Definition kj_dense (l : kjlayer) : res (list kjop) :=
  match kj_weights l with
  | O => Err EIndexError
  | n => Ok [mkkjop (str "FULLY_CONNECTED_F") (Some [kj_cols l; kj_rows l]) (Some [if (1 <? n)%nat then kj_cols l else kj_rows l]);
             mkkjop (kj_act l) None None]
  end.
(** lstm.py:25-87: three weight arrays, three input dimensions *)
Definition kj_lstm (l : kjlayer) : res (list kjop) :=
  if (kj_weights l <? 3)%nat then Err EIndexError
  else if negb (kj_dims l =? 3)%nat then Err EValueError
  else Ok [mkkjop (str "LSTM_F") None None].
(** conv2d.py:10-47 *)
Definition kj_conv (l : kjlayer) : res (list kjop) :=
  if (kj_weights l <? 2)%nat then Err EIndexError
  else Ok [mkkjop (str "CONV_2D_F") None None; mkkjop (upper (kj_act l) ++ str "_F") None None].
(** _convert.py:11-29 *)
Definition kj_from_layer (l : kjlayer) : res (list kjop) :=
  let name := upper (kj_class l) in
  if contains (str "DENSE") name then kj_dense l
  else if contains (str "LSTM") name then kj_lstm l
  else if contains (str "CONV2D") name then kj_conv l
  else if contains (str "FLATTEN") name then Ok [mkkjop (str "FLATTEN") None None]
  else if contains (str "MAXPOOLING2D") name then Ok [mkkjop (str "MAXPOOLING_2D_F") None None]
  else if mem name [str "INPUT"; str "OUTPUT"; str "INPUTLAYER"; str "DROPOUT"] then Ok []
  else Err EValueError.
(** _convert.py:32-56: graph and operator count *)
Definition keras2json (ls : list kjlayer) : res (list kjop * Z) :=
  do xs <- mapM kj_from_layer ls; Ok (concat xs, Z.of_nat (length (concat xs))).
(** the exported file read back by the inference engine: engine "keras", empty input and output descriptions (_convert.py:46-54) *)
Definition kj_to_engine (g : list kjop) : jnet kjop := mkjnet (str "keras") (map (fun o => mkjop (kjo_type o) [] o) g) [] [].
