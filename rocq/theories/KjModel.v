(** Model of model_converters/keras2json with the contents of the files: keras2json/_convert.py, layers/dense.py, lstm.py, conv2d.py,
    maxpool2d.py, flatten.py, i_layer.py, _activations.py, _ids.py.  (BuildModel.keras2json has only operator types and shapes, for C44.) *)
From Verif Require Import Base DtypeModel EngineModel BuildModel.
Open Scope Z_scope.
Open Scope list_scope.

(** a numpy array: dtype name and data; [A2 dt n k m]: n rows of k entries; [A4]: the kernel of a convolution, row major *)
Inductive arr :=
| A1 (dt : chars) (v : list Q)
| A2 (dt : chars) (n k : nat) (m : list (list Q))
| A4 (dt : chars) (a b c d : nat) (v : list Q).
Definition arr_dtype (a : arr) : chars := match a with A1 dt _ | A2 dt _ _ _ | A4 dt _ _ _ _ _ => dt end.
Definition arr_shape (a : arr) : list nat :=
  match a with A1 _ v => [length v] | A2 _ n k _ => [n; k] | A4 _ a b c d _ => [a; b; c; d] end.
(** ndarray.T (reverses the axes; of a vector: itself; of a kernel of a convolution: not used by the code) *)
Definition arr_T (a : arr) : arr :=
  match a with
  | A2 dt n k m => A2 dt k n (map (fun j => map (fun r => nth j r 0%Q) m) (seq 0 k))
  | _ => a
  end.
(** len(array): its first axis *)
Definition arr_len (a : arr) : nat := hd 0%nat (arr_shape a).
(** core/itcl_quantization/json/specification.py Node: scale, zero point and LUT are null in these files *)
Record fnode := mkfn { fn_name : chars; fn_dtype : chars; fn_shape : list nat; fn_data : arr }.
(** i_layer.py:13-24 build_node, lstm.py:12-23 _weight *)
Definition build_node (w : arr) (name : chars) : fnode := mkfn name (arr_dtype w) (arr_shape w) w.
(** attribute: name, dtype, values (a window size can be None) *)
Record fattr := mkfa { fa_name : chars; fa_dtype : chars; fa_value : list (option Z) }.
Record fop := mkfop { fo_type : chars; fo_name : chars; fo_inputs : list fnode; fo_attrs : list fattr }.

(** an activation: a function or an object (a Keras layer used as activation) *)
Inductive kact := AFun (name : chars) | AObj (class : chars).
(** a Keras layer: what the converter reads, and everything else (dilation, groups, recurrent activation, go_backwards, ...) *)
Record flayer := mkfl {
  fl_class : chars; fl_name : chars; fl_weights : list arr; fl_act : kact; fl_units : Z; fl_strides : list Z; fl_padding : chars;
  fl_pool : list Z; fl_return_seq : bool; fl_batch : option (list (option Z)) (* _batch_input_shape; absent unless the layer was given an input shape *); fl_other : chars }.

(** dense.py:21-26: kernel and bias; without bias, zeros of len(kernel) *)
Definition dense_bias (w : list arr) : res arr :=
  do k <- py_index w 0;
  match w with
  | _ :: b :: _ => Ok b
  | _ => Ok (A1 (str "float64") (repeat 0%Q (arr_len k)))
  end.
(** dense.py:28-81; _activation_fn reads __name__ (AttributeError for an object) and is called twice *)
Definition f_dense (l : flayer) : res (list fop) :=
  do k <- py_index (fl_weights l) 0;
  do b <- dense_bias (fl_weights l);
  match fl_act l with
  | AObj _ => Err EAttributeError
  | AFun a => Ok [mkfop (str "FULLY_CONNECTED_F") (fl_name l)
                    [build_node (arr_T k) (fl_name l ++ str "/Kernel"); build_node b (fl_name l ++ str "/Bias")] [];
                  mkfop a (a ++ str " activation function") [] []]
  end.
(** _activations.py:1-6 *)
Definition act_name (a : kact) : chars := upper (match a with AFun n => n | AObj c => c end).
(** conv2d.py:21, maxpool2d.py:14: "valid" in str(padding).lower() *)
Definition pad_code (p : chars) : Z := if contains (str "valid") (map lower_c p) then 0 else 1.
(** conv2d.py:12-47 *)
Definition f_conv (l : flayer) : res (list fop) :=
  do w <- py_index (fl_weights l) 0; do b <- py_index (fl_weights l) 1;
  Ok [mkfop (str "CONV_2D_F") (str "2D Convolution Layer") [build_node w (str "kernel"); build_node b (str "bias")]
        [mkfa (str "strides") (str "int") (map Some (fl_strides l)); mkfa (str "padding") (str "int") [Some (pad_code (fl_padding l))]];
      mkfop (act_name (fl_act l) ++ str "_F") (act_name (fl_act l) ++ str " Float Activation") [] []].
(** flatten.py:8-19, maxpool2d.py:11-37 *)
Definition f_flatten : list fop := [mkfop (str "FLATTEN") (str "Flatten Layer") [] []].
Definition f_pool (l : flayer) : list fop :=
  [mkfop (str "MAXPOOLING_2D_F") (str "2D Max Pooling Layer") []
     [mkfa (str "strides") (str "int") (map Some (fl_strides l)); mkfa (str "pool_size") (str "int") (map Some (fl_pool l));
      mkfa (str "padding") (str "int") [Some (pad_code (fl_padding l))]]].
(** lstm.py:7, 25-87: the loop variables are rows of np.array([[0]] * 4) (dtype int64 on Linux) *)
Definition gate_names : list chars := [str "input"; str "forget_gate"; str "cell"; str "output"].
Definition zero_gate : arr := A1 (str "int64") [0%Q].
Definition f_lstm (l : flayer) : res (list fop) :=
  do w <- py_index (fl_weights l) 0; do u <- py_index (fl_weights l) 1; do b <- py_index (fl_weights l) 2;
  let gates p := map (fun g => build_node zero_gate (p ++ str "/" ++ g)) gate_names in
  match fl_batch l with
  | None => Err EAttributeError
  | Some shape =>
  if negb (length shape =? 3)%nat then Err EValueError
  else Ok [mkfop (str "LSTM_F") (str "LSTM Layer")
             (gates (str "kernel") ++ gates (str "recurrent_kernel") ++ gates (str "bias") ++
              [build_node (arr_T w) (str "kernel/complete"); build_node (arr_T u) (str "recurrent_kernel/complete"); build_node b (str "bias/complete")])
             [mkfa (str "units") (str "int") [Some (fl_units l)];
              mkfa (str "return_sequences") (str "bool") [Some (if fl_return_seq l then 1 else 0)];
              mkfa (str "steps") (str "int") [nth 1 shape None]]]
  end.
(** _convert.py:11-29 *)
Definition f_layer (l : flayer) : res (list fop) :=
  let name := upper (fl_class l) in
  if contains (str "DENSE") name then f_dense l
  else if contains (str "LSTM") name then f_lstm l
  else if contains (str "CONV2D") name then f_conv l
  else if contains (str "FLATTEN") name then Ok f_flatten
  else if contains (str "MAXPOOLING2D") name then Ok (f_pool l)
  else if mem name [str "INPUT"; str "OUTPUT"; str "INPUTLAYER"; str "DROPOUT"] then Ok []
  else Err EValueError.
(** _convert.py:32-56: the graph *)
Definition f_convert (ls : list flayer) : res (list fop) := do xs <- mapM f_layer ls; Ok (concat xs).
