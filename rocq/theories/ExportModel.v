(** Model of the serialisation of a network of node objects: quantizer/itcl_quantizer/tensor_extractor/tensor.py as_json
    (326-335, 494-522), operator.py as_json, quantizer/itcl_quantizer/util/network.py:57-94, on the node store of NodeModel.
    The file is written from the CURRENT state of the nodes (keras_builder.py:102-103, after the equalizers and AdaRound), and the
    same serialisation feeds the loss during tuning (network.py:96-103). *)
From Verif Require Import Base DtypeModel QuantModel LutModel EngineModel BuildModel PipeModel NodeModel.
Open Scope Z_scope.
Open Scope list_scope.

(** ndarray.tolist of a vector / of a matrix; other ranks do not occur in dense networks *)
Definition nd_rows (a : nd Z) : ptensor :=
  match nd_shape a with
  | [n] => PVec (map (fun j => nd_get a [j]) (seq 0 n))
  | [r; c] => PMat (map (fun j => map (fun i => nd_get a [j; i]) (seq 0 c)) (seq 0 r))
  | _ => PNone
  end.
(** tensor.py:159-171 NodeLUT.as_json *)
Definition lut_as_json (l : lut) : EngineModel.lut_json := mklutj (Some (l_table l)) None (Some (lut_offset l)).
(** tensor.py:326-335, 494-522 of a node with exclude_batch_dimension and exclude_tensor: input, bias-add and activation nodes *)
Definition data_json (n : node) : pnode :=
  mkpn (n_scale n) (n_zp n) (grepr (n_q n)) (match n_tens n with Some t => tl (nd_shape (t_fp t)) | None => [] end) PNone
    (option_map lut_as_json (n_lut n)).
(** the same of a kernel or bias node *)
Definition weight_json (n : node) : pnode :=
  mkpn (n_scale n) (n_zp n) (grepr (n_q n)) (match n_tens n with Some t => nd_shape (t_fp t) | None => [] end)
    (match n_tens n with Some t => nd_rows (t_codes t) | None => PNone end)
    (option_map lut_as_json (n_lut n)).

(** keras_dense.py:340-379, activations.py:87-95: the operators hold references to the node objects; objects are numbered in the
    order of creation (NodeModel.add_dense: kernel, bias, bias-add, activation output).  [inp]: node of the previous layer.
    Layers whose activation is not tabulated have no second operator (linear, softmax, relu, relu6; other activations, which
    export an operator of their own name, are outside this function). Result: operators, number of the last output node. *)
Fixpoint export_layers (w : world) (inp next : nat) (ls : list kdense) : list (jop pbody) * nat :=
  match ls with
  | [] => ([], inp)
  | l :: r =>
      let k := next in let b := S k in let a := S b in let o := S a in
      let fc := mkjop (str "FULLY_CONNECTED") (str "fully_connected " ++ kd_name l)
                  (mkpb [data_json (w inp); weight_json (w k); weight_json (w b)] [data_json (w a)]) in
      if mem (upper (kd_act l)) LUT_FUNCTIONS then
        let t := upper (kd_act l) ++ str "LUT" in
        let rest := export_layers w o (S o) r in
        (fc :: mkjop t t (mkpb [data_json (w a)] [data_json (w o)]) :: fst rest, snd rest)
      else
        let rest := export_layers w a (S o) r in (fc :: fst rest, snd rest)
  end.
(** keras_input.py:25-37, dequantize.py:23-42, network.py:57-94 *)
Definition export_net (w : world) (ls : list kdense) : jnet pbody :=
  let r := export_layers w 0 1 ls in
  mkjnet (str "tflite")
    (mkjop (str "QUANTIZE") (str "QUANTIZE") (mkpb [] [data_json (w 0%nat)])
       :: fst r ++ [mkjop (str "DEQUANTIZE") (str "DEQUANTIZE") (mkpb [data_json (w (snd r))] [])])
    [Some (mkjnode None None)] [Some (mkjnode None None)].
