(** Model of build() and of the inference engine on Keras models with LSTM layers: LSTM layers (any number), dense layers and dropout.
    quantizer/itcl_quantizer/tensor_extractor/keras/keras_builder.py:28-138, layers/keras_input.py, keras_lstm.py, keras_dense.py,
    dequantize.py; inference_engine/itcl_inference_engine/network/sequential.py, layers/tflite/*.py, layers/itclq/lstm.py.
    The layers themselves are those of PipeModel and KLstmModel; here they are chained, and arrays may have three axes
    (batch, time, features).  Simplification: the shape entry of a node of a three-axis array is the one of a row (no reader uses it). *)
From Verif Require Import Base DtypeModel QuantModel LutModel FcModel EngineModel DistModel BuildModel PipeModel LstmModel KLstmModel.
Open Scope Z_scope.
Open Scope list_scope.

(** keras_builder.py:107-138: the layers the builder accepts *)
Inductive rlyr := RLstm (l : klstm) | RPlain (p : plyr).
(** an operator of the file: nodes of a dense-style operator, or the 32 inputs, the output and the attribute of an LSTM operator
    (keras_lstm.py:486-513) *)
Inductive rbody := RB (b : pbody) | RL (ins : list node) (out : node) (ret_seq : bool).

(** the same exported node as PipeModel and as KLstmModel see it *)
Definition as_node (n : pnode) : res node := do q <- parse_dtype (pn_dtype n); Ok (mknode (pn_scale n) (Some (pn_zp n)) q [] None).
Definition as_pnode (n : node) (shape : list nat) : pnode := mkpn (n_scale n) (zp0 n) (grepr (n_dtype n)) shape PNone None.
(** middle axis of a (batch, time, features) array *)
Definition steps {A} (m : list (list A)) : nat := length (hd [] m).
(** rows of the samples of a flattened array, T each *)
Fixpoint regroup {A B} (m : list (list A)) (rows : list B) : list (list B) :=
  match m with [] => [] | s :: r => firstn (length s) rows :: regroup r (skipn (length s) rows) end.

(** keras_builder.py:48-52 with keras_lstm.py:372-532; KerasLSTM(layer) gets the default dtypes (keras_builder.py:128-129).
    Keras itself refuses an LSTM on a two-axis array when the model is made. *)
Definition rnn_lstm (fn : lfns) (l : klstm) (inp : pnode) (data : fdata) : res (jop rbody * pnode * fdata) :=
  match data with
  | D2 _ => Err EValueError
  | D3 m =>
      do i <- as_node inp;
      do e <- klstm_quantize fn ldt_default l i (steps m) m;
      Ok (mkjop (str "LSTM") (str "lstm_quant " ++ kl_name l) (RL (le_ins e) (le_out e) (kl_seq l)),
          as_pnode (le_out e) [kl_units l], le_data e)
  end.
Definition lift_op (op : jop pbody) : jop rbody := mkjop (jo_type op) (jo_name op) (RB (jo_body op)).
(** keras_dense.py:288-379: np.matmul and the calibration do not depend on the number of leading axes *)
Definition rnn_dense (c : qcfg) (l : kdense) (inp : pnode) (data : fdata) : res (list (jop rbody) * pnode * fdata) :=
  let rows := match data with D2 m => m | D3 m => concat m end in
  do x <- pipe_dense (layer_cfg c (kd_name l)) l inp rows;
  let '(ops, out, rows') := x in
  Ok (map lift_op ops, out, match data with D2 _ => D2 rows' | D3 m => D3 (regroup m rows') end).
(** keras_builder.py:45-56 *)
Fixpoint rnn_layers (fn : lfns) (c : qcfg) (ls : list rlyr) (inp : pnode) (data : fdata) : res (list (jop rbody) * pnode) :=
  match ls with
  | [] => Ok ([], inp)
  | RPlain PSkip :: r => rnn_layers fn c r inp data
  | RPlain (PDense l) :: r =>
      do x <- rnn_dense c l inp data;
      let '(ops, out, data') := x in
      do y <- rnn_layers fn c r out data'; Ok (ops ++ fst y, snd y)
  | RLstm l :: r =>
      do x <- rnn_lstm fn l inp data;
      let '(op, out, data') := x in
      do y <- rnn_layers fn c r out data'; Ok (op :: fst y, snd y)
  end.
(** keras_builder.py:28-61, keras_input.py:18-37 (every value of the three-axis array), dequantize.py:23-42, network.py:57-94 *)
Definition rnn_build (fn : lfns) (c : qcfg) (ls : list rlyr) (data : list (list (list Q))) : res (jnet rbody) :=
  do i <- pipe_input (c_quantize c) (concat data);
  do r <- rnn_layers fn c ls (snd i) (D3 data);
  Ok (mkjnet (str "tflite")
        (lift_op (fst i) :: fst r ++ [lift_op (mkjop (str "DEQUANTIZE") (str "DEQUANTIZE") (mkpb [snd r] []))])
        [Some (mkjnode None None)] [Some (mkjnode None None)]).

(** keras_builder.py:88-100 on the results of quantizing these layers, when a loss function is given.  A result's [layer] attribute is
    the quantizer of a dense layer but, for an LSTM, the Keras layer (keras_lstm.py:520), which has neither param_equalizer_bundle nor
    adaround.  [W]: the tuned state; [optimize]: the equalizer on the bundled layers; [round]: adaptive rounding of one dense layer
    (both in TuneModel and QuboTuneModel).  KerasInput and Dequantize inherit methods that do nothing (abstract_layer.py:62-108). *)
(** param_equalizer.py:66-68 *)
Fixpoint bundle (ls : list rlyr) (acc : list kdense) : res (list kdense) :=
  match ls with
  | [] => Ok acc
  | RLstm _ :: _ => Err EAttributeError
  | RPlain PSkip :: r => bundle r acc
  | RPlain (PDense l) :: r => bundle r (acc ++ [l])
  end.
(** adaround.py:127-133 *)
Fixpoint round_all {W} (round : kdense -> W -> res W) (ls : list rlyr) (w : W) : res W :=
  match ls with
  | [] => Ok w
  | RLstm _ :: _ => Err EAttributeError
  | RPlain PSkip :: r => round_all round r w
  | RPlain (PDense l) :: r => do w1 <- round l w; round_all round r w1
  end.
(** keras_builder.py:90-100; [eq], [ada]: is the pass configured *)
Definition rnn_tune {W} (optimize : list kdense -> W -> res W) (round : kdense -> W -> res W) (eq ada : bool) (ls : list rlyr) (w : W) : res W :=
  do w1 <- (if eq then do ds <- bundle ls []; optimize ds w else Ok w);
  if ada then round_all round ls w1 else Ok w1.

(** ** The inference engine *)
(** numpy arrays with two or three axes *)
Inductive rval := R2 (v : pval) | RF (m : list (list (list Q))) | RI (m : list (list (list Z))).
Definition samples_of (v : rval) : list pval := match v with R2 x => [x] | RF m => map VF m | RI m => map VI m end.
(** quantize.py:55-61, dequantize.py:55-65: element by element, whatever the shape *)
Definition each_int (ly : layer pval) : layer rval := fun v =>
  match v with R2 x => do y <- ly x; Ok (R2 y) | _ => do ys <- mapM ly (samples_of v); Ok (RI (map asI ys)) end.
Definition each_float (ly : layer pval) : layer rval := fun v =>
  match v with R2 x => do y <- ly x; Ok (R2 y) | _ => do ys <- mapM ly (samples_of v); Ok (RF (map asF ys)) end.
(** lut.py:60-68: np.vectorize raises ValueError on size 0 *)
Definition each_lut (ly : layer pval) : layer rval := fun v =>
  match samples_of v with [] => Err EValueError | _ => each_int ly v end.
(** fullyconnected.py:267-269: at most two axes *)
Definition flat_only (ly : layer pval) : layer rval := fun v =>
  match v with R2 x => do y <- ly x; Ok (R2 y) | _ => Err EAssertionError end.
(** layers/itclq/lstm.py:131-171, 267-368.  Exported files feed it integers with three axes. *)
Definition ie_lstm (ins : list node) (out : node) (sq : bool) : res (layer rval) :=
  do g <- lstm_from_model ins out sq;
  Ok (fun v => match v with
               | RI m => do r <- lstm_infer g (steps m) m; Ok (match fst r with OSeq o => RI o | OLast o => R2 (VI o) end)
               | _ => Err EValueError
               end).
(** layers/tflite/build_layer.py:18-43 *)
Definition rnn_builders : builders rbody rval :=
  mkbuilders (fun k b => match k, b with
    | KQuantize, RB p => do l <- ie_quantize p; Ok (each_int l)
    | KDequantize, RB p => do l <- ie_dequantize p; Ok (each_float l)
    | KFullyConnected, RB p => do l <- ie_fc p; Ok (flat_only l)
    | KTanhLUT, RB p | KSigmoidLUT, RB p => do l <- ie_lut p; Ok (each_lut l)
    | KSoftMax, RB p => do _ <- ie_softmax p; Ok (fun v => Ok v)
    | KLSTM, RL ins out sq => ie_lstm ins out sq
    | _, _ => Err ENotImplemented
    end) (fun _ _ => Err ENotImplemented).
Definition rnn_load (j : jnet rbody) : res (seqnet rval) := seq_init rnn_builders j.
Definition no_toi8r (v : rval) (z : Z) (s : Q) : res rval := Err ENotImplemented.
Definition rnn_infer (n : seqnet rval) (batch : list (list (list Q))) : res rval := snd (seq_infer no_toi8r n (RF batch)).
