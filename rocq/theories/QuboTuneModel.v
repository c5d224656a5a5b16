(** Model of build() (quantizer/itcl_quantizer/tensor_extractor/keras/keras_builder.py:64-105) when the configuration asks for
    the QUBO rounding optimizer (config/models/keras.py:55-59 RoundingQUBOCfg): quantize, equalize if configured, round every
    dense layer with its QUBO (equalizers/adaround/adaround.py:119-133, qubo.py:55-85, 188-274), write the file.
    The equalizer and the file are those of TuneModel; the rounding of one layer is QuboDeployModel.adaround_qubo. *)
From Verif Require Import Base DtypeModel QuantModel EngineModel BuildModel PipeModel NodeModel EqModel AnnealModel ExportModel TuneModel QuboModel QuboDeployModel.
Open Scope Z_scope.
Open Scope list_scope.

(** keras_dense.py:253-255, 366-375, layers/activations.py:55-64: what quantize returns as input_data for the next layer (and what
    qubo.py:69 reads back as this layer's float output): the layer without activation, and its activation unless that is skipped *)
Definition layer_data (l : kdense) (X : list (list Q)) : list (list Q) :=
  let out := map (preact l) X in
  if mem (upper (kd_act l)) SKIP_FUNCTIONS then out else map (map (kd_fn l)) out.
(** keras_dense.py:303 (_last_float_input), 345 (operators[0].inputs), 374-379, 390-399: what the optimizer sees of layer number t,
    whose input node is [inp] and whose float input is X *)
Definition qlayer_of (inp t : nat) (l : kdense) (X : list (list Q)) : qlayer :=
  mkql inp (4 * t + 1) (4 * t + 2) (if mem (upper (kd_act l)) LUT_FUNCTIONS then Some (4 * t + 3)%nat else None)
    (kd_w l) (kd_b l) X (layer_data l X).
(** keras_dense.py:376: operators[-1].outputs[0] *)
Definition out_of (t : nat) (l : kdense) : nat := if mem (upper (kd_act l)) LUT_FUNCTIONS then (4 * t + 4)%nat else (4 * t + 3)%nat.
(** network.py:39-47, adaround.py:127-133: the layers in order; [smps t]: the sampler's answers for layer t *)
Fixpoint qubo_layers (inp t : nat) (ls : list kdense) (X : list (list Q)) (smps : nat -> nat -> nat -> bool) : list alayer :=
  match ls with
  | [] => []
  | l :: r => ADense (qlayer_of inp t l X) (smps t) :: qubo_layers (out_of t l) (S t) r (layer_data l X) smps
  end.
(** keras_builder.py:90-100 with ada_round_net = RoundingQUBOCfg; keras_input.py and dequantize.py do not override adaround.
    The loss function is handed to AdaRound but QUBOAnnealer.optimize never calls it. *)
Definition tune_qubo (loss : jnet pbody -> Q) (eq : option nat) (r : tune_run) (smps : nat -> nat -> nat -> bool)
    (w : world) (ls : list kdense) (X : list (list Q)) : res (option world) :=
  do o <- tune_net loss (mktune eq None) r w ls;
  match o with
  | None => Ok None
  | Some w1 => do w2 <- adaround_net w1 (APlain :: qubo_layers 0 0 ls X smps ++ [APlain]); Ok (Some w2)
  end.
(** keras_builder.py:88-105 *)
Definition build_qubo (loss : option (jnet pbody -> Q)) (eq : option nat) (r : tune_run) (smps : nat -> nat -> nat -> bool)
    (w : world) (ls : list kdense) (X : list (list Q)) : res (option (jnet pbody)) :=
  do o <- match loss with Some f => tune_qubo f eq r smps w ls X | None => Ok (Some w) end;
  Ok (option_map (fun v => export_net v ls) o).
