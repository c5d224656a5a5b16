(** Model of quantizer/itcl_quantizer/tensor_extractor/keras/layers/keras_lstm.py:276-370 (KerasLSTM._quantization_noise) and of the
    debug-mode call in quantize (523-530); with the intermediate tensors the engine records, inference_engine/itcl_inference_engine/
    layers/itclq/lstm.py:277, 304-317, 334-341, 362-363.  Floats are exact rationals.
    Simplification: node names, the printed text and the unused pandas DataFrame (364-368) are left out; the table is the list of its
    fifteen rows, one number per time step. *)
From Verif Require Import Base DtypeModel QuantModel LutModel FcModel EngineModel DistModel BuildModel PipeModel LstmModel KLstmModel.
Open Scope Z_scope.
Open Scope list_scope.

(** lines 298-300: the input node quantizes the calibration samples (operators.py:112-139).  [- None] raises TypeError. *)
Definition input_codes (input : node) (data : list (list (list Q))) : res (list (list (list Z))) :=
  match n_zp input with
  | None => Err ETypeError
  | Some z => Ok (map (map (map (quant1 (n_dtype input) z (n_scale input)))) data)
  end.

(** engine lstm.py:280-287, 304: the bias_add values of the four gates for one row of a step *)
Definition bias_rows (eng : lstm) (x : list Z) : res (list (list Z)) :=
  mapM (fun g => bias_add_row (l_cells eng) g x) [l_in eng; l_forget eng; l_cell eng; l_out eng].
(** ... for every step and row: intermediate_tensors.bias_add *)
Definition bias_tensors (eng : lstm) (T : nat) (codes : list (list (list Z))) : res (list (list (list (list Z)))) :=
  mapM (mapM (bias_rows eng)) (timesteps T (l_input_zp eng) codes).

(** line 352 node.quant.dequantize (operators.py:141-152) on an array (time x batch x units) *)
Definition deq (nd : node) (m : list (list (list Z))) : list (list (list Q)) := map (map (map (dequant1 (zp0 nd) (n_scale nd)))) m.

(** lines 347-348 mse of two arrays (batch x units) of equal shape *)
Definition mse (a b : list (list Q)) : Q :=
  let d := map2 (fun x y => (x - y) * (x - y))%Q (concat a) (concat b) in
  (sumQ d / inject_Z (Z.of_nat (length d)))%Q.

(** lines 354-357: a.shape != b.shape, for rectangular arrays *)
Definition same_shape (a b : list (list (list Q))) : bool :=
  (length a =? length b)%nat &&
  forallb (fun p => (length (fst p) =? length (snd p))%nat &&
                    forallb (fun r => (length (fst r) =? length (snd r))%nat) (combine (fst p) (snd p))) (combine a b).

(** lines 350-362, one turn of the loop *)
Definition noise_row (r : node * list (list (list Z)) * list (list (list Q))) : res (list Q) :=
  let '(nd, qs, fs) := r in
  let d := deq nd qs in
  if same_shape d fs then Ok (map2 mse d fs) else Err EValueError.

(** one gate's slice of arrays recorded gate by gate (323-324 np.array(...).swapaxes(0, 1)) *)
Definition gate_of (g : nat) (m : list (list (list (list Z)))) : list (list (list Z)) := map (map (fun r => nth g r [])) m.

(** lines 302-362.  [e] is the layer's only operator; fp is the float pass (class LSTM).  The float side of the four BIAS_ADD rows is
    fp_results.bias_add, which line 691 sets to np.array(previous_recurrent_add). *)
Definition noise_report (l : klstm) (rec : list (list fstep)) (e : lstm_export) (T : nat) (data : list (list (list Q))) : res (list (list Q)) :=
  let at_ k := nth k (le_ins e) dnode in
  let n := kl_units l in
  do codes <- input_codes (at_ 0%nat) data;
  do eng <- lstm_from_model (le_ins e) (le_out e) (kl_seq l);
  do r <- lstm_infer eng T codes;
  do ba <- bias_tensors eng T codes;
  let qt {A} (f : step_rec -> A) := map (map f) (snd r) in
  let ft f := map (map f) rec in
  let split4 g := ft (fun s => part n g (fs_pre s)) in
  mapM noise_row
    [(at_ 13%nat, gate_of 0 ba, split4 0%nat); (at_ 14%nat, gate_of 1 ba, split4 1%nat);
     (at_ 15%nat, gate_of 2 ba, split4 2%nat); (at_ 16%nat, gate_of 3 ba, split4 3%nat);
     (at_ 17%nat, gate_of 0 (qt s_pre), split4 0%nat); (at_ 18%nat, gate_of 1 (qt s_pre), split4 1%nat);
     (at_ 19%nat, gate_of 2 (qt s_pre), split4 2%nat); (at_ 20%nat, gate_of 3 (qt s_pre), split4 3%nat);
     (at_ 23%nat, gate_of 0 (qt s_gates), ft fs_i); (at_ 25%nat, gate_of 1 (qt s_gates), ft fs_f);
     (at_ 27%nat, gate_of 2 (qt s_gates), ft fs_g); (at_ 29%nat, gate_of 3 (qt s_gates), ft fs_o);
     (at_ 21%nat, qt s_cell, ft fs_c); (at_ 31%nat, qt s_act, ft fs_a); (le_out e, qt s_hidden, ft fs_h)].

(** lines 372-532 quantize, with the debug-mode report (523-530): what the layer returns, and what it prints *)
Definition klstm_quantize_debug (debug : bool) (fn : lfns) (dt : ldtypes) (l : klstm) (input : node) (T : nat) (data : list (list (list Q)))
  : res (lstm_export * option (list (list Q))) :=
  do e <- klstm_quantize fn dt l input T data;
  if debug
  then do r <- noise_report l (reference fn l (match kl_B l with Some b => b | None => [] end) T data) e T data; Ok (e, Some r)
  else Ok (e, None).
