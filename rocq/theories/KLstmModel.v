(** Model of quantizer/itcl_quantizer/tensor_extractor/keras/layers/keras_lstm.py: the float reference pass (class LSTM), the
    calibration and export of an LSTM layer (class KerasLSTM), with quantize_activation_node of layers/activations.py; and of the
    inference engine reading the exported operator (layers/itclq/lstm.py:131-171 from_model).
    Floats are exact rationals; sigmoid and tanh are parameters.  Arrays are lists; a Keras layer's weight arrays have consistent
    shapes.  Simplification: JSON text round-trips exactly; node names are left out; the debug-mode noise report (276-370, 523-530) is modelled in NoiseModel.v. *)
From Verif Require Import Base DtypeModel QuantModel LutModel FcModel EngineModel DistModel BuildModel PipeModel LstmModel.
From Verif Require NodeModel.
Open Scope Z_scope.
Open Scope list_scope.

(** tf.math.sigmoid, np.tanh *)
Record lfns := mklfns { fn_sig : Q -> Q; fn_tanh : Q -> Q }.
(** keras.layers.LSTM: get_weights() is [kernel (features x 4 units); recurrent kernel (units x 4 units); bias (4 units)], without
    the last one when use_bias=False *)
Record klstm := mkkl {
  kl_name : chars; kl_units : nat; kl_K : list (list Q); kl_U : list (list Q); kl_B : option (list Q); kl_seq : bool }.

(** a[i:j] along an axis *)
Definition slice {A} (i j : nat) (r : list A) : list A := firstn (j - i) (skipn i r).
(** slice number g of width n *)
Definition part {A} (n g : nat) (r : list A) : list A := slice (g * n) (S g * n) r.

(** ** class LSTM, lines 599-699 *)
(** np.dot(row, matrix) for a matrix with m columns *)
Definition rowmat (m : nat) (x : list Q) (w : list (list Q)) : list Q :=
  map (fun j => sumQ (map2 (fun a r => a * nth j r 0)%Q x w)) (seq 0 m).
(** what one step appends for one row of the batch *)
Record fstep := mkfs {
  fs_pre : list Q; fs_i : list Q; fs_f : list Q; fs_g : list Q; fs_o : list Q; fs_c : list Q; fs_a : list Q; fs_h : list Q }.
(** lines 656-682 for one row; [b] is the bias *)
Definition fstep_row (fn : lfns) (l : klstm) (b h c x : list Q) : fstep :=
  let n := kl_units l in
  let y_ := map2 Qplus (rowmat (4 * n) x (kl_K l)) b in
  let y := map2 Qplus (rowmat (4 * n) h (kl_U l)) y_ in
  let i := map (fn_sig fn) (firstn n y) in
  let f := map (fn_sig fn) (slice n (2 * n) y) in
  let g := map (fn_tanh fn) (slice (2 * n) (3 * n) y) in
  let o := map (fn_sig fn) (skipn (3 * n) y) in
  let c' := map2 Qplus (map2 Qmult f c) (map2 Qmult i g) in
  let a := map (fn_tanh fn) c' in
  mkfs y i f g o c' a (map2 Qmult o a).
(** lines 635-654: the loop over time for the whole batch; the (1, units) initial cell state is broadcast over the batch *)
Fixpoint frun (fn : lfns) (l : klstm) (b : list Q) (st : list (list Q * list Q)) (xs : list (list (list Q))) : list (list fstep) :=
  match xs with
  | [] => []
  | x :: r =>
      let s := map2 (fun hc v => fstep_row fn l b (fst hc) (snd hc) v) st x in
      s :: frun fn l b (map (fun s => (fs_h s, fs_c s)) s) r
  end.
(** line 641 np.swapaxes(batch, 0, 1); [T] is the middle dimension *)
Definition by_time (T : nat) (data : list (list (list Q))) : list (list (list Q)) :=
  map (fun t => map (fun s => nth t s []) data) (seq 0 T).
(** line 684-699: the records of every step (time x batch) *)
Definition reference (fn : lfns) (l : klstm) (b : list Q) (T : nat) (data : list (list (list Q))) : list (list fstep) :=
  frun fn l b (map (fun _ => (repeat 0%Q (kl_units l), repeat 0%Q (kl_units l))) data) (by_time T data).

(** float data between layers *)
Inductive fdata := D2 (m : list (list Q)) | D3 (m : list (list (list Q))).
(** lines 684-686 *)
Definition reference_result (l : klstm) (B : nat) (rec : list (list fstep)) : fdata :=
  let hs := map (map fs_h) rec in
  if kl_seq l then D3 (map (fun b => map (fun step => nth b step []) hs) (seq 0 B)) else D2 (last hs []).

(** ** class KerasLSTM *)
(** lines 35-47: constructor arguments; the builder (keras_builder.py:124-126) passes none of them *)
Record ldtypes := mkldt {
  dt_kernel : chars; dt_rec : chars; dt_bias : chars; dt_bias_add : chars; dt_rec_add : chars;
  dt_act : chars; dt_out : chars; dt_cell : chars; dt_hidden : chars }.
Definition ldt_default : ldtypes :=
  mkldt (str "int8") (str "int8") (str "int32") (str "int32") (str "int8") (str "int8") (str "int8") (str "int8") (str "int8").
(** the parsed dtypes, lines 57-65, in the order of the constructor *)
Record lqs := mklqs {
  q_kernel : gdtype; q_rec : gdtype; q_hidden : gdtype; q_cell : gdtype; q_bias : gdtype; q_act : gdtype; q_bias_add : gdtype;
  q_rec_add : gdtype; q_out : gdtype }.
Definition parse_ldtypes (t : ldtypes) : res lqs :=
  do k <- parse_dtype (dt_kernel t); do r <- parse_dtype (dt_rec t); do h <- parse_dtype (dt_hidden t);
  do c <- parse_dtype (dt_cell t); do b <- parse_dtype (dt_bias t); do a <- parse_dtype (dt_act t);
  do ba <- parse_dtype (dt_bias_add t); do ra <- parse_dtype (dt_rec_add t); do o <- parse_dtype (dt_out t);
  Ok (mklqs k r h c b a ba ra o).

(** lines 67-86 _get_scale_zp *)
Definition get_scale_zp (data : list Q) (q : gdtype) (sym : bool) : res (Q * Z) :=
  do d <- calibrate data; dist_quantize d q (if sym then Some 0 else None) None sym.
(** tensor.py:379-395, 494-522: a node with its tensor exported *)
Definition tensor_node (s : Q) (z : Z) (q : gdtype) (m : list (list Q)) : node :=
  mknode s (Some z) q (map (map (quant1 q z s)) m) None.
(** a node without tensor values (exclude_tensor) *)
Definition plain_node (s : Q) (z : Z) (q : gdtype) : node := mknode s (Some z) q [] None.
(** lines 91-113, 115-140: gate g of a kernel *)
Definition gate_kernel (q : gdtype) (n g : nat) (m : list (list Q)) : res node :=
  let t := map (part n g) m in
  do sz <- get_scale_zp (concat t) q false; Ok (tensor_node (fst sz) (snd sz) q t).
(** lines 142-171 *)
Definition gate_bias (q : gdtype) (n g : nat) (si : Q) (k : node) (b : list Q) : node :=
  tensor_node (si * n_scale k)%Q 0 q [part n g b].
(** lines 173-210: only the scale and dtype survive *)
Definition gate_bias_add (q : gdtype) (sh : Q) (r : node) : node := plain_node (n_scale r * sh)%Q 0 q.
(** recurrent_add[:, :, i:j] flattened (time, batch, unit) *)
Definition pre_part (n g : nat) (rec : list (list fstep)) : list Q := concat (concat (map (map (fun s => part n g (fs_pre s))) rec)).
(** lines 212-240 *)
Definition gate_rec_add (q : gdtype) (n g : nat) (rec : list (list fstep)) : res node :=
  do sz <- get_scale_zp (pre_part n g rec) q false; Ok (plain_node (fst sz) (snd sz) q).
(** lines 242-257 and 259-274 *)
Definition cell_state_node (q : gdtype) (rec : list (list fstep)) : res node :=
  do sz <- get_scale_zp (concat (concat (map (map fs_c) rec))) q true; Ok (plain_node (fst sz) (snd sz) q).
Definition hidden_state_node (q : gdtype) (rec : list (list fstep)) : res node :=
  do sz <- get_scale_zp (concat (concat (map (map fs_h) rec))) q false; Ok (plain_node (fst sz) (snd sz) q).
(** activations.py:55-95 for the names "sigmoid" and "tanh", both with tables: [inp] is the (deep-copied) input node, which gets the
    table; the table is built with the input node's dtype (tensor.py:284-311) *)
Definition act_pair (fn : Q -> Q) (data : list Q) (q : gdtype) (inp : node) : res (node * node) :=
  do sz <- get_scale_zp (map fn data) q false;
  let t := NodeModel.lut_new (n_dtype inp) fn (n_scale inp) (zp0 inp) (fst sz) (snd sz) in
  Ok (mknode (n_scale inp) (n_zp inp) (n_dtype inp) (n_tensor inp)
        (Some (mklutj (Some (NodeModel.l_table t)) None (Some (NodeModel.lut_offset t)))),
      plain_node (fst sz) (snd sz) q).
(** line 422: recurrent_add[: n_units] slices the TIME axis: all four gates of the first n_units steps *)
Definition input_gate_data (n : nat) (rec : list (list fstep)) : list Q := concat (concat (map (map fs_pre) (firstn n rec))).
(** line 450: recurrent_add[:, :, 3 * n_units :] *)
Definition output_gate_data (n : nat) (rec : list (list fstep)) : list Q := concat (concat (map (map (fun s => skipn (3 * n) (fs_pre s))) rec)).

(** lines 372-532 quantize, with the constructor (48-65).  Result: the operator's 32 inputs, its output, the float data handed on.
    With no time step the arrays have no second axis (line 200; line 685 for return_sequences): IndexError. *)
Record lstm_export := mkle { le_ins : list node; le_out : node; le_data : fdata }.
Definition klstm_quantize (fn : lfns) (dt : ldtypes) (l : klstm) (input : node) (T : nat) (data : list (list (list Q))) : res lstm_export :=
  match kl_B l with
  | None => Err EIndexError
  | Some b =>
      do q <- parse_ldtypes dt;
      let n := kl_units l in
      let rec := reference fn l b T data in
      if (T =? 0)%nat then Err EIndexError else
      do k0 <- gate_kernel (q_kernel q) n 0 (kl_K l); do k1 <- gate_kernel (q_kernel q) n 1 (kl_K l);
      do k2 <- gate_kernel (q_kernel q) n 2 (kl_K l); do k3 <- gate_kernel (q_kernel q) n 3 (kl_K l);
      do u0 <- gate_kernel (q_rec q) n 0 (kl_U l); do u1 <- gate_kernel (q_rec q) n 1 (kl_U l);
      do u2 <- gate_kernel (q_rec q) n 2 (kl_U l); do u3 <- gate_kernel (q_rec q) n 3 (kl_U l);
      let bn g k := gate_bias (q_bias q) n g (n_scale input) k b in
      do h <- hidden_state_node (q_hidden q) rec;
      let ba u := gate_bias_add (q_bias_add q) (n_scale h) u in
      do r0 <- gate_rec_add (q_rec_add q) n 0 rec; do r1 <- gate_rec_add (q_rec_add q) n 1 rec;
      do r2 <- gate_rec_add (q_rec_add q) n 2 rec; do r3 <- gate_rec_add (q_rec_add q) n 3 rec;
      do c <- cell_state_node (q_cell q) rec;
      do ai <- act_pair (fn_sig fn) (input_gate_data n rec) (q_act q) r0;
      do af <- act_pair (fn_sig fn) (pre_part n 1 rec) (q_act q) r1;
      do ac <- act_pair (fn_tanh fn) (pre_part n 2 rec) (q_act q) r2;
      do ao <- act_pair (fn_sig fn) (output_gate_data n rec) (q_act q) r3;
      do aa <- act_pair (fn_tanh fn) (concat (concat (map (map fs_c) rec))) (q_cell q) c;
      Ok (mkle ([input; k0; k1; k2; k3; u0; u1; u2; u3; bn 0%nat k0; bn 1%nat k1; bn 2%nat k2; bn 3%nat k3;
                 ba u0; ba u1; ba u2; ba u3; r0; r1; r2; r3; c;
                 fst ai; snd ai; fst af; snd af; fst ac; snd ac; fst ao; snd ao; fst aa; snd aa])
               h (reference_result l (length data) rec))
  end.

(** ** The engine reading the operator: layers/itclq/lstm.py:131-171 from_model: inputs[21] is read before
    the pairs inputs[22:24] .. inputs[30:32] are unpacked. *)
Definition dnode : node := plain_node 0 0 {| gmin := 0; gmax := 0; grepr := [] |}.
Definition lstm_from_model (ins : list node) (out : node) (ret_seq : bool) : res lstm :=
  if (length ins <? 22)%nat then Err EIndexError else if (length ins <? 32)%nat then Err EValueError else
  let at_ (k : nat) := nth k ins dnode in
  let gn (g : nat) := mkgn (at_ (1 + g)%nat) (at_ (5 + g)%nat) (at_ (9 + g)%nat) (at_ (17 + g)%nat) (at_ (22 + 2 * g)%nat) (at_ (23 + 2 * g)%nat) in
  lstm_build (at_ 0%nat) out (at_ 21%nat) (at_ 30%nat) (at_ 31%nat) (gn 0%nat) (gn 1%nat) (gn 2%nat) (gn 3%nat) ret_seq.
