(** Model of inference_engine/itcl_inference_engine/layers/itclq/lstm.py (LSTM, quantized).
    Arrays are lists of rows; the four-element lists of kernels, biases and multipliers are a
    record per gate.  Integer arithmetic is int64 (numpy wraps); float arithmetic is exact.
    Simplifications: when a call raises, which of several possible exceptions is raised first is not
    modelled (rows are evaluated one after the other); differences and products of activated gate
    codes (a few bits each) are mathematical integers. *)
From Verif Require Import Base DtypeModel QuantModel LutModel FcModel EngineModel.
Open Scope Z_scope.
Open Scope list_scope.

(** astype(np.int64) of a float on x86-64: truncate, out of range gives INT64_MIN. *)
Definition cast_i64 (z : Z) : Z :=
  if (- 2 ^ 63 <=? z) && (z <=? 2 ^ 63 - 1) then z else - 2 ^ 63.
Definition to_i64 (x : Q) : Z := cast_i64 (Qtrunc x).
(** np.clip of a float between integers *)
Definition clipQ (lo hi : Z) (x : Q) : Q :=
  if Qlt_le_dec x (inject_Z lo) then inject_Z lo
  else if Qlt_le_dec (inject_Z hi) x then inject_Z hi else x.

(** One gate: centred kernel (features x cells), centred recurrent kernel (cells x cells), centred
    bias, M1, M2, recurrent_add zero point (lines 94-110). *)
Record gate := mkgate {
  g_kernel : list (list Z); g_rec : list (list Z); g_bias : list Z; g_M1 : Q; g_M2 : Q; g_rzp : Z }.

(** lines 94-127 *)
Record lstm := mklstm {
  l_in : gate; l_forget : gate; l_cell : gate; l_out : gate;
  l_M3 : Q; l_M4 : Q; l_M5 : Q;
  l_in_lut : lutact; l_forget_lut : lutact; l_cell_lut : lutact; l_out_lut : lutact; l_state_lut : lutact;
  l_input_zp : Z; l_hidden_zp : Z; l_in_zp : Z; l_forget_zp : Z; l_cellg_zp : Z; l_out_zp : Z;
  l_state_zp : Z; l_act_zp : Z;
  l_rec_dtype : gdtype; l_state_dtype : gdtype; l_hidden_dtype : gdtype;
  l_cells : nat; l_seq : bool }.

(** row @ matrix, int64; a length mismatch is numpy's ValueError. *)
Definition vecmat (n : nat) (x : list Z) (k : list (list Z)) : res (list Z) :=
  if (length x =? length k)%nat
  then Ok (map (fun j => i64 (sumZ (map2 (fun a r => a * nth j r 0) x k))) (seq 0 n))
  else Err EValueError.

(** lines 286-287 for one row of the batch; bias has one entry per cell *)
Definition bias_add_row (n : nat) (g : gate) (x : list Z) : res (list Z) :=
  do m <- vecmat n x (g_kernel g);
  Ok (map (fun j => to_i64 (g_M1 g * inject_Z (i64 (nth j m 0 + nth j (g_bias g) 0)))) (seq 0 n)).

(** lines 294-302 for one row: hidden state row [h], this row's bias_add *)
Definition recurrent_row (n : nat) (d : gdtype) (g : gate) (h b : list Z) : res (list Z) :=
  do m <- vecmat n h (g_rec g);
  Ok (map (fun j => to_i64 (clipQ (gmin d) (gmax d)
        (inject_Z (i64 (nth j m 0 + nth j b 0)) * g_M2 g + inject_Z (g_rzp g)))) (seq 0 n)).

(** lut.infer on one row (lines 308-315, 338): element-wise lookups *)
Definition lut_row (a : lutact) (xs : list Z) : res (list Z) :=
  mapM (fun x => lookup (la_table a) (x + la_offset a)) xs.

(** lines 318-334 for one element *)
Definition cell1 (l : lstm) (f c i g : Z) : Z :=
  clipZ (gmin (l_state_dtype l)) (gmax (l_state_dtype l))
    (to_i64 (inject_Z (l_state_zp l)
             + inject_Z (f - l_forget_zp l) * l_M3 l * inject_Z (c - l_state_zp l)
             + inject_Z ((i - l_in_zp l) * (g - l_cellg_zp l)) * l_M4 l)).
(** lines 343-358 for one element *)
Definition hidden1 (l : lstm) (o a : Z) : Z :=
  clipZ (gmin (l_hidden_dtype l)) (gmax (l_hidden_dtype l))
    (to_i64 (inject_Z (l_hidden_zp l) + inject_Z ((o - l_out_zp l) * (a - l_act_zp l)) * l_M5 l)).

(** What one step records for one row (class LSTMIntermediateTensors, lines 12-22). *)
Record step_rec := mkstep {
  s_pre : list (list Z);      (* recurrent_add of the four gates *)
  s_gates : list (list Z);    (* activated input, forget, cell, output gates *)
  s_cell : list Z; s_act : list Z; s_hidden : list Z }.

(** One time step (lines 279-360) for one row of the batch. *)
Definition step_row (l : lstm) (h c : list Z) (x : list Z) : res step_rec :=
  let n := l_cells l in
  do bi <- bias_add_row n (l_in l) x; do bf <- bias_add_row n (l_forget l) x;
  do bc <- bias_add_row n (l_cell l) x; do bo <- bias_add_row n (l_out l) x;
  let d := l_rec_dtype l in
  do ri <- recurrent_row n d (l_in l) h bi; do rf <- recurrent_row n d (l_forget l) h bf;
  do rc <- recurrent_row n d (l_cell l) h bc; do ro <- recurrent_row n d (l_out l) h bo;
  do ai <- lut_row (l_in_lut l) ri; do af <- lut_row (l_forget_lut l) rf;
  do ac <- lut_row (l_cell_lut l) rc; do ao <- lut_row (l_out_lut l) ro;
  let c' := map (fun j => cell1 l (nth j af 0) (nth j c 0) (nth j ai 0) (nth j ac 0)) (seq 0 n) in
  do aa <- lut_row (l_state_lut l) c';
  let h' := map (fun j => hidden1 l (nth j ao 0) (nth j aa 0)) (seq 0 n) in
  Ok (mkstep [ri; rf; rc; ro] [ai; af; ac; ao] c' aa h').

(** numpy broadcasting of the (1, cells) initial state over the batch (lines 273-274, 294, 324):
    a state with one row stands for every row. *)
Definition brow (s : list (list Z)) (b : nat) : list Z :=
  match s with [r] => r | _ => nth b s [] end.

(** One time step for the whole batch; size-0 arrays make np.vectorize raise ValueError. *)
Definition step_batch (l : lstm) (h c : list (list Z)) (x : list (list Z)) : res (list step_rec) :=
  if (length x =? 0)%nat || (l_cells l =? 0)%nat then Err EValueError
  else mapM (fun p => step_row l (brow h (fst p)) (brow c (fst p)) (snd p)) (combine (seq 0 (length x)) x).

(** lines 279-360: the loop; returns the records of every step. *)
Fixpoint run_steps (l : lstm) (h c : list (list Z)) (xs : list (list (list Z))) : res (list (list step_rec)) :=
  match xs with
  | [] => Ok []
  | x :: r =>
      do s <- step_batch l h c x;
      do ss <- run_steps l (map s_hidden s) (map s_cell s) r;
      Ok (s :: ss)
  end.

(** line 270: (input - zp).swapaxes(0, 1).  The input is (batch, time, features): [T] steps. *)
Definition timesteps (T : nat) (zp : Z) (samples : list (list (list Z))) : list (list (list Z)) :=
  map (fun t => map (fun s => map (fun v => i64 (v - zp)) (nth t s [])) samples) (seq 0 T).

(** The result: (batch, time, cells) when return_sequences, else (batch, cells). *)
Inductive lstm_out := OSeq (o : list (list (list Z))) | OLast (o : list (list Z)).

(** lines 267-368 infer; [T] is the middle dimension of the input.  With no time step, hs has
    shape (0,): swapaxes raises AxisError (a ValueError and IndexError) and hs[-1] IndexError. *)
Definition lstm_infer (l : lstm) (T : nat) (samples : list (list (list Z))) : res (lstm_out * list (list step_rec)) :=
  let z := [repeat 0 (l_cells l)] in
  do ss <- run_steps l z z (timesteps T (l_input_zp l) samples);
  let hs := map (map s_hidden) ss in
  match hs with
  | [] => Err EIndexError
  | _ =>
      Ok (if l_seq l
          then OSeq (map (fun b => map (fun step => nth b step []) hs) (seq 0 (length samples)))
          else OLast (last hs []), ss)
  end.

(** ** Construction (lines 132-265) *)
(** A JSON node: scale, zero point, dtype of its tensor, LUT and tensor values where used. *)
Record node := mknode {
  n_scale : Q; n_zp : option Z; n_dtype : gdtype; n_tensor : list (list Z); n_lut : option lut_json }.
Definition zp0 (n : node) : Z := match n_zp n with Some z => z | None => 0 end.
(** line 200-208: [np.array(tensor) - zero_point]; a null zero point is a TypeError *)
Definition centred (n : node) : res (list (list Z)) :=
  match n_zp n with
  | Some z => Ok (map (map (fun v => i64 (v - z))) (n_tensor n))
  | None => Err ETypeError
  end.
Record gate_nodes := mkgn { gn_kernel : node; gn_rec : node; gn_bias : node; gn_radd : node; gn_in : node; gn_out : node }.

(** Division of Python floats (the scales come from JSON) *)
Definition py_div (a b : Q) : res Q := if Qeq_bool b 0 then Err EZeroDivision else Ok (a / b)%Q.
(** lines 200-220 for one gate *)
Definition build_gate (input hidden : node) (g : gate_nodes) : res gate :=
  do k <- centred (gn_kernel g); do r <- centred (gn_rec g); do b <- centred (gn_bias g);
  do m1 <- py_div (n_scale (gn_kernel g) * n_scale input) (n_scale hidden * n_scale (gn_rec g));
  do m2 <- py_div (n_scale (gn_rec g) * n_scale hidden) (n_scale (gn_radd g));
  Ok (mkgate k r (hd [] b) m1 m2 (zp0 (gn_radd g))).

(** lines 196-265 with 94-127; the three FloatingIntegerApprox objects are built with
    integer_only=False, so only their constructor's failures matter. The bias tensor is 1-D
    (first row of n_tensor). *)
Definition lstm_build (input hidden state act_in act_out : node) (gi gf gc go : gate_nodes) (ret_seq : bool) : res lstm :=
  do i <- build_gate input hidden gi; do f <- build_gate input hidden gf;
  do c <- build_gate input hidden gc; do o <- build_gate input hidden go;
  let M3 := n_scale (gn_out gf) in
  do M4 <- py_div (n_scale (gn_out gi) * n_scale (gn_out gc)) (n_scale state);
  do M5 <- py_div (n_scale (gn_out go) * n_scale act_out) (n_scale hidden);
  do li <- lut_from_node (n_lut (gn_in gi)); do lf <- lut_from_node (n_lut (gn_in gf));
  do lc <- lut_from_node (n_lut (gn_in gc)); do lo <- lut_from_node (n_lut (gn_in go));
  do ls <- lut_from_node (n_lut act_in);
  do m3 <- fia_init M3; do m4 <- fia_init M4; do m5 <- fia_init M5;
  Ok (mklstm i f c o M3 M4 M5 li lf lc lo ls
        (zp0 input) (zp0 hidden) (zp0 (gn_out gi)) (zp0 (gn_out gf)) (zp0 (gn_out gc)) (zp0 (gn_out go))
        (zp0 state) (zp0 act_out)
        (n_dtype (gn_radd gi)) (n_dtype act_out) (n_dtype hidden)
        (length (hd [] (g_kernel i))) ret_seq).
