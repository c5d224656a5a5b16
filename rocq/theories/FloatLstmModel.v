(** inference_engine/itcl_inference_engine/layers/itclq/lstm.py with every float operation in binary64
    (LstmModel.v takes floats as exact rationals).  The integer parts are those of LstmModel; scales are
    finite Python floats read from JSON.  Simplifications as in LstmModel. *)
From Verif Require Import Base DtypeModel QuantModel LutModel FcModel EngineModel LstmModel FloatModel FloatFcModel.
Open Scope Z_scope.
Open Scope list_scope.

(** astype(np.int64) of a float64 array element: truncation; out of range, infinities and NaN give INT64_MIN. *)
Definition fcast_i64 (a : f64) : Z := match a with Fin x => to_i64 x | _ => - 2 ^ 63 end.

(** One gate (lines 94-110): [g_kernel], [g_rec], [g_bias] and [g_rzp] as in LstmModel, M1 and M2 as floats *)
Record fgate := mkfgate {
  fg_kernel : list (list Z); fg_rec : list (list Z); fg_bias : list Z; fg_M1 : f64; fg_M2 : f64; fg_rzp : Z }.
(** lines 94-127; the FloatingIntegerApprox objects M3, M4, M5 have integer_only=False, so
    floating.py:31-34 multiplies by the float they were given *)
Record flstm := mkflstm {
  fl_in : fgate; fl_forget : fgate; fl_cell : fgate; fl_out : fgate;
  fl_M3 : f64; fl_M4 : f64; fl_M5 : f64;
  fl_in_lut : lutact; fl_forget_lut : lutact; fl_cell_lut : lutact; fl_out_lut : lutact; fl_state_lut : lutact;
  fl_input_zp : Z; fl_hidden_zp : Z; fl_in_zp : Z; fl_forget_zp : Z; fl_cellg_zp : Z; fl_out_zp : Z;
  fl_state_zp : Z; fl_act_zp : Z;
  fl_rec_dtype : gdtype; fl_state_dtype : gdtype; fl_hidden_dtype : gdtype;
  fl_cells : nat; fl_seq : bool }.

(** lines 286-287 for one row: int64 sums, converted to float64, times M1 *)
Definition bias_add_row_f (n : nat) (g : fgate) (x : list Z) : res (list Z) :=
  do m <- vecmat n x (fg_kernel g);
  Ok (map (fun j => fcast_i64 (fmul (fg_M1 g) (f_of_Z (i64 (nth j m 0 + nth j (fg_bias g) 0))))) (seq 0 n)).
(** lines 294-302 for one row *)
Definition recurrent_row_f (n : nat) (d : gdtype) (g : fgate) (h b : list Z) : res (list Z) :=
  do m <- vecmat n h (fg_rec g);
  Ok (map (fun j => fcast_i64 (fclip (gmin d) (gmax d)
        (fadd (fmul (f_of_Z (i64 (nth j m 0 + nth j b 0))) (fg_M2 g)) (f_of_Z (fg_rzp g))))) (seq 0 n)).
(** lines 318-334 for one element: zero point + (M3 * f) * c, then + M4 * (i * g) *)
Definition cell1_f (l : flstm) (f c i g : Z) : Z :=
  clipZ (gmin (fl_state_dtype l)) (gmax (fl_state_dtype l))
    (fcast_i64 (fadd (fadd (f_of_Z (fl_state_zp l))
                        (fmul (fmul (f_of_Z (f - fl_forget_zp l)) (fl_M3 l)) (f_of_Z (c - fl_state_zp l))))
                  (fmul (f_of_Z ((i - fl_in_zp l) * (g - fl_cellg_zp l))) (fl_M4 l)))).
(** lines 343-358 for one element *)
Definition hidden1_f (l : flstm) (o a : Z) : Z :=
  clipZ (gmin (fl_hidden_dtype l)) (gmax (fl_hidden_dtype l))
    (fcast_i64 (fadd (f_of_Z (fl_hidden_zp l)) (fmul (f_of_Z ((o - fl_out_zp l) * (a - fl_act_zp l))) (fl_M5 l)))).

(** One time step (lines 279-360) for one row of the batch. *)
Definition step_row_f (l : flstm) (h c : list Z) (x : list Z) : res step_rec :=
  let n := fl_cells l in
  do bi <- bias_add_row_f n (fl_in l) x; do bf <- bias_add_row_f n (fl_forget l) x;
  do bc <- bias_add_row_f n (fl_cell l) x; do bo <- bias_add_row_f n (fl_out l) x;
  let d := fl_rec_dtype l in
  do ri <- recurrent_row_f n d (fl_in l) h bi; do rf <- recurrent_row_f n d (fl_forget l) h bf;
  do rc <- recurrent_row_f n d (fl_cell l) h bc; do ro <- recurrent_row_f n d (fl_out l) h bo;
  do ai <- lut_row (fl_in_lut l) ri; do af <- lut_row (fl_forget_lut l) rf;
  do ac <- lut_row (fl_cell_lut l) rc; do ao <- lut_row (fl_out_lut l) ro;
  let c' := map (fun j => cell1_f l (nth j af 0) (nth j c 0) (nth j ai 0) (nth j ac 0)) (seq 0 n) in
  do aa <- lut_row (fl_state_lut l) c';
  let h' := map (fun j => hidden1_f l (nth j ao 0) (nth j aa 0)) (seq 0 n) in
  Ok (mkstep [ri; rf; rc; ro] [ai; af; ac; ao] c' aa h').
(** One time step for the whole batch (as LstmModel.step_batch) *)
Definition step_batch_f (l : flstm) (h c : list (list Z)) (x : list (list Z)) : res (list step_rec) :=
  if (length x =? 0)%nat || (fl_cells l =? 0)%nat then Err EValueError
  else mapM (fun p => step_row_f l (brow h (fst p)) (brow c (fst p)) (snd p)) (combine (seq 0 (length x)) x).
(** lines 279-360: the loop *)
Fixpoint run_steps_f (l : flstm) (h c : list (list Z)) (xs : list (list (list Z))) : res (list (list step_rec)) :=
  match xs with
  | [] => Ok []
  | x :: r =>
      do s <- step_batch_f l h c x;
      do ss <- run_steps_f l (map s_hidden s) (map s_cell s) r;
      Ok (s :: ss)
  end.
(** lines 267-368 infer *)
Definition lstm_infer_f (l : flstm) (T : nat) (samples : list (list (list Z))) : res (lstm_out * list (list step_rec)) :=
  let z := [repeat 0 (fl_cells l)] in
  do ss <- run_steps_f l z z (timesteps T (fl_input_zp l) samples);
  let hs := map (map s_hidden) ss in
  match hs with
  | [] => Err EIndexError
  | _ =>
      Ok (if fl_seq l
          then OSeq (map (fun b => map (fun step => nth b step []) hs) (seq 0 (length samples)))
          else OLast (last hs []), ss)
  end.

(** A node's scale as a float *)
Definition n_scale_f (n : node) : f64 := Fin (n_scale n).
(** lines 200-220 for one gate: two products and one division for M1, one of each for M2 *)
Definition build_gate_f (input hidden : node) (g : gate_nodes) : res fgate :=
  do k <- centred (gn_kernel g); do r <- centred (gn_rec g); do b <- centred (gn_bias g);
  do m1 <- py_div_f (fmul (n_scale_f (gn_kernel g)) (n_scale_f input)) (fmul (n_scale_f hidden) (n_scale_f (gn_rec g)));
  do m2 <- py_div_f (fmul (n_scale_f (gn_rec g)) (n_scale_f hidden)) (n_scale_f (gn_radd g));
  Ok (mkfgate k r (hd [] b) m1 m2 (zp0 (gn_radd g))).
(** lines 196-265 with 94-127 *)
Definition lstm_build_f (input hidden state act_in act_out : node) (gi gf gc go : gate_nodes) (ret_seq : bool) : res flstm :=
  do i <- build_gate_f input hidden gi; do f <- build_gate_f input hidden gf;
  do c <- build_gate_f input hidden gc; do o <- build_gate_f input hidden go;
  let M3 := n_scale_f (gn_out gf) in
  do M4 <- py_div_f (fmul (n_scale_f (gn_out gi)) (n_scale_f (gn_out gc))) (n_scale_f state);
  do M5 <- py_div_f (fmul (n_scale_f (gn_out go)) (n_scale_f act_out)) (n_scale_f hidden);
  do li <- lut_from_node (n_lut (gn_in gi)); do lf <- lut_from_node (n_lut (gn_in gf));
  do lc <- lut_from_node (n_lut (gn_in gc)); do lo <- lut_from_node (n_lut (gn_in go));
  do ls <- lut_from_node (n_lut act_in);
  do m3 <- fia_init_f M3; do m4 <- fia_init_f M4; do m5 <- fia_init_f M5;
  Ok (mkflstm i f c o M3 M4 M5 li lf lc lo ls
        (zp0 input) (zp0 hidden) (zp0 (gn_out gi)) (zp0 (gn_out gf)) (zp0 (gn_out gc)) (zp0 (gn_out go))
        (zp0 state) (zp0 act_out)
        (n_dtype (gn_radd gi)) (n_dtype act_out) (n_dtype hidden)
        (length (hd [] (fg_kernel i))) ret_seq).
