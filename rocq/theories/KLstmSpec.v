(** Specification vocabulary for properties C61-C63 (PropKLstm.v): the textbook LSTM, the conditions and the error bound. *)
From Verif Require Import Base DtypeModel QuantModel LutModel FcModel EngineModel DistModel BuildModel PipeModel LstmModel KLstmModel
  PropCore PropFc PropDist PipeSpec.
From Coq Require Import Qminmax.
Open Scope Z_scope.
Open Scope list_scope.

(** ** The textbook LSTM.  Gates: 0 input, 1 forget, 2 cell, 3 output; the columns of gate g in a weight array are g*units ... *)
Definition entry (m : list (list Q)) (n g k j : nat) : Q := nth (g * n + j) (nth k m []) 0%Q.
(** pre-activation of unit j of gate g, for previous hidden state h and input row x: h U + (x K + b) *)
Definition pre (l : klstm) (b : list Q) (h : nat -> Q) (x : list Q) (g j : nat) : Q :=
  let n := kl_units l in
  (sumQ_upto n (fun k => h k * entry (kl_U l) n g k j) +
   (sumQ_upto (length x) (fun k => nth k x 0 * entry (kl_K l) n g k j) + nth (g * n + j) b 0))%Q.
Definition gate_fn (fn : lfns) (g : nat) : Q -> Q := if (g =? 2)%nat then fn_tanh fn else fn_sig fn.
(** hidden and cell state, unit by unit *)
Record lstate := mkst { st_h : nat -> Q; st_c : nat -> Q }.
Definition lnext (fn : lfns) (l : klstm) (b : list Q) (s : lstate) (x : list Q) : lstate :=
  let gate g j := gate_fn fn g (pre l b (st_h s) x g j) in
  let c j := (gate 1%nat j * st_c s j + gate 0%nat j * gate 2%nat j)%Q in
  mkst (fun j => gate 3%nat j * fn_tanh fn (c j))%Q c.
(** the state after reading the rows xs, starting from zeros *)
Definition state (fn : lfns) (l : klstm) (b : list Q) (xs : list (list Q)) : lstate :=
  fold_left (lnext fn l b) xs (mkst (fun _ => 0%Q) (fun _ => 0%Q)).
(** values computed at step t of the sample xs *)
Definition pre_at fn l b (xs : list (list Q)) (t g j : nat) : Q := pre l b (st_h (state fn l b (firstn t xs))) (nth t xs []) g j.
Definition gate_at fn l b xs t g j : Q := gate_fn fn g (pre_at fn l b xs t g j).
Definition cell_at fn l b xs t j : Q := st_c (state fn l b (firstn (S t) xs)) j.
Definition act_at fn l b xs t j : Q := fn_tanh fn (cell_at fn l b xs t j).
Definition hidden_at fn l b xs t j : Q := st_h (state fn l b (firstn (S t) xs)) j.

(** ** Shapes and configurations *)
(** a Keras LSTM layer with bias b, calibrated on a non-empty batch of samples of T steps *)
Record lstm_shaped (l : klstm) (b : list Q) (T : nat) (data : list (list (list Q))) : Prop := {
  ls_units : (0 < kl_units l)%nat; ls_feat : kl_K l <> []; ls_T : (0 < T)%nat; ls_data : data <> [];
  ls_bias : kl_B l = Some b; ls_blen : length b = (4 * kl_units l)%nat;
  ls_K : forall r, In r (kl_K l) -> length r = (4 * kl_units l)%nat;
  ls_Ul : length (kl_U l) = kl_units l; ls_U : forall r, In r (kl_U l) -> length r = (4 * kl_units l)%nat;
  ls_time : forall s, In s data -> length s = T;
  ls_rows : forall s r, In s data -> In r s -> length r = length (kl_K l) }.
(** at most 16 bits, signed or not *)
Definition short (q : gdtype) : Prop := - 2 ^ 16 <= gmin q /\ gmin q < gmax q /\ gmax q <= 2 ^ 16 /\ gmax q - gmin q < 2 ^ 16.
Record good_ldt (dt : ldtypes) (q : lqs) : Prop := {
  gl_parse : parse_ldtypes dt = Ok q;
  gl_k : short (q_kernel q); gl_u : short (q_rec q); gl_h : short (q_hidden q); gl_c : short (q_cell q); gl_r : short (q_rec_add q);
  gl_b : within_int32 (q_bias q);
  gl_act : q_act q = q_rec_add q;
  gl_cpos : 0 < gmax (q_cell q); gl_csym : gmin (q_cell q) <= - gmax (q_cell q) }.

(** ** What an exported node stands for *)
Definition val (n : node) (c : Z) : Q := (n_scale n * inject_Z (c - zp0 n))%Q.
Record node_good (n : node) (q : gdtype) : Prop := {
  ng_dtype : n_dtype n = q; ng_pos : (0 < n_scale n)%Q; ng_zp : exists z, n_zp n = Some z /\ in_dtype q z }.
(** the node represents v: its code for v is at most half a step away *)
Definition represents (n : node) (v : Q) : Prop := (Qabs (val n (quant1 (n_dtype n) (zp0 n) (n_scale n) v) - v) <= n_scale n * (1#2))%Q.
(** the tensor of a node, rows x cols *)
Definition code (n : node) (k j : nat) : Z := nth j (nth k (n_tensor n) []) 0.
Definition dims (n : node) (rows cols : nat) : Prop := length (n_tensor n) = rows /\ forall r, In r (n_tensor n) -> length r = cols.

(** ** Calibration values: f is one of the [.._at] functions above *)
Definition calib (f : list (list Q) -> nat -> nat -> Q) (n T : nat) (data : list (list (list Q))) : list Q :=
  flat_map (fun xs => flat_map (fun t => map (f xs t) (seq 0 n)) (seq 0 T)) data.
(** the values the activation outputs of gate g are calibrated on.  For the input gate (keras_lstm.py:422) these are the sigmoids of
    the pre-activations of ALL gates, during the first [units] steps only *)
Definition gate_calib fn l b T data (g : nat) : list Q :=
  let n := kl_units l in
  if (g =? 0)%nat
  then flat_map (fun g' => calib (fun xs t j => fn_sig fn (pre_at fn l b xs t g' j)) n (Nat.min T n) data) (seq 0 4)
  else calib (fun xs t j => gate_at fn l b xs t g j) n T data.
(** every intermediate value for the sample xs stays in the hull of (0 and) the calibration values *)
Record lstm_covered (fn : lfns) (l : klstm) (b : list Q) (T : nat) (data : list (list (list Q))) (xs : list (list Q)) : Prop := {
  lc_pre : forall t g j, (t < length xs)%nat -> (g < 4)%nat -> (j < kl_units l)%nat ->
     in_hull (calib (fun xs t j => pre_at fn l b xs t g j) (kl_units l) T data) (pre_at fn l b xs t g j);
  lc_gate : forall t g j, (t < length xs)%nat -> (g < 4)%nat -> (j < kl_units l)%nat ->
     in_hull (gate_calib fn l b T data g) (gate_at fn l b xs t g j);
  lc_cell : forall t j, (t < length xs)%nat -> (j < kl_units l)%nat ->
     in_hull (calib (cell_at fn l b) (kl_units l) T data) (cell_at fn l b xs t j);
  lc_act : forall t j, (t < length xs)%nat -> (j < kl_units l)%nat ->
     in_hull (calib (act_at fn l b) (kl_units l) T data) (act_at fn l b xs t j);
  lc_hidden : forall t j, (t < length xs)%nat -> (j < kl_units l)%nat ->
     in_hull (calib (hidden_at fn l b) (kl_units l) T data) (hidden_at fn l b xs t j) }.

(** ** Names for the inputs of the exported operator (the order the engine reads) *)
Definition x_in (e : lstm_export) : node := nth 0 (le_ins e) dnode.
Definition x_kernel (e : lstm_export) (g : nat) : node := nth (1 + g) (le_ins e) dnode.
Definition x_rec (e : lstm_export) (g : nat) : node := nth (5 + g) (le_ins e) dnode.
Definition x_bias (e : lstm_export) (g : nat) : node := nth (9 + g) (le_ins e) dnode.
Definition x_pre (e : lstm_export) (g : nat) : node := nth (17 + g) (le_ins e) dnode.
Definition x_cell (e : lstm_export) : node := nth 21 (le_ins e) dnode.
Definition x_gate_in (e : lstm_export) (g : nat) : node := nth (22 + 2 * g) (le_ins e) dnode.
Definition x_gate (e : lstm_export) (g : nat) : node := nth (23 + 2 * g) (le_ins e) dnode.
Definition x_act_in (e : lstm_export) : node := nth 30 (le_ins e) dnode.
Definition x_act (e : lstm_export) : node := nth 31 (le_ins e) dnode.

(** conditions on the exported file: no bias code is saturated; multipliers and sizes leave room in 64 bits *)
Record lstm_file_ok (l : klstm) (qb : gdtype) (e : lstm_export) : Prop := {
  lf_bias : forall g j, (g < 4)%nat -> (j < kl_units l)%nat -> gmin qb < code (x_bias e g) 0 j < gmax qb;
  lf_M1 : forall g, (g < 4)%nat ->
    (n_scale (x_kernel e g) * n_scale (x_in e) / (n_scale (le_out e) * n_scale (x_rec e g)) * inject_Z (Z.of_nat (length (kl_K l)) + 1) <= inject_Z (2 ^ 29))%Q;
  lf_M3 : (n_scale (x_gate e 1) <= inject_Z (2 ^ 28))%Q;
  lf_M4 : (n_scale (x_gate e 0) * n_scale (x_gate e 2) / n_scale (x_cell e) <= inject_Z (2 ^ 28))%Q;
  lf_M5 : (n_scale (x_gate e 3) * n_scale (x_act e) / n_scale (le_out e) <= inject_Z (2 ^ 28))%Q;
  lf_units : Z.of_nat (kl_units l) <= 2 ^ 29; lf_feat : Z.of_nat (length (kl_K l)) <= 2 ^ 29 }.

(** ** The error bound *)
(** |f a - f b| <= L |a - b| + D and |f| <= 1 *)
Definition bounded_lip (f : Q -> Q) (L D : Q) : Prop :=
  (0 <= L)%Q /\ (0 <= D)%Q /\ (forall a, Qabs (f a) <= 1)%Q /\ forall a b, (Qabs (f a - f b) <= L * Qabs (a - b) + D)%Q.
(** the largest absolute column sum of gate g in a weight array *)
Definition colsum (m : list (list Q)) (n g : nat) : Q :=
  fold_right Qmax 0%Q (map (fun j => sumQ_upto (length m) (fun k => Qabs (entry m n g k j))) (seq 0 n)).
Section Bound.
  Variables (l : klstm) (qc : gdtype) (e : lstm_export).
  Variables (Ls Ds Lt Dt : Q).        (* sigmoid and tanh *)
  Variables (X ex : Q).               (* bounds on the absolute sum of an input row and on the error of its codes *)
  Definition nq (n : nat) : Q := inject_Z (Z.of_nat n).
  (** pre-activation of gate g; [eh] bounds |scale * code - h| of the previous hidden state: its zero point is NOT subtracted *)
  Definition b_pre (g : nat) (eh : Q) : Q :=
    let si := n_scale (x_in e) in let sk := n_scale (x_kernel e g) in let su := n_scale (x_rec e g) in
    let sh := n_scale (le_out e) in let sr := n_scale (x_pre e g) in
    (ex * colsum (kl_K l) (kl_units l) g + sk * (1#2) * X + nq (length (kl_K l)) * (ex * (sk * (1#2))) + si * sk * (1#2)
     + (eh * colsum (kl_U l) (kl_units l) g + su * (1#2) * nq (kl_units l) + nq (kl_units l) * (eh * (su * (1#2))))
     + su * sh + sr * (3#2))%Q.
  Definition b_gate (g : nat) (eh : Q) : Q :=
    (if (g =? 2)%nat then Lt * b_pre g eh + Dt + n_scale (x_gate e g) * (1#2) else Ls * b_pre g eh + Ds + n_scale (x_gate e g) * (1#2))%Q.
  Definition b_cell (eh ec : Q) : Q :=
    let ei := b_gate 0 eh in let ef := b_gate 1 eh in let eg := b_gate 2 eh in
    ((1 + ef) * ec + n_scale (x_cell e) * inject_Z (gmax qc) * ef + ((1 + ei) * eg + ei) + n_scale (x_cell e))%Q.
  Definition b_hidden (eh ec : Q) : Q :=
    let eo := b_gate 3 eh in let ea := (Lt * b_cell eh ec + Dt + n_scale (x_act e) * (1#2))%Q in
    ((1 + eo) * ea + eo + n_scale (le_out e) * (3#2))%Q.
  (** what ignoring the zero point of the hidden state costs *)
  Definition zp_err : Q := (n_scale (le_out e) * Qabs (inject_Z (zp0 (le_out e))))%Q.
  (** (error of the recurrent operand, error of the cell state) after t steps *)
  Fixpoint b_state (t : nat) : Q * Q :=
    match t with
    | O => (0, 0)%Q
    | S t' => let (eh, ec) := b_state t' in (b_hidden eh ec + zp_err, b_cell eh ec)%Q
    end.
  (** error of the hidden state returned by step t *)
  Definition b_out (t : nat) : Q := let (eh, ec) := b_state t in b_hidden eh ec.
End Bound.
