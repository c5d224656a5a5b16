(** Specification vocabulary for property C90 (PropFloatKLstm.v): an LSTM file that stands for a Keras layer up to rounding, and the error
    bound of the engine reading it in binary64.  The textbook LSTM itself is in KLstmSpec.v. *)
From Verif Require Import Base DtypeModel QuantModel LutModel FcModel EngineModel DistModel BuildModel PipeModel LstmModel KLstmModel
  PropCore PropFc PropDist PipeSpec KLstmSpec FloatModel FloatProofs FloatLstmModel PropFloat PropFloatFc FloatLstmProofs PropFloatLstm FloatKLstmModel.
Open Scope Z_scope.
Open Scope list_scope.

(** ** A Keras LSTM layer with bias b *)
Record keras_lstm (l : klstm) (b : list Q) : Prop := {
  kr_bias : kl_B l = Some b; kr_units : (0 < kl_units l)%nat; kr_feat : kl_K l <> []; kr_blen : length b = (4 * kl_units l)%nat;
  kr_K : forall r, In r (kl_K l) -> length r = (4 * kl_units l)%nat;
  kr_Ul : length (kl_U l) = kl_units l; kr_U : forall r, In r (kl_U l) -> length r = (4 * kl_units l)%nat }.
(** the types of the file: at most 16 bits; the cell state's is symmetric up to one code *)
Record short_types (q : lqs) : Prop := {
  sy_k : short (q_kernel q); sy_u : short (q_rec q); sy_h : short (q_hidden q); sy_c : short (q_cell q); sy_r : short (q_rec_add q);
  sy_cpos : 0 < gmax (q_cell q); sy_csym : gmin (q_cell q) <= - gmax (q_cell q) }.

(** ** Codes up to a slack of [rho] steps (0 in exact arithmetic, a few roundings when the file was written by float code) *)
(** c is a code for the real code x: rounded, or saturated *)
Definition rounds (rho : Q) (q : gdtype) (c : Z) (x : Q) : Prop := in_dtype q c /\
  ((Qabs (inject_Z c - x) <= (1#2) + rho)%Q \/ (c = gmax q /\ (inject_Z (gmax q) <= x)%Q) \/ (c = gmin q /\ (x <= inject_Z (gmin q))%Q)).
(** a weight array *)
Definition weights_within (rho : Q) (nd : node) (q : gdtype) (rows n : nat) (w : nat -> nat -> Q) : Prop :=
  node_good nd q /\ dims nd rows n /\
  forall k j, (k < rows)%nat -> (j < n)%nat -> in_dtype q (code nd k j) /\ (Qabs (val nd (code nd k j) - w k j) <= n_scale nd * ((1#2) + rho))%Q.
(** a table for the function f, from codes of [inp] to codes of [out] *)
Definition table_within (rho : Q) (nd : node) (q : gdtype) (f : Q -> Q) (inp out : node) : Prop :=
  exists a, lut_from_node (n_lut nd) = Ok a /\
  forall c, in_dtype q c -> exists v, lookup (la_table a) (c + la_offset a) = Ok v /\ rounds rho q v (real_code (f (val inp c)) (n_scale out) (zp0 out)).
(** The file: 32 operator inputs and the output node, as the engine reads them. *)
Record lstm_file (rho : Q) (fn : lfns) (q : lqs) (l : klstm) (b : list Q) (e : lstm_export) : Prop := {
  fi_len : length (le_ins e) = 32%nat;
  fi_in : exists qi, node_good (x_in e) qi /\ short qi;
  fi_kernel : forall g, (g < 4)%nat -> weights_within rho (x_kernel e g) (q_kernel q) (length (kl_K l)) (kl_units l) (entry (kl_K l) (kl_units l) g);
  fi_rec : forall g, (g < 4)%nat -> weights_within rho (x_rec e g) (q_rec q) (kl_units l) (kl_units l) (entry (kl_U l) (kl_units l) g);
  fi_bias : forall g, (g < 4)%nat -> n_zp (x_bias e g) = Some 0 /\ dims (x_bias e g) 1 (kl_units l) /\
    forall j, (j < kl_units l)%nat -> Z.abs (code (x_bias e g) 0 j) <= 2 ^ 31 /\
      (Qabs (n_scale (x_in e) * n_scale (x_kernel e g) * inject_Z (code (x_bias e g) 0 j) - nth (g * kl_units l + j) b 0)
       <= n_scale (x_in e) * n_scale (x_kernel e g) * ((1#2) + rho))%Q;
  fi_pre : forall g, (g < 4)%nat -> node_good (x_pre e g) (q_rec_add q);
  fi_gate : forall g, (g < 4)%nat -> node_good (x_gate e g) (q_rec_add q);
  fi_table : forall g, (g < 4)%nat -> table_within rho (x_gate_in e g) (q_rec_add q) (gate_fn fn g) (x_pre e g) (x_gate e g);
  fi_cell : node_good (x_cell e) (q_cell q) /\ n_zp (x_cell e) = Some 0;
  fi_act : node_good (x_act e) (q_cell q);
  fi_act_table : table_within rho (x_act_in e) (q_cell q) (fn_tanh fn) (x_cell e) (x_act e);
  fi_hidden : node_good (le_out e) (q_hidden q) }.

(** ** Conditions on its numbers *)
(** Scales are doubles between 2^-200 and 2^200; multipliers and sizes leave room in 53 bits; [sigma] bounds the roundings of the engine, in
    steps of the value computed. *)
Record lstm_numbers_ok (l : klstm) (e : lstm_export) (sigma : Q) : Prop := {
  no_in : fair (n_scale (x_in e)); no_out : fair (n_scale (le_out e)); no_cell : fair (n_scale (x_cell e)); no_act : fair (n_scale (x_act e));
  no_kernel : forall g, (g < 4)%nat -> fair (n_scale (x_kernel e g)); no_rec : forall g, (g < 4)%nat -> fair (n_scale (x_rec e g));
  no_pre : forall g, (g < 4)%nat -> fair (n_scale (x_pre e g)); no_gate : forall g, (g < 4)%nat -> fair (n_scale (x_gate e g));
  no_units : Z.of_nat (kl_units l) <= 2 ^ 19; no_feat : Z.of_nat (length (kl_K l)) < 2 ^ 19;
  no_M1 : forall g, (g < 4)%nat ->
    (n_scale (x_kernel e g) * n_scale (x_in e) / (n_scale (le_out e) * n_scale (x_rec e g)) * inject_Z (Z.of_nat (length (kl_K l)) + 1) <= inject_Z (2 ^ 19))%Q;
  no_M3 : (n_scale (x_gate e 1) <= inject_Z (2 ^ 28))%Q;
  no_M4 : (n_scale (x_gate e 0) * n_scale (x_gate e 2) / n_scale (x_cell e) <= inject_Z (2 ^ 28))%Q;
  no_M5 : (n_scale (x_gate e 3) * n_scale (x_act e) / n_scale (le_out e) <= inject_Z (2 ^ 28))%Q;
  no_pre_round : forall g, (g < 4)%nat -> let sr := n_scale (x_pre e g) in
    (u49 * (n_scale (x_kernel e g) * n_scale (x_in e) * inject_Z ((Z.of_nat (length (kl_K l)) + 1) * 2 ^ 32) / sr
            + n_scale (x_rec e g) * n_scale (le_out e) * inject_Z (Z.of_nat (kl_units l) * 2 ^ 32) / sr
            + n_scale (x_rec e g) * n_scale (le_out e) / sr + inject_Z (2 ^ 16)) <= sigma)%Q;
  no_cell_round : (u50 * (inject_Z (2 ^ 32) * n_scale (x_gate e 1) + inject_Z (2 ^ 32) * (n_scale (x_gate e 0) * n_scale (x_gate e 2) / n_scale (x_cell e))) <= sigma)%Q;
  no_hidden_round : (u50 * (inject_Z (2 ^ 16) + inject_Z (2 ^ 32) * (n_scale (x_gate e 3) * n_scale (x_act e) / n_scale (le_out e))) <= sigma)%Q }.

(** ** What the file can represent *)
Definition fits_within (rho : Q) (nd : node) (v : Q) : Prop :=
  let d := n_dtype nd in (inject_Z (gmin d) - ((1#2) + rho) <= real_code v (n_scale nd) (zp0 nd) <= inject_Z (gmax d) + ((1#2) + rho))%Q.
(** every value of the textbook LSTM on the sample xs lies in the range of its node *)
Record lstm_in_range (rho : Q) (fn : lfns) (q : lqs) (l : klstm) (b : list Q) (e : lstm_export) (xs : list (list Q)) : Prop := {
  lr_pre : forall t g j, (t < length xs)%nat -> (g < 4)%nat -> (j < kl_units l)%nat -> fits_within rho (x_pre e g) (pre_at fn l b xs t g j);
  lr_gate : forall t g j, (t < length xs)%nat -> (g < 4)%nat -> (j < kl_units l)%nat -> fits_within rho (x_gate e g) (gate_at fn l b xs t g j);
  lr_cell : forall t j, (t < length xs)%nat -> (j < kl_units l)%nat ->
    (Qabs (cell_at fn l b xs t j) <= n_scale (x_cell e) * (inject_Z (gmax (q_cell q)) + rho))%Q;
  lr_act : forall t j, (t < length xs)%nat -> (j < kl_units l)%nat -> fits_within rho (x_act e) (act_at fn l b xs t j);
  lr_hidden : forall t j, (t < length xs)%nat -> (j < kl_units l)%nat -> fits_within rho (le_out e) (hidden_at fn l b xs t j) }.

(** ** The error bound: that of KLstmSpec with half steps widened by rho and truncations by sigma *)
Section Bound.
  Variables (l : klstm) (qc : gdtype) (e : lstm_export).
  Variables (Ls Ds Lt Dt : Q).        (* sigmoid and tanh *)
  Variables (X ex : Q).               (* bounds on the absolute sum of an input row and on the error of its codes *)
  Variables (rho sigma : Q).
  Definition half : Q := ((1#2) + rho)%Q.
  Definition d_pre (g : nat) (eh : Q) : Q :=
    let si := n_scale (x_in e) in let sk := n_scale (x_kernel e g) in let su := n_scale (x_rec e g) in
    let sh := n_scale (le_out e) in let sr := n_scale (x_pre e g) in
    (ex * colsum (kl_K l) (kl_units l) g + sk * half * X + nq (length (kl_K l)) * (ex * (sk * half)) + si * sk * half
     + (eh * colsum (kl_U l) (kl_units l) g + su * half * nq (kl_units l) + nq (kl_units l) * (eh * (su * half)))
     + su * sh + sr * (1 + half + sigma))%Q.
  Definition d_gate (g : nat) (eh : Q) : Q :=
    (if (g =? 2)%nat then Lt * d_pre g eh + Dt + n_scale (x_gate e g) * half else Ls * d_pre g eh + Ds + n_scale (x_gate e g) * half)%Q.
  Definition d_cell (eh ec : Q) : Q :=
    let ei := d_gate 0 eh in let ef := d_gate 1 eh in let eg := d_gate 2 eh in
    ((1 + ef) * ec + n_scale (x_cell e) * (inject_Z (gmax qc) + rho) * ef + ((1 + ei) * eg + ei) + n_scale (x_cell e) * (1 + rho + sigma))%Q.
  Definition d_hidden (eh ec : Q) : Q :=
    let eo := d_gate 3 eh in let ea := (Lt * d_cell eh ec + Dt + n_scale (x_act e) * half)%Q in
    ((1 + eo) * ea + eo + n_scale (le_out e) * (1 + half + sigma))%Q.
  Fixpoint d_state (t : nat) : Q * Q :=
    match t with
    | O => (0, 0)%Q
    | S t' => let (eh, ec) := d_state t' in (d_hidden eh ec + zp_err e, d_cell eh ec)%Q
    end.
  (** error of the hidden state returned by step t *)
  Definition d_out (t : nat) : Q := let (eh, ec) := d_state t in d_hidden eh ec.
End Bound.

(** ** A file with its scales rounded *)
(** nd' is nd with a scale that differs by at most u times itself *)
Record rescaled (u : Q) (nd nd' : node) : Prop := {
  rs_zp : n_zp nd' = n_zp nd; rs_dtype : n_dtype nd' = n_dtype nd; rs_tensor : n_tensor nd' = n_tensor nd; rs_lut : n_lut nd' = n_lut nd;
  rs_pos : (0 < n_scale nd')%Q; rs_near : (Qabs (n_scale nd' - n_scale nd) <= u * n_scale nd')%Q }.
Definition export_rescaled (u : Q) (e e' : lstm_export) : Prop := Forall2 (rescaled u) (le_ins e) (le_ins e') /\ rescaled u (le_out e) (le_out e').
(** what a change of scales by u costs the codes of the file e, in steps: biases have 32 bits, and a table holds an L-Lipschitz function *)
Record scale_slack (u L : Q) (e : lstm_export) (rho : Q) : Prop := {
  sk_codes : (u * inject_Z (2 ^ 34) <= rho)%Q;
  sk_gate : forall g, (g < 4)%nat -> (u * (L * n_scale (x_pre e g) * inject_Z (2 ^ 16) + 2) <= rho * n_scale (x_gate e g))%Q;
  sk_act : (u * (L * n_scale (x_cell e) * inject_Z (2 ^ 16) + 2) <= rho * n_scale (x_act e))%Q }.
