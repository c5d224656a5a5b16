(** Specification vocabulary for property C85 (PropRnn.v): float networks of LSTM layers followed by dense layers, and the error bound. *)
From Verif Require Import Base DtypeModel QuantModel LutModel FcModel EngineModel DistModel BuildModel PipeModel LstmModel KLstmModel RnnModel
  PropCore PropFc PropRelu PropDist PipeSpec RPipeSpec CertSpec KLstmSpec.
From Coq Require Import Qminmax.
Open Scope Z_scope.
Open Scope list_scope.

(** ** The float network *)
Definition bias_of (l : klstm) : list Q := match kl_B l with Some b => b | None => [] end.
(** the hidden states of the textbook LSTM (KLstmSpec) at every step of the sample xs *)
Definition lstm_seq (fn : lfns) (l : klstm) (xs : list (list Q)) : list (list Q) :=
  map (fun t => map (hidden_at fn l (bias_of l) xs t) (seq 0 (kl_units l))) (seq 0 (length xs)).
Definition stack_seq (fn : lfns) (ls : list klstm) (xs : list (list Q)) : list (list Q) := fold_left (fun v l => lstm_seq fn l v) ls xs.
(** LSTM layers, the last one returning its last hidden state, then dense layers *)
Definition rnn_float (fn : lfns) (ls : list klstm) (ds : list kdense) (xs : list (list Q)) : list Q := net_out ds (last (stack_seq fn ls xs) []).

(** ** Layers, shapes and data *)
(** apart from dropout, the model is the LSTM layers [lst] followed by the dense layers [ds] *)
Definition kept (r : rlyr) : bool := match r with RPlain PSkip => false | _ => true end.
Definition model_is (ls : list rlyr) (lst : list klstm) (ds : list kdense) : Prop :=
  filter kept ls = map RLstm lst ++ map (fun l => RPlain (PDense l)) ds.
(** an LSTM layer with bias reading n features *)
Record lstm_layer (n : nat) (l : klstm) : Prop := {
  ll_units : (0 < kl_units l)%nat; ll_pos : (0 < n)%nat; ll_feat : length (kl_K l) = n;
  ll_bias : exists b, kl_B l = Some b /\ length b = (4 * kl_units l)%nat;
  ll_K : forall r, In r (kl_K l) -> length r = (4 * kl_units l)%nat;
  ll_Ul : length (kl_U l) = kl_units l; ll_U : forall r, In r (kl_U l) -> length r = (4 * kl_units l)%nat }.
(** a stack of them: all but the last return sequences; [last_seq]: does the last one *)
Fixpoint lstm_stack (last_seq : bool) (n : nat) (ls : list klstm) : Prop :=
  match ls with
  | [] => False
  | [l] => lstm_layer n l /\ kl_seq l = last_seq
  | l :: r => lstm_layer n l /\ kl_seq l = true /\ lstm_stack last_seq (kl_units l) r
  end.
Definition stack_width (ls : list klstm) : nat := last (map kl_units ls) 0%nat.
(** samples of T steps of n features *)
Definition sequences (n T : nat) (data : list (list (list Q))) : Prop :=
  forall xs, In xs data -> length xs = T /\ forall x, In x xs -> length x = n.
(** what the quantizer needs: an input dtype of at most 16 bits and dense layers with usable dtypes *)
Record rnn_ready (c : qcfg) (sq : bool) (lst : list klstm) (ds : list kdense) (n T : nat) (data : list (list (list Q))) : Prop := {
  rn_in : exists q, parse_dtype (c_quantize c) = Ok q /\ short q;
  rn_steps : (0 < T)%nat; rn_data : data <> []; rn_rows : sequences n T data;
  rn_lstm : lstm_stack sq n lst; rn_dense : shaped (stack_width lst) ds; rn_cfg : Forall (good_rlayer c) ds }.
(** every intermediate value of every LSTM layer stays in the hull of its calibration values *)
Fixpoint stack_covered (fn : lfns) (T : nat) (ls : list klstm) (data : list (list (list Q))) (xs : list (list Q)) : Prop :=
  match ls with
  | [] => True
  | l :: r => lstm_covered fn l (bias_of l) T data xs /\ stack_covered fn T r (map (lstm_seq fn l) data) (lstm_seq fn l xs)
  end.

(** ** The file and the error bound *)
(** the nodes of an LSTM operator *)
Definition op_lstm (op : jop rbody) : lstm_export :=
  match jo_body op with RL ins out _ => mkle ins out (D2 []) | RB _ => mkle [] dnode (D2 []) end.
(** KLstmSpec's conditions for each LSTM operator *)
Definition stack_file_ok (ls : list klstm) (ops : list (jop rbody)) : Prop := Forall2 (fun l op => lstm_file_ok l int32 (op_lstm op)) ls ops.
(** error of step t of the last LSTM layer, for samples of T steps whose rows have absolute sum at most X and are known up to ex;
    hidden states are between -1 and 1 *)
Fixpoint stack_err (Ls Ds Lt Dt : Q) (ls : list klstm) (ops : list (jop rbody)) (X ex : Q) (T t : nat) : Q :=
  match ls, ops with
  | l :: r, op :: ops' =>
      let e := b_out l int8 (op_lstm op) Ls Ds Lt Dt X ex in
      match r with [] => e t | _ => stack_err Ls Ds Lt Dt r ops' (nq (kl_units l)) (maxQ (map e (seq 0 T))) T t end
  | _, _ => ex
  end.
