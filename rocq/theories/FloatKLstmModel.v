(** The engine reading an exported LSTM operator in binary64 (KLstmModel.lstm_from_model with FloatLstmModel.lstm_build_f). *)
From Verif Require Import Base EngineModel LstmModel KLstmModel FloatModel FloatLstmModel.
Open Scope Z_scope.
Open Scope list_scope.

(** layers/itclq/lstm.py:131-171 from_model followed by the binary64 build (as KLstmModel.lstm_from_model) *)
Definition lstm_from_model_f (ins : list node) (out : node) (ret_seq : bool) : res flstm :=
  if (length ins <? 22)%nat then Err EIndexError else if (length ins <? 32)%nat then Err EValueError else
  let at_ (k : nat) := nth k ins dnode in
  let gn (g : nat) := mkgn (at_ (1 + g)%nat) (at_ (5 + g)%nat) (at_ (9 + g)%nat) (at_ (17 + g)%nat) (at_ (22 + 2 * g)%nat) (at_ (23 + 2 * g)%nat) in
  lstm_build_f (at_ 0%nat) out (at_ 21%nat) (at_ 30%nat) (at_ 31%nat) (gn 0%nat) (gn 1%nat) (gn 2%nat) (gn 3%nat) ret_seq.
