(** Model of the MQTT clients of demo/demo_lib/demo_lib/fpga.py (and log_exception of mqtt.py). *)
From Verif Require Import Base ConvModel.

(** An array that travels over MQTT: shape and row-major data.
    Simplification: JSON text round-trips exactly; numbers are rationals; shapes are non-negative (numpy's -1 is not modelled). *)
Record arr := mkarr { a_shape : list nat; a_data : list Q }.
(** The dictionary sent or received: fpga.py 129-134, 152-156. *)
Record msg := mkmsg { g_id : nat; g_shape : list nat; g_tensor : list Q }.

(** Input.from_numpy / Output.from_numpy, fpga.py 136-143, 165-171. The batch is the list of its rows along axis 0 (each row flattened);
    [len(flattened) // len(batch)] raises ZeroDivisionError for an empty batch. *)
Definition from_numpy (id : nat) (batch : list (list Q)) : res msg :=
  let flat := concat batch in
  if (length batch =? 0)%nat then Err EZeroDivision
  else Ok (mkmsg id [length batch; length flat / length batch]%nat flat).
(** Output.as_numpy, fpga.py 173-174. *)
Definition as_numpy (g : msg) : res arr :=
  if (length (g_tensor g) =? prod (g_shape g))%nat then Ok (mkarr (g_shape g) (g_tensor g)) else Err EValueError.

(** np.array_split(x, n) along axis 0 (used at fpga.py 64): ValueError unless n > 0; the first [len mod n] pieces have one row more. *)
Fixpoint take_sizes {A} (sizes : list nat) (x : list A) : list (list A) :=
  match sizes with [] => [] | k :: r => firstn k x :: take_sizes r (skipn k x) end.
Definition split_sizes (len n : nat) : list nat := repeat (S (len / n)) (len mod n) ++ repeat (len / n)%nat (n - len mod n).
Definition array_split {A} (x : list A) (n : Z) : res (list (list A)) :=
  if n <=? 0 then Err EValueError else Ok (take_sizes (split_sizes (length x) (Z.to_nat n)) x).

(** fpga.py 60, 64: n_splits = len(x) // self._max_batch_size (floor division, ZeroDivisionError on 0). *)
Definition fpga_chunks {A} (x : list A) (max_batch : Z) : res (list (list A)) :=
  if max_batch =? 0 then Err EZeroDivision else array_split x (Z.of_nat (length x) / max_batch).

(** np.concatenate along axis 0, fpga.py 78. *)
Definition shape_eqb (a b : list nat) : bool := if list_eq_dec Nat.eq_dec a b then true else false.
Definition concatenate (l : list arr) : res arr :=
  match l with
  | [] => Err EValueError
  | a :: _ =>
    match a_shape a with
    | [] => Err EValueError
    | _ :: rest =>
      if forallb (fun b => match a_shape b with [] => false | _ :: r => shape_eqb r rest end) l
      then Ok (mkarr (fold_right (fun b n => (hd 0 (a_shape b) + n)%nat) 0%nat l :: rest) (concat (map a_data l)))
      else Err EValueError
    end
  end.

(** ** The call as a thread, interleaved with the MQTT network thread *)
(** Program counter of InferFPGAMQTT.__call__ inside the loop, fpga.py 64-78: one constructor per access to the shared fields. *)
Inductive pc :=
| PClear    (* 66: self._result_event.clear() *)
| PReset    (* 67: self._result = None *)
| PPublish  (* 69-71 *)
| PWait     (* 72: self._result_event.wait(timeout) *)
| PCheck    (* 73: if self._result is None *)
| PAppend   (* 77: chunk_resuts.append(self._result), the second read of the field *)
| PDone (r : res arr).  (* 78, or the exception raised in the body *)

(** Shared state of the object and the two threads. [s_cb]: the callback has stored the result (84) and not yet set the event (85). *)
Record st := mkst {
  s_pc : pc; s_i : nat; s_todo : list (list (list Q)); s_acc : list arr;
  s_flag : bool; s_res : option arr; s_cb : bool; s_sent : list msg }.

(** What can happen next. Malformed replies (KeyError, reshape ValueError) are swallowed by log_exception (80) before anything is stored. *)
Inductive label :=
| LMain             (* the calling thread performs its next access *)
| LTimeout          (* the wait at 72 times out *)
| LRecv (g : msg)   (* on_result 82-84 for an incoming message *)
| LSet.             (* on_result 85 *)

(** The loop header: the next chunk, or np.concatenate (78). *)
Definition next_pc (todo : list (list (list Q))) (acc : list arr) : pc :=
  match todo with [] => PDone (concatenate acc) | _ :: _ => PClear end.

Definition step (l : label) (s : st) : option st :=
  match l with
  | LMain =>
    match s_pc s with
    | PClear => Some (mkst PReset (s_i s) (s_todo s) (s_acc s) false (s_res s) (s_cb s) (s_sent s))
    | PReset => Some (mkst PPublish (s_i s) (s_todo s) (s_acc s) (s_flag s) None (s_cb s) (s_sent s))
    | PPublish =>
      match s_todo s with
      | [] => None
      | c :: _ =>
        match from_numpy (s_i s) c with
        | Err e => Some (mkst (PDone (Err e)) (s_i s) (s_todo s) (s_acc s) (s_flag s) (s_res s) (s_cb s) (s_sent s))
        | Ok g => Some (mkst PWait (s_i s) (s_todo s) (s_acc s) (s_flag s) (s_res s) (s_cb s) (s_sent s ++ [g]))
        end
      end
    | PWait => if s_flag s then Some (mkst PCheck (s_i s) (s_todo s) (s_acc s) (s_flag s) (s_res s) (s_cb s) (s_sent s)) else None
    | PCheck =>
      match s_res s with
      | None => Some (mkst (PDone (Err ERuntimeError)) (s_i s) (s_todo s) (s_acc s) (s_flag s) (s_res s) (s_cb s) (s_sent s))
      | Some _ => Some (mkst PAppend (s_i s) (s_todo s) (s_acc s) (s_flag s) (s_res s) (s_cb s) (s_sent s))
      end
    | PAppend =>
      match s_res s with
      | None => None
      | Some a => Some (mkst (next_pc (tl (s_todo s)) (s_acc s ++ [a])) (S (s_i s)) (tl (s_todo s)) (s_acc s ++ [a]) (s_flag s) (s_res s) (s_cb s) (s_sent s))
      end
    | PDone _ => None
    end
  | LTimeout =>
    match s_pc s with
    | PWait => Some (mkst PCheck (s_i s) (s_todo s) (s_acc s) (s_flag s) (s_res s) (s_cb s) (s_sent s))
    | _ => None
    end
  | LRecv g =>
    if s_cb s then None
    else match as_numpy g with
      | Err _ => Some s
      | Ok a => Some (mkst (s_pc s) (s_i s) (s_todo s) (s_acc s) (s_flag s) (Some a) true (s_sent s))
      end
  | LSet => if s_cb s then Some (mkst (s_pc s) (s_i s) (s_todo s) (s_acc s) true (s_res s) false (s_sent s)) else None
  end.

Fixpoint run (ls : list label) (s : st) : option st :=
  match ls with [] => Some s | l :: r => match step l s with Some s' => run r s' | None => None end end.

(** The state in which a call enters the loop, given what earlier activity left in the object (flag, buffer, callback in progress). *)
Definition start (chunks : list (list (list Q))) (flag : bool) (buf : option arr) (cb : bool) : st :=
  mkst (next_pc chunks []) 0 chunks [] flag buf cb [].
(** __call__, fpga.py 53-64: the state reached before any interleaving matters (the model has been published). *)
Definition call_start (x : list (list Q)) (max_batch : Z) (flag : bool) (buf : option arr) (cb : bool) : st :=
  match fpga_chunks x max_batch with
  | Err e => mkst (PDone (Err e)) 0 [] [] flag buf cb []
  | Ok cs => start cs flag buf cb
  end.
(** What the caller gets, mqtt.py 43-48: log_exception turns every exception into None. *)
Definition returned (s : st) : option (option arr) :=
  match s_pc s with PDone (Ok a) => Some (Some a) | PDone (Err _) => Some None | _ => None end.

(** ** LossFPGA, fpga.py 88-126. __call__ is not decorated: RuntimeError reaches the caller; replies without "loss" raise inside the callback
    (line 125, before anything is stored). *)
Inductive lpc := LClear (* 112 *) | LPublish (* 113-114 *) | LWait (* 116 *) | LRead (timeout : bool) (* 118-121 *) | LDone (r : res Q).
Record lst := mklst { l_pc : lpc; l_flag : bool; l_loss : Q; l_cb : bool; l_sent : nat }.
Inductive llabel := MMain | MTimeout | MRecv (loss : option Q) | MSet.
Definition lstep (l : llabel) (s : lst) : option lst :=
  match l with
  | MMain =>
    match l_pc s with
    | LClear => Some (mklst LPublish false (l_loss s) (l_cb s) (l_sent s))
    | LPublish => Some (mklst LWait (l_flag s) (l_loss s) (l_cb s) (S (l_sent s)))
    | LWait => if l_flag s then Some (mklst (LRead false) (l_flag s) (l_loss s) (l_cb s) (l_sent s)) else None
    | LRead true => Some (mklst (LDone (Err ERuntimeError)) (l_flag s) (l_loss s) (l_cb s) (l_sent s))
    | LRead false => Some (mklst (LDone (Ok (l_loss s))) (l_flag s) (l_loss s) (l_cb s) (l_sent s))
    | LDone _ => None
    end
  | MTimeout => match l_pc s with LWait => Some (mklst (LRead true) (l_flag s) (l_loss s) (l_cb s) (l_sent s)) | _ => None end
  | MRecv o =>
    if l_cb s then None
    else match o with None => Some s | Some v => Some (mklst (l_pc s) (l_flag s) v true (l_sent s)) end
  | MSet => if l_cb s then Some (mklst (l_pc s) true (l_loss s) false (l_sent s)) else None
  end.
Fixpoint lrun (ls : list llabel) (s : lst) : option lst :=
  match ls with [] => Some s | l :: r => match lstep l s with Some s' => lrun r s' | None => None end end.
