(** Model of the tuning stage of quantizer/itcl_quantizer/tensor_extractor/keras/keras_builder.py:64-105 (build with a loss function):
    ParamEqualizerFullNet with the BFS equalizer (equalizers/param_equalizer/param_equalizer.py:55-75), then AdaroundNet with the
    rounding annealer (equalizers/adaround/adaround.py:94-133), then json.dump(network.as_json()), on the node store of a stack of
    dense layers.  The QUBO optimizer for the same stage is QuboDeployModel.adaround_net. *)
From Verif Require Import Base DtypeModel QuantModel LutModel EngineModel BuildModel PipeModel NodeModel EqModel AnnealModel ExportModel.
Open Scope Z_scope.
Open Scope list_scope.

(** row-major enumeration of an array of integers (ndarray.flatten) *)
Fixpoint unflat (shape : list nat) (k : nat) : list nat :=
  match shape with
  | [] => []
  | _ :: s => let m := fold_right Nat.mul 1%nat s in (k / m)%nat :: unflat s (k mod m)
  end.
Definition pt_of_nd (a : nd Q) : ptens :=
  mkpt (nd_shape a) (map (fun k => Qtrunc (nd_get a (unflat (nd_shape a) k))) (seq 0 (fold_right Nat.mul 1%nat (nd_shape a)))).
(** adaround.py:43-47 _initialize_neighborhood: [t.rounding_policy for t in tensors] *)
Definition policy_of (w : world) (t : target) : ptens :=
  match t with
  | TNode i => match n_tens (w i) with Some x => pt_of_nd (t_policy x) | None => mkpt [] [] end
  | TLut i => match n_lut (w i) with Some l => pt_of_nd (l_policy l) | None => mkpt [] [] end
  end.
(** adaround.py:49-60 _cost_fn: assign the policies, then the loss.  The assignments of the trials overwrite each other
    (theorem C37_assignment_overwrites), so every trial starts from the same store. *)
Definition ada_energy (w : world) (ts : list target) (cost : world -> Q) (ps : pstate) : Q :=
  match set_targets w ts ps with Ok w' => cost w' | Err _ => 0%Q end.
(** random draws of one layer's annealer: moves of the library loop, moves of the final descent, temperature tests *)
Record adraw := mkadraw { ad_lib : nat -> nat -> nat; ad_desc : nat -> nat -> nat; ad_acc : nat -> bool }.
(** adaround.py:78-91 AdaRound.round with annealer.py:121-150; None: still running after [turns] turns *)
Definition ada_round (cost : world -> Q) (steps max turns : nat) (d : adraw) (w : world) (ts : list target) : res (option world) :=
  do r <- anneal (ada_energy w ts cost) steps max turns (ad_lib d) (ad_desc d) (ad_acc d) (map (policy_of w) ts);
  match r with
  | None => Ok None
  | Some (b, _) => do w' <- set_targets w ts b; Ok (Some w')
  end.
(** keras_dense.py:387-399 of layer number t: kernel, bias, and the LUT of the activation *)
Definition round_targets (t : nat) (l : kdense) : list target :=
  [TNode (4 * t + 1); TNode (4 * t + 2)] ++ (if mem (upper (kd_act l)) LUT_FUNCTIONS then [TLut (4 * t + 3)] else []).
(** adaround.py:119-133 AdaroundNet.round: layer after layer; the input and output layers do nothing *)
Fixpoint ada_net (cost : world -> Q) (steps max turns : nat) (ds : nat -> adraw) (w : world) (t : nat) (ls : list kdense) : res (option world) :=
  match ls with
  | [] => Ok (Some w)
  | l :: r =>
      do o <- ada_round cost steps max turns (ds t) w (round_targets t l);
      match o with None => Ok None | Some w1 => ada_net cost steps max turns ds w1 (S t) r end
  end.

(** config/models/keras.py:115-125: ParamEqualizerCfg.max_retries; RoundingAnnealerCfg steps and max_retries
    (RoundingMinimaCfg is steps = 0) *)
Record tune_cfg := mktune { tc_eq : option nat; tc_ada : option (nat * nat) }.
(** random draws of the whole stage; [tr_turns] bounds every loop; [tr_fuel]: recursion limit of the hooks *)
Record tune_run := mkrun { tr_fuel : nat; tr_turns : nat; tr_eq : nat -> nat -> nat -> draw; tr_ada : nat -> adraw }.
(** keras_builder.py:90-100; [loss] sees the network through its serialisation (network.py:96-103) *)
Definition tune_net (loss : jnet pbody -> Q) (c : tune_cfg) (r : tune_run) (w : world) (ls : list kdense) : res (option world) :=
  let cost := fun v => loss (export_net v ls) in
  do o <- match tc_eq c with
          | Some max => equalize (tr_fuel r) cost (4 * length ls + 1) max (tr_turns r) w
                          (full_groups (map (fun l => mem (upper (kd_act l)) LUT_FUNCTIONS) ls)) (tr_eq r)
          | None => Ok (Some w)
          end;
  match o with
  | None => Ok None
  | Some w1 =>
      match tc_ada c with
      | Some (steps, max) => ada_net cost steps max (tr_turns r) (tr_ada r) w1 0 ls
      | None => Ok (Some w1)
      end
  end.
(** keras_builder.py:88-105: no loss function, no tuning; the file *)
Definition build_file (loss : option (jnet pbody -> Q)) (c : tune_cfg) (r : tune_run) (w : world) (ls : list kdense) : res (option (jnet pbody)) :=
  do o <- match loss with Some f => tune_net f c r w ls | None => Ok (Some w) end;
  Ok (option_map (fun v => export_net v ls) o).
