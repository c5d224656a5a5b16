(** Model of adaptive rounding with the QUBO optimizer, end to end: KerasDense.adaround
    (quantizer/itcl_quantizer/tensor_extractor/keras/layers/keras_dense.py:381-405) with
    equalizers/adaround/qubo.py (QUBOAnnealer) through equalizers/adaround/adaround.py (AdaRound.round,
    AdaroundNet.round), and the QAOA front end of equalizers/adaround/qubocalculation.py:259-357.
    Simplifications: the sampler (neal, external) is an arbitrary assignment of the variables; the class based
    pipeline of qubo.py:154-185, whose results are overwritten, is left out (C40 compares the two); arrays are
    rectangular lists. *)
From Verif Require Import Base DtypeModel QuantModel NodeModel AnnealModel QuboModel.
Open Scope Z_scope.
Open Scope list_scope.

(** What the optimizer is given for one dense layer: the objects in operators[0].inputs (input, kernel, bias),
    the node carrying the activation's LUT if there is one (keras_dense.py:392-399), the weights of
    get_weights() (keras_dense.py:95-100, 121-128), _last_float_input (303) and results.input_data (375). *)
Record qlayer := mkql {
  ql_input : nat; ql_kernel : nat; ql_bias : nat; ql_lut : option nat;
  ql_K : list (list Q); ql_B : list Q; ql_X : list (list Q); ql_O : list (list Q) }.

(** qubo.py:65-85, 188-192: arrays and scales read by _qubo_dense *)
Definition inst_of (w : world) (L : qlayer) : inst := {|
  iN := length (ql_X L); iIn := length (hd [] (ql_X L)); iOut := length (ql_B L);
  iX := fun s i => nth i (nth s (ql_X L) []) 0%Q;
  iK := fun l i => nth i (nth l (ql_K L) []) 0%Q;
  iB := fun l => nth l (ql_B L) 0%Q;
  iO := fun s l => nth l (nth s (ql_O L) []) 0%Q;
  i_si := n_scale (w (ql_input L)); i_sk := n_scale (w (ql_kernel L)); i_sb := n_scale (w (ql_bias L)) |}.

Definition bitz (b : bool) : Z := if b then 1 else 0.
(** qubo.py:206-244: solve neuron l's dictionary and decode; [smp l] is the sampler's answer for neuron l *)
Definition solve_neuron (I : inst) (smp : nat -> nat -> bool) (st : fstate) (l : nat) : res (list bool * bool) :=
  do t <- py_index (fs_out st) (Z.of_nat l);
  let D := unir (t1 t) (t2 t) (t3 t) (t4 t) [] in
  decode (iIn I) (sample_row D (smp l)).
(** qubo.py:55-72, 188-255 _qubo_dense: input_f[0] on an empty array is an IndexError *)
Definition qubo_dense (I : inst) (smp : nat -> nat -> bool) : res pstate :=
  if (iN I =? 0)%nat then Err EIndexError else
  do st <- run_free I;
  do rows <- mapM (solve_neuron I smp st) (seq 0 (iOut I));
  Ok [mkpt [iOut I; iIn I] (concat (map (fun r => map bitz (fst r)) rows));
      mkpt [iOut I] (map (fun r => bitz (snd r)) rows)].

(** keras_dense.py:390-399: inputs[1:] of the fully connected operator, then the LUT *)
Definition ada_targets (L : qlayer) : list target :=
  TNode (ql_kernel L) :: TNode (ql_bias L) :: match ql_lut L with Some i => [TLut i] | None => [] end.
(** keras_dense.py:381-405 with adaround.py:78-91 and qubo.py:257-274: optimize, then zip targets and policies *)
Definition adaround_qubo (w : world) (L : qlayer) (smp : nat -> nat -> bool) : res world :=
  do ps <- qubo_dense (inst_of w L) smp; set_targets w (ada_targets L) ps.

(** abstract_layer.py:62-77: layers that do not override adaround do nothing.  An optimizer whose layer is not a
    dense layer answers [] (qubo.py:271-274). *)
Inductive alayer := ADense (L : qlayer) (smp : nat -> nat -> bool) | APlain.
Definition adaround_layer (w : world) (a : alayer) : res world :=
  match a with ADense L smp => adaround_qubo w L smp | APlain => Ok w end.
(** adaround.py:119-133 AdaroundNet.round *)
Definition adaround_net (w : world) (ls : list alayer) : res world :=
  fold_left (fun acc a => do w <- acc; adaround_layer w a) ls (Ok w).

(** ** QAOA front end *)
(** max(max(key) for key in D): ValueError on an empty dictionary *)
Definition max_index (D : dict) : res nat :=
  match D with
  | [] => Err EValueError
  | p :: r => Ok (fold_left (fun m q => Nat.max m (Nat.max (fst (fst q)) (snd (fst q)))) r
                    (Nat.max (fst (fst p)) (snd (fst p))))
  end.
Definition inD (D : dict) (k : key) : bool := match dget k D with Some _ => true | None => false end.
(** qubocalculation.py:260-272, 299-312: the quadratic program: its binary variables in declaration order, and the
    quadratic objective (keys are decimal strings of the numbers; numbers are kept) *)
Record qprog := mkqp { qp_vars : list nat; qp_obj : dict }.
Definition primado (D : dict) (mx : nat) : dict :=
  for_range (mx + 1) (fun i P => for_range (mx + 1) (fun j P =>
    match dget (i, j) D with Some v => dset (i, j) v P | None => P end) P) [].
(** qiskit_optimization (external): binary_var refuses a name already declared; minimize refuses a name that is
    not declared *)
Definition declare (vs : list nat) (i : nat) : res (list nat) :=
  if existsb (Nat.eqb i) vs then Err ERuntimeError else Ok (vs ++ [i]).
Definition qaoa_program (D : dict) : res qprog :=
  do mx <- max_index D;
  let P := primado D mx in
  do vs <- fold_left (fun acc i => do vs <- acc; if inD D (i, i) then declare vs i else Ok vs) (seq 1 (mx - 1)) (Ok []);
  do vs <- declare vs mx;
  if forallb (fun q => existsb (Nat.eqb (fst (fst q))) vs && existsb (Nat.eqb (snd (fst q))) vs) P
  then Ok (mkqp vs P) else Err EKeyError.
(** qubocalculation.py:298-357 QAOA_Solution2: result.x, one value per declared variable, in order; the solver is an
    arbitrary assignment *)
Definition qaoa_solution2 (D : dict) (x : nat -> bool) : res (list bool) :=
  do p <- qaoa_program D; Ok (map x (qp_vars p)).
(** qubocalculation.py:259-291 QAOA_Solution: QuantumInstance (line 282) is not imported *)
Definition qaoa_solution (D : dict) : res (list bool) :=
  do p <- qaoa_program D; Err ENameError.
(** qubocalculation.py:292-296 Tensor_Redondeo2 *)
Definition tensor_redondeo2 (n : nat) (row : list bool) : res (list bool * bool) :=
  do b <- py_index row (Z.of_nat n); Ok (py_slice row (Some 0) (Some (Z.of_nat n)), b).
