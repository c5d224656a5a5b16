(** Model of quantizer/itcl_quantizer/equalizers/adaround:
    Calculationsint.py (class ADAInt), qubocalculation.py (free functions) and
    qubo.py (QUBOAnnealer._qubo_dense).  Floats are exact rationals.  numpy matrices are
    functions of in-range indices; the shapes are the fields iN (data sets), iIn (inputs), iOut
    (neurons).  Python dicts are insertion-ordered association lists. *)
From Verif Require Import Base.
Open Scope Q_scope.
Open Scope list_scope.

(** Calculationsint.py:28-46: the constructor arguments and the dimensions read from the arrays *)
Record inst := {
  iN : nat; iIn : nat; iOut : nat;
  iX : nat -> nat -> Q;      (* input[s][i] *)
  iK : nat -> nat -> Q;      (* kernel[l][i] *)
  iB : nat -> Q;             (* bias[l] *)
  iO : nat -> nat -> Q;      (* output[s][l] *)
  i_si : Q; i_sk : Q; i_sb : Q }.

(** Python dict operations *)
Definition key := (nat * nat)%type.
Definition keqb (a b : key) : bool := (fst a =? fst b)%nat && (snd a =? snd b)%nat.
Definition dict := list (key * Q).
Fixpoint dset (k : key) (v : Q) (D : dict) : dict :=
  match D with
  | [] => [(k, v)]
  | (k', v') :: r => if keqb k k' then (k', v) :: r else (k', v') :: dset k v r
  end.
Fixpoint dget (k : key) (D : dict) : option Q :=
  match D with
  | [] => None
  | (k', v') :: r => if keqb k k' then Some v' else dget k r
  end.
(** D.update(E) *)
Definition dupdate (D E : dict) : dict := fold_left (fun D p => dset (fst p) (snd p) D) E D.

(** for i in range(0, n): body *)
Definition for_range {S} (n : nat) (body : nat -> S -> S) (s : S) : S :=
  fold_left (fun s i => body i s) (seq 0 n) s.
(** np.sum(.., axis=0) of rows f 0 .. f (n-1) *)
Definition sum_n (n : nat) (f : nat -> Q) : Q := sumQ (map f (seq 0 n)).

Section Terms.
Context (I : inst).
Let N := iN I. Let n := iIn I. Let m := iOut I.
Let si := i_si I. Let sk := i_sk I. Let sb := i_sb I.

(** Calculationsint.py:48-59, qubocalculation.py:31-42: np.round(input/scale) *)
Definition input_round (s i : nat) : Q := inject_Z (Qround_even (iX I s i / si)).
(** Calculationsint.py:60-76, qubocalculation.py:44-60 *)
Definition dterm (s l : nat) : Q :=
  let dc := iO I s l / (sk * si) - (sb / (sk * si)) * inject_Z (Qfloor (iB I l / (sk * si))) in
  let ds := sum_n n (fun i => inject_Z (Qfloor (iK I l i / sk)) * input_round s i) in
  dc - ds.

(** Calculationsint.py:95-98, qubocalculation.py:80-82 (Bterm1 rows are all overwritten) *)
Definition suma1 (l i : nat) : Q :=
  sum_n N (fun s => (sk * si) ^ 2 * (1 / inject_Z (Z.of_nat N)) * input_round s i
                    * (input_round s i - 2 * dterm s l)).
(** Calculationsint.py:99-101, qubocalculation.py:83-85 *)
Definition bterm1 (D : dict) (l : nat) : dict :=
  for_range n (fun i D => dset (l * n + i + 1, l * n + i + 1)%nat (suma1 l i) D) D.

(** Calculationsint.py:122-127, qubocalculation.py:105-110: flattened outer products with a zero
    diagonal; entry k of the flat array.  [Bt2] is unbound (UnboundLocalError) when N = 0. *)
Definition outer0 (s i j : nat) : Q := if (i =? j)%nat then 0 else input_round s i * input_round s j.
Definition bt2_calc (k : nat) : Q :=
  (sk * si) ^ 2 * (1 / inject_Z (Z.of_nat N)) * sum_n N (fun s => outer0 s (k / n) (k mod n)).
(** Calculationsint.py:130-136 / 138-145, qubocalculation.py:113-119 / 121-128 *)
Definition write2 (Bt2 : nat -> Q) (D : dict) (l : nat) : dict :=
  for_range n (fun i D => for_range n (fun j D =>
    if Qeq_bool (Bt2 (j + i * n)%nat) 0 then D
    else dset (n * l + i + 1, n * l + j + 1)%nat (Bt2 (j + i * n)%nat) D) D) D.

(** Calculationsint.py:166-169, qubocalculation.py:148-151 *)
Definition bt3 (l : nat) : Q :=
  sum_n N (fun s => (si * sk) ^ 2 * (1 / inject_Z (Z.of_nat N)) * (sb / (si * sk))
                    * (sb / (si * sk) - 2 * dterm s l)).
Definition bterm3 (D : dict) (l : nat) : dict := dset (n * m + 1 + l, n * m + 1 + l)%nat (bt3 l) D.

(** Calculationsint.py:172-175 *)
Definition bt4_calc (i : nat) : Q :=
  sum_n N (fun s => (sk * si) ^ 2 * (1 / inject_Z (Z.of_nat N)) * (sb / (sk * si)) * input_round s i).
(** qubocalculation.py:154-156 *)
Definition bt4_free (i : nat) : Q :=
  sum_n N (fun s => (sk * si) ^ 2 * (1 / inject_Z (Z.of_nat N)) * (sb / (si * sk)) * input_round s i).
(** Calculationsint.py:177-183 / 185-192, qubocalculation.py:158-164 / 166-173 *)
Definition write4 (Bt4 : nat -> Q) (D : dict) (l : nat) : dict :=
  for_range n (fun i D =>
    if Qeq_bool (Bt4 i) 0 then D
    else dset (n * m + 1 + l, l * n + i + 1)%nat (Bt4 i)
           (dset (l * n + i + 1, n * m + 1 + l)%nat (Bt4 i) D)) D.

(** Calculationsint.py:234-250, qubocalculation.py:222-238 *)
Definition unir (D1 D2 D3 D4 D : dict) : dict :=
  dupdate (dupdate (dupdate (dupdate D D1) D2) D3) D4.

(** The four dictionaries of one neuron *)
Record terms := { t1 : dict; t2 : dict; t3 : dict; t4 : dict }.

(** qubo.py:163-178, class based pipeline, neuron l: fresh dictionaries, "repeticion" passes *)
Definition terms_class (l : nat) : terms :=
  {| t1 := bterm1 [] l;
     t2 := write2 bt2_calc (write2 bt2_calc [] l) l;
     t3 := bterm3 [] l;
     t4 := write4 bt4_calc (write4 bt4_calc [] l) l |}.
Definition dict_class (l : nat) : dict :=
  let t := terms_class l in unir (t1 t) (t2 t) (t3 t) (t4 t) [].

(** qubo.py:209-233, free function pipeline.  The loop carries Bt2 and Bt4 of neuron 0
    (None = unbound) and DiccionarioT. *)
Record fstate := { fs_bt2 : option (nat -> Q); fs_bt4 : option (nat -> Q);
                   fs_total : dict; fs_out : list terms }.
Definition free_step (l : nat) (st : res fstate) : res fstate :=
  do st <- st;
  let d1 := bterm1 [] l in
  do p2 <- (if (l =? 0)%nat then Ok (write2 bt2_calc [] l, bt2_calc)
            else match fs_bt2 st with
                 | Some b => Ok (write2 b [] l, b)
                 | None => Err ENameError
                 end);
  let d3 := bterm3 [] l in
  do p4 <- (if (l =? 0)%nat then Ok (write4 bt4_free [] l, bt4_free)
            else match fs_bt4 st with
                 | Some b => Ok (write4 b [] l, b)
                 | None => Err ENameError
                 end);
  let t := {| t1 := d1; t2 := fst p2; t3 := d3; t4 := fst p4 |} in
  Ok {| fs_bt2 := Some (snd p2); fs_bt4 := Some (snd p4);
        fs_total := unir (t1 t) (t2 t) (t3 t) (t4 t) (fs_total st);
        fs_out := fs_out st ++ [t] |}.
Definition run_free : res fstate :=
  for_range m free_step (Ok {| fs_bt2 := None; fs_bt4 := None; fs_total := []; fs_out := [] |}).

(** Matrix_Calculation, Calculationsint.py:258-269, qubocalculation.py:246-257.  M is updated in
    place (matrix entries as a function). *)
Definition mat := nat -> nat -> Q.
Definition mset (M : mat) (i j : nat) (v : Q) : mat :=
  fun a b => if (a =? i)%nat && (b =? j)%nat then v else M a b.
Definition mat_cell (t : terms) (i j : nat) (M : mat) : mat :=
  let put c D M := if (c : bool) then match dget (i + 1, j + 1)%nat D with
                                      | Some v => mset M i j v | None => M end else M in
  put true (t4 t) (put (i =? j)%nat (t3 t) (put true (t2 t) (put (i =? j)%nat (t1 t) M))).
Definition matrix_calculation (t : terms) (M : mat) : mat :=
  for_range (m * n + m) (fun i M => for_range (m * n + m) (fun j M => mat_cell t i j M) M) M.
End Terms.

(** dimod (external): variables of BinaryQuadraticModel(h={}, J) in order of first insertion;
    energy of a 0/1 assignment (self loops are linear terms, (u,v) and (v,u) add up). *)
Fixpoint add_vars (D : dict) (vs : list nat) : list nat :=
  match D with
  | [] => vs
  | ((u, v), _) :: r =>
      let vs := if existsb (Nat.eqb u) vs then vs else vs ++ [u] in
      let vs := if existsb (Nat.eqb v) vs then vs else vs ++ [v] in
      add_vars r vs
  end.
Definition variables (D : dict) : list nat := add_vars D [].
Definition bit (b : bool) : Q := if b then 1 else 0.
Definition energy (D : dict) (x : nat -> bool) : Q :=
  sumQ (map (fun p => snd p * (bit (x (fst (fst p))) * bit (x (snd (fst p))))) D).

(** record.sample[0]: the sampler's row, one bit per variable in variable order (the sampler is an
    external oracle: any assignment). *)
Definition sample_row (D : dict) (x : nat -> bool) : list bool := map x (variables D).
(** tensor_redondeo, Calculationsint.py:252-256, qubocalculation.py:240-244: Dmin[0:n], Dmin[n] *)
Definition decode (n : nat) (row : list bool) : res (list bool * bool) :=
  do b <- py_index row (Z.of_nat n);
  Ok (py_slice row (Some 0%Z) (Some (Z.of_nat n)), b).
