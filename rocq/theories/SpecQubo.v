(** Specification of the rounding problem the QUBO stands for (independent of QuboModel's terms). *)
From Verif Require Import Base QuboModel.
Open Scope Q_scope.
Open Scope list_scope.

(** Output of neuron l on sample s with integer weights w and integer bias b, everything
    dequantized: weights by sk, inputs rounded to the nearest multiple of si, bias by sb. *)
Definition neuron_out (I : inst) (l s : nat) (w : nat -> Z) (b : Z) : Q :=
  sumQ (map (fun i => (i_sk I * inject_Z (w i)) * (i_si I * inject_Z (Qround_even (iX I s i / i_si I))))
            (seq 0 (iIn I)))
  + i_sb I * inject_Z b.
(** Mean squared error against the float output. *)
Definition mse (I : inst) (l : nat) (w : nat -> Z) (b : Z) : Q :=
  sumQ (map (fun s => (iO I s l - neuron_out I l s w b) ^ 2) (seq 0 (iN I)))
  / inject_Z (Z.of_nat (iN I)).
(** Round down / up of weight (l,i) and of the bias; [true] = up. *)
Definition Zbit (b : bool) : Z := if b then 1 else 0.
Definition weight (I : inst) (l : nat) (v : nat -> bool) (i : nat) : Z :=
  Qfloor (iK I l i / i_sk I) + Zbit (v i).
Definition biasq (I : inst) (l : nat) (b : bool) : Z :=
  Qfloor (iB I l / (i_sk I * i_si I)) + Zbit b.
Definition mse_choice (I : inst) (l : nat) (v : nat -> bool) (b : bool) : Q :=
  mse I l (weight I l v) (biasq I l b).
(** Usable instances: at least one sample, non-zero scales. *)
Definition wf_inst (I : inst) : Prop :=
  (0 < iN I)%nat /\ ~ i_si I == 0 /\ ~ i_sk I == 0.
(** Variable numbers of a neuron. *)
Definition kvar (I : inst) (l i : nat) : nat := (l * iIn I + i + 1)%nat.
Definition bvar (I : inst) (l : nat) : nat := (iIn I * iOut I + 1 + l)%nat.
