(** Model of quantizer/itcl_quantizer/optimizers/scipy_optimizer.py, Distribution.normalize/compare (distribution.py:94-101, 173-198) and
    quantizer/metrics/noise.py mse.  scipy.optimize.minimize is a parameter. *)
From Verif Require Import Base DtypeModel QuantModel DistModel.
From Coq Require Import Qminmax.
Open Scope Z_scope.
Open Scope list_scope.

(** np.histogram with explicit edges: half-open bins, the last one closed; values outside are not counted *)
Definition hist_bin (edges : list Q) (n i : nat) (x : Q) : bool :=
  let a := nth i edges 0%Q in let b := nth (S i) edges 0%Q in
  Qle_bool a x && (if (S i =? n)%nat then Qle_bool x b else Qltb x b).
Definition hist_in (edges : list Q) (data : list Q) : list Z :=
  let n := (length edges - 1)%nat in map (fun i => Z.of_nat (length (filter (hist_bin edges n i) data))) (seq 0 n).
(** distribution.py:94-101 normalize; an all-zero histogram gives NaNs, reported as an error here *)
Definition normalize (h : list Z) : res (list Q) :=
  let t := sumZ h in if t =? 0 then Err EZeroDivision else Ok (map (fun c => inject_Z c / inject_Z t)%Q h).
(** quantizer/itcl_quantizer/quantizer/metrics/noise.py:14-15 mse of two vectors (of the same length, as histograms over the same edges) *)
Definition mse (p q : list Q) : Q :=
  (sumQ (map (fun x => (fst x - snd x) * (fst x - snd x)) (combine p q)) / inject_Z (Z.of_nat (length p)))%Q.

Definition metric := list Q -> list Q -> Q.
Definition i8 : gdtype := {| gmin := -128; gmax := 127; grepr := chars_of "int8" |}.
(** scipy_optimizer.py:31-45 minimize_noise; line 38 uses the default dtype of Distribution.quantize, int8 *)
Definition penalty : Q := 999999999.
Definition minimize_noise (q : gdtype) (f : metric) (d : dist) (x : Q * Q) : res Q :=
  let '(x0, x1) := x in
  do mn <- py_index (d_edges d) 0; do mx <- py_index (d_edges d) (-1);
  if Qltb (x1 - x0) 1 || Qltb x0 mn || Qltb mx x1 then Ok penalty
  else
    do t <- dist_slice d (Some x0) (Some x1);
    do sz <- dist_quantize t i8 None None false;
    let '(s, zp) := sz in
    do p <- normalize (d_hist d);
    do p' <- normalize (hist_in (d_edges d) (map (fun v => dequant1 zp s (quant1 q zp s v)) (d_data d)));
    Ok (f p p').
(** scipy.optimize.minimize: objective and start to result *)
Definition minimizer := (Q * Q -> res Q) -> Q * Q -> res (Q * Q).
(** scipy_optimizer.py:23-61 trim *)
Definition trim (q : gdtype) (f : metric) (mini : minimizer) (d : dist) : res dist :=
  do mn <- py_index (d_edges d) 0; do mx <- py_index (d_edges d) (-1);
  do r <- mini (minimize_noise q f d) (mn, mx);
  dist_slice d (Some (fst r)) (Some (snd r)).
