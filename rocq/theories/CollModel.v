(** Model of quantizer/itcl_quantizer/util/collisions.py and of the collision report of a dense layer
    (keras_dense.py:463-492, abstract_layer.py:107-136).  Tensors are given flattened: np.unique flattens. *)
From Verif Require Import Base.
Open Scope Z_scope.
Open Scope list_scope.

Lemma Q_same_dec (x y : Q) : {x = y} + {x <> y}.
Proof. decide equality; [apply Pos.eq_dec|apply Z.eq_dec]. Defined.

(** collisions.py:17 np.around(x, decimals) = rint(x * 10^d) / 10^d; values in lowest terms so that equal
    numbers are equal terms.  Simplification: exact arithmetic instead of double. *)
Definition around (epsilon : Z) (x : Q) : Q :=
  Qred (if 0 <? epsilon then inject_Z (Qround_even (x * inject_Z (10 ^ epsilon))) / inject_Z (10 ^ epsilon) else x).

(** numpy.unique(x, return_counts=True)[1], up to the order of the counts *)
Definition counts {A} (dec : forall x y : A, {x = y} + {x <> y}) (l : list A) : list Z :=
  map (fun x => Z.of_nat (count_occ dec l x)) (nodup dec l).

(** collisions.py:4-22 *)
Definition calc_collisions (fp : list Q) (q : list Z) (epsilon : Z) : Z :=
  let counts_fp := counts Q_same_dec (map (around epsilon) fp) in
  let counts_q := counts Z.eq_dec q in
  sumZ (map (fun c => c * (if c =? 1 then 0 else 1)) counts_q) - sumZ (map (fun c => c - 1) counts_fp).

(** A tensor node seen by the report: floats, codes and first dimension *)
Record ctensor := mkct { ct_fp : list Q; ct_q : list Z; ct_rows : Z }.
(** math.ceil(collisions / shape[0]); python int division to float is exact here *)
Definition ceil_div (c n : Z) : res Z := if n =? 0 then Err EZeroDivision else Ok (- ((- c) / n)).
(** keras_dense.py:463-492 without the names: kernel, bias-add, optionally activation; abstract_layer.py:116-136
    sum_collisions.  Simplification: the three names are different, so no dictionary entry is overwritten. *)
Definition layer_collisions (policy : list Q -> list Z -> Z) (kernel bias_add : ctensor) (act : option ctensor) : res Z :=
  let k := policy (ct_fp kernel) (ct_q kernel) in
  do b <- ceil_div (policy (ct_fp bias_add) (ct_q bias_add)) (ct_rows bias_add);
  match act with
  | None => Ok (k + b)
  | Some a => do c <- ceil_div (policy (ct_fp a) (ct_q a)) (ct_rows a); Ok (k + b + c)
  end.
