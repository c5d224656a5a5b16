(** Model of quantizer/itcl_quantizer/quantizer/distributions/distribution.py: a Distribution built with explicit bin edges (23-45), compare
    (173-198; normalize, 94-101, is ScipyModel.normalize), and of quantizer/metrics/noise.py (mse, kl_divergence).
    Floats are exact rationals; NaN is an error.  [cross_entropy] (noise.py:18-19) is not modelled. *)
From Verif Require Import Base DtypeModel QuantModel LutModel FcModel DistModel ScipyModel.
Open Scope Z_scope.
Open Scope list_scope.

(** np.histogram: explicit edges must not decrease (ValueError) *)
Fixpoint nondecr (l : list Q) : bool :=
  match l with
  | a :: (b :: _) as r => Qle_bool a b && nondecr r
  | _ => true
  end.
(** distribution.py:23-45 with a list of edges; line 43 indexes edges[1] *)
Definition mk_dist_edges (a edges : list Q) (partial : bool) : res dist :=
  if negb (nondecr edges) then Err EValueError
  else if (length edges <? 2)%nat then Err EIndexError
  else Ok (mkdist (sortQ a) edges (hist_in edges a) partial).

(** What compare hands to the metric: int64 counts, or float64 fractions *)
Inductive harr := HInt (l : list Z) | HFloat (l : list Q).
Definition vals (h : harr) : list Q := match h with HInt l => map inject_Z l | HFloat l => l end.

(** numpy element-wise operation on two 1-D arrays: equal lengths, or one of them has a single element *)
Definition bcast {A B C} (f : A -> B -> C) (p : list A) (q : list B) : res (list C) :=
  if (length p =? length q)%nat then Ok (map2 f p q)
  else match p, q with
       | [a], _ => Ok (map (f a) q)
       | _, [b] => Ok (map (fun a => f a b) p)
       | _, _ => Err EValueError
       end.

(** distribution.py:173-198 compare.  Both arrays are new (a quotient, or np.array of a list), so a metric that writes into its arguments
    does not change the distributions. *)
Definition compare {A} (f : harr -> harr -> res A) (norm : bool) (d d' : dist) : res A :=
  if norm
  then do p <- normalize (d_hist d); do q <- normalize (d_hist d'); f (HFloat p) (HFloat q)
  else f (HInt (d_hist d)) (HInt (d_hist d')).

(** noise.py:14-15; the mean of nothing is NaN *)
Definition mse_metric (p q : harr) : res Q :=
  do d <- bcast (fun a b => (a - b) * (a - b))%Q (vals p) (vals q);
  match d with [] => Err EZeroDivision | _ => Ok (sumQ d / inject_Z (Z.of_nat (length d)))%Q end.

(** noise.py:9-10 p[p == 0] = 1e-10; assigning 1e-10 into an int64 array stores 0 *)
Definition smooth (h : harr) : harr :=
  match h with
  | HInt l => HInt l
  | HFloat l => HFloat (map (fun x => if Qeq_bool x 0 then (1 # 10000000000)%Q else x) l)
  end.
(** scipy.special.kl_div on one pair, None for inf; [lf x y] stands for x*log(x/y) - x + y *)
Definition kl_div1 (lf : Q -> Q -> Q) (x y : Q) : option Q :=
  if Qltb 0 x && Qltb 0 y then Some (lf x y)
  else if Qeq_bool x 0 && Qle_bool 0 y then Some y else None.
Fixpoint osum (l : list (option Q)) : option Q :=
  match l with
  | [] => Some 0%Q
  | x :: r => match x, osum r with Some a, Some b => Some (a + b)%Q | _, _ => None end
  end.
(** noise.py:7-11 *)
Definition kl_metric (lf : Q -> Q -> Q) (p q : harr) : res (option Q) :=
  do d <- bcast (kl_div1 lf) (vals (smooth p)) (vals (smooth q)); Ok (osum d).
