(** Model of quantizer/itcl_quantizer/quantizer/distributions/distribution.py, class Distribution.
    Floats are exact rationals; the [range] and [weights] constructor arguments (never passed by the
    repository's callers) and the Gaussian tests (lines 363-400, plotting/statistics) are not modelled. *)
From Verif Require Import Base DtypeModel.
From Coq Require Import Qminmax.
Open Scope Z_scope.
Open Scope list_scope.

Definition Qltb (x y : Q) : bool := negb (Qle_bool y x).

(** np.sort *)
Fixpoint insertQ (x : Q) (l : list Q) : list Q :=
  match l with
  | [] => [x]
  | y :: r => if Qle_bool x y then x :: l else y :: insertQ x r
  end.
Definition sortQ (l : list Q) : list Q := fold_right insertQ [] l.

(** min(l) / max(l) of a non-empty list given as head and tail *)
Definition minQ (x : Q) (l : list Q) : Q := fold_left Qmin l x.
Definition maxQ (x : Q) (l : list Q) : Q := fold_left Qmax l x.

(** np.histogram's outer edges: [min, max]; constant data is widened by 1/2 either side; no data is [0,1] *)
Definition hist_range (a : list Q) : Q * Q :=
  match a with
  | [] => (0, 1)%Q
  | x :: r =>
      let lo := minQ x r in let hi := maxQ x r in
      if Qeq_bool lo hi then (lo - (1#2), hi + (1#2))%Q else (lo, hi)
  end.
(** np.linspace edge i of n bins *)
Definition edge_at (lo hi : Q) (n i : nat) : Q :=
  (lo + inject_Z (Z.of_nat i) * ((hi - lo) / inject_Z (Z.of_nat n)))%Q.
(** number of samples of bin i: half open except the last bin *)
Definition bin_has (lo hi : Q) (n i : nat) (x : Q) : bool :=
  Qle_bool (edge_at lo hi n i) x &&
  (if (S i =? n)%nat then Qle_bool x (edge_at lo hi n (S i)) else Qltb x (edge_at lo hi n (S i))).
Definition bin_count (a : list Q) (lo hi : Q) (n i : nat) : Z :=
  Z.of_nat (length (filter (bin_has lo hi n i) a)).

Record dist := mkdist {
  d_data : list Q;      (* _sorted_a *)
  d_edges : list Q;     (* _bin_edges *)
  d_hist : list Z;      (* _histogram *)
  d_partial : bool      (* _include_partial_bins *)
}.

(** distribution.py:23-45 __init__; np.histogram rejects bins < 1 with ValueError *)
Definition mk_dist (a : list Q) (bins : nat) (partial : bool) : res dist :=
  match bins with
  | O => Err EValueError
  | _ =>
    let '(lo, hi) := hist_range a in
    Ok (mkdist (sortQ a) (map (edge_at lo hi bins) (seq 0 (S bins)))
          (map (bin_count a lo hi bins) (seq 0 bins)) partial)
  end.

(** ndarray.searchsorted on sorted data: how many elements are < v (left) / <= v (right) *)
Definition ss_left (a : list Q) (v : Q) : nat := length (filter (fun x => Qltb x v) a).
Definition ss_right (a : list Q) (v : Q) : nat := length (filter (fun x => Qle_bool x v) a).

(** distribution.py:237-261 __slice_distribution *)
Definition slice_distribution (d : dist) (lower upper : option Q) : list Q :=
  let a := d_data d in
  let i := match lower with Some v => ss_left a v | None => 0%nat end in
  let j := match upper with Some v => ss_right a v | None => length a end in
  firstn (j - i) (skipn i a).

Record bin := mkbin { b_min : Q; b_max : Q; b_count : Z; b_items : list Q }.

(** distribution.py:227-235 __len__ *)
Definition dist_len (d : dist) : Z := Z.of_nat (length (d_edges d)) - 1.

(** distribution.py:200-225 get_bin *)
Definition get_bin (d : dist) (idx : Z) : res bin :=
  let idx := if idx <? 0 then dist_len d + idx else idx in
  do lower <- py_index (d_edges d) idx;
  do upper <- py_index (d_edges d) (idx + 1);
  do c <- py_index (d_hist d) idx;
  if c <? 2 then Ok (mkbin lower upper c [])
  else
    let content := firstn (Z.to_nat c) (slice_distribution d (Some lower) None) in
    if negb (Z.of_nat (length content) =? c) then Err EAssertionError
    else Ok (mkbin (hd 0%Q content) (last content 0%Q) c content).

(** distribution.py:343-361 get_min, get_max, get_bin_size *)
Definition get_min (d : dist) : res Q := rmap b_min (get_bin d 0).
Definition get_max (d : dist) : res Q := rmap b_max (get_bin d (-1)).
Definition get_bin_size (d : dist) : res Q :=
  do e1 <- py_index (d_edges d) 1; do e0 <- py_index (d_edges d) 0; Ok (Qabs (e1 - e0)).

(** distribution.py:280-285: the last index whose edge is <= v *)
Fixpoint last_le (v : Q) (edges : list Q) (i : Z) (acc : Z) : Z :=
  match edges with
  | [] => acc
  | e :: r => last_le v r (i + 1) (if Qle_bool e v then i else acc)
  end.

(** distribution.py:263-313 __clone (both bounds are always given by __getitem__) *)
Definition clone (d : dist) (start stop : Q) : res dist :=
  let nh := Z.of_nat (length (d_hist d)) in
  let m0 := last_le start (d_edges d) 0 0 in
  let M0 := last_le stop (d_edges d) 0 nh in
  let m := if d_partial d then m0 else Z.min (m0 + 1) (M0 - 1) in
  let M := if d_partial d then Z.min (M0 + 1) nh else M0 in
  let edges := py_slice (d_edges d) (Some m) (Some (Z.min (M + 1) (Z.of_nat (length (d_edges d))))) in
  let hist := py_slice (d_hist d) (Some m) (Some M) in
  do lo <- py_index (d_edges d) m;
  do hi <- py_index (d_edges d) M;
  Ok (mkdist (slice_distribution d (Some lo) (Some hi)) edges hist (d_partial d)).

(** distribution.py:323-338 __getitem__ on a slice *)
Definition dist_slice (d : dist) (start stop : option Q) : res dist :=
  do a <- match start with Some v => Ok v | None => get_min d end;
  do b <- match stop with Some v => Ok v | None => get_max d end;
  do bs <- get_bin_size d;
  if Qltb (Qabs (a - b)) bs
  then mk_dist (slice_distribution d (Some a) (Some b)) 1 true
  else clone d a b.

(** distribution.py:340-341 __getitem__ on an integer *)
Definition dist_at (d : dist) (i : Z) : res dist :=
  do b <- get_bin d i; dist_slice d (Some (b_min b)) (Some (b_max b)).

(** distribution.py:121-171 quantize.  Division by zero is an error: Python floats raise
    ZeroDivisionError; numpy floats yield nan/inf with a warning, and round(nan) raises ValueError.
    The 0/0 of line 149 (min_ = max_ = 0) only occurs with numpy floats. *)
Definition dist_quantize (d : dist) (q : gdtype) (force_zp : option Z) (force_s : option Q)
  (symmetric : bool) : res (Q * Z) :=
  do mn <- get_min d; do mx <- get_max d;
  let min_ := Qmin mn 0 in let max_ := Qmax mx 0 in
  let q_max := gmax q in
  let q_min := if symmetric then - q_max else gmin q in
  if q_max - q_min =? 0 then Err EZeroDivision
  else
    let scale := ((max_ - min_) / inject_Z (q_max - q_min))%Q in
    if Qeq_bool (min_ - max_) 0 then Err EValueError
    else
      let zp := Qround_even ((min_ * inject_Z q_max - max_ * inject_Z q_min) / (min_ - max_))%Q in
      do sz <- match force_zp with
               | None => Ok (scale, zp)
               | Some z =>
                   let den := if symmetric then q_max else Z.abs q_min in
                   if den =? 0 then Err EZeroDivision
                   else Ok ((Qmax (Qabs min_) (Qabs max_) / inject_Z den)%Q, z)
               end;
      let '(s, z) := sz in
      let s := match force_s with Some s' => s' | None => s end in
      if Qeq_bool s 0 then Ok (1%Q, 0) else Ok (s, z).

(** quantizer/itcl_quantizer/tensor_extractor/keras/layers/keras_dense.py:35-55: the distribution of
    the pre-activation, trimmed for a fused ReLU / ReLU6 before its parameters are computed. *)
Inductive fused := FNone | FRelu | FRelu6.
Definition fused_trim (f : fused) (d : dist) : res dist :=
  match f with
  | FNone => Ok d
  | FRelu => dist_slice d (Some 0%Q) None
  | FRelu6 => dist_slice d (Some 0%Q) (Some 6%Q)
  end.
