(** Model of quantizer/itcl_quantizer/optimizers: MinMax (minmax.py), FixedPercent (fixed_percent.py),
    KLDivergence (kl_div_optimizer.py).  ScipyOptimizer delegates to scipy and DebugPlotOptimizer plots:
    not modelled.  NaN is [None]. *)
From Verif Require Import Base DtypeModel DistModel.
From Coq Require Import Qminmax.
Open Scope Z_scope.
Open Scope list_scope.

(** minmax.py:9-20 trim *)
Definition minmax_trim (d : dist) : res dist := Ok d.

(** math.ceil(a / b) *)
Definition ceil_div (a b : nat) : nat := ((a + b - 1) / b)%nat.

(** kl_div_optimizer.py:61-76, one chunk: mask * (sum / sum(mask)); 0/0 is NaN *)
Definition nonzero_count (c : list Z) : Z := Z.of_nat (length (filter (fun x => negb (x =? 0)) c)).
Definition expand_chunk (c : list Z) : list (option Q) :=
  if nonzero_count c =? 0 then map (fun _ => None) c
  else map (fun x => Some (inject_Z (if x =? 0 then 0 else 1) * (inject_Z (sumZ c) / inject_Z (nonzero_count c)))%Q) c.

(** kl_div_optimizer.py:52-82 reduce; B = bin_count, T = target bin count *)
Definition chunk (h : list Z) (b i : nat) : list Z := firstn b (skipn (i * b) h).
Definition kl_reduce (B T : nat) (h : list Z) : res (list (option Q)) :=
  if (T =? 0)%nat then Err EZeroDivision
  else
    let b := ceil_div B T in
    let expanded := concat (map (fun i => expand_chunk (chunk h b i)) (seq 0 T)) in
    if (length expanded =? length h)%nat then Ok expanded else Err EAssertionError.

(** sum and normalisation with NaN *)
Definition sum_nan (l : list (option Q)) : option Q :=
  fold_right (fun x acc => match x, acc with Some a, Some b => Some (a + b)%Q | _, _ => None end) (Some 0%Q) l.
Definition normalise (l : list (option Q)) : list (option Q) :=
  match sum_nan l with
  | None => map (fun _ => None) l
  | Some s => map (fun x => if Qeq_bool s 0 then None else option_map (fun v => v / s)%Q x) l
  end.

(** np.argmin: the first NaN if any, else the first minimum *)
Fixpoint first_nan (l : list (option Q)) (i : nat) : option nat :=
  match l with [] => None | None :: _ => Some i | Some _ :: r => first_nan r (S i) end.
Fixpoint argmin_from (l : list (option Q)) (i best : nat) (bv : Q) : nat :=
  match l with
  | Some v :: r => if Qltb v bv then argmin_from r (S i) i v else argmin_from r (S i) best bv
  | _ => best
  end.
Definition argmin (l : list (option Q)) : res nat :=
  match first_nan l 0 with
  | Some i => Ok i
  | None => match l with Some v :: r => Ok (argmin_from r 1 0 v) | _ => Err EValueError end
  end.

(** kl_div_optimizer.py:29-35: reference_dist = histogram[:i]; reference_dist[i-1] += sum(histogram[i:]) *)
Definition add_last (l : list Z) (v : Z) : list Z :=
  match rev l with [] => [] | x :: r => rev ((x + v) :: r) end.
Definition kl_step (kl : list (option Q) -> list (option Q) -> option Q) (B T : nat) (h : list Z) (i : nat) : res (option Q) :=
  if (i =? 0)%nat then Err EIndexError
  else
    let ref := normalise (map (fun x => Some (inject_Z x)) (add_last (firstn i h) (sumZ (skipn i h)))) in
    do c <- kl_reduce B T (firstn i h);
    let cand := normalise c in
    if (length cand =? length ref)%nat then Ok (kl ref cand) else Err EAssertionError.

(** kl_div_optimizer.py:21-50 trim, for any divergence function *)
Definition kl_trim (kl : list (option Q) -> list (option Q) -> option Q) (B T : nat) (d : dist) : res dist :=
  do d1 <- mk_dist (d_data d) B true;
  do divs <- mapM (kl_step kl B T (d_hist d1)) (seq T (B - T));
  do m <- argmin divs;
  do bs <- get_bin_size d1;
  dist_slice d1 None (Some ((inject_Z (Z.of_nat m) + (1#2)) * bs)%Q).

(** np.percentile(sorted, p), linear interpolation *)
Definition percentile (a : list Q) (p : Q) : res Q :=
  if Qltb p 0 || Qltb 100 p then Err EValueError
  else match a with
  | [] => Err EIndexError
  | _ =>
    let n := length a in
    let pos := (p / 100 * inject_Z (Z.of_nat n - 1))%Q in
    let i := Z.to_nat (Qfloor pos) in
    let f := (pos - inject_Z (Qfloor pos))%Q in
    let x := nth i a 0%Q in
    let y := nth (Nat.min (S i) (n - 1)) a 0%Q in
    Ok (x + f * (y - x))%Q
  end.
(** np.clip *)
Definition clip_to (lo hi x : Q) : Q := Qmin (Qmax x lo) hi.

(** np.histogram with explicit edges (samples outside the edges are dropped); unsorted edges raise *)
Fixpoint increasing (l : list Q) : bool :=
  match l with x :: (y :: _) as r => Qle_bool x y && increasing r | _ => true end.
Definition edges_bin_has (edges : list Q) (i : nat) (x : Q) : bool :=
  Qle_bool (nth i edges 0%Q) x &&
  (if (S (S i) =? length edges)%nat then Qle_bool x (nth (S i) edges 0%Q) else Qltb x (nth (S i) edges 0%Q)).
Definition mk_dist_edges (a : list Q) (edges : list Q) (partial : bool) : res dist :=
  if negb (increasing edges) then Err EValueError
  else if (length edges <? 2)%nat then Err EIndexError
  else Ok (mkdist (sortQ a) edges
    (map (fun i => Z.of_nat (length (filter (edges_bin_has edges i) a))) (seq 0 (length edges - 1))) partial).

(** fixed_percent.py:10-19 trim *)
Definition fixed_percent_trim (percent : Q) (d : dist) : res dist :=
  do low <- percentile (d_data d) percent;
  do high <- percentile (d_data d) (1 - percent);
  mk_dist_edges (map (clip_to low high) (d_data d)) (d_edges d) true.
