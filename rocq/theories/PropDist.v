(** C26-C28, C54: calibration distributions. *)
From Verif Require Import Base BaseProofs DtypeModel QuantModel QuantProofs PropCore DistModel DistProofs DistClone.
From Coq Require Import Sorting.Sorted Qminmax Lqa.
Open Scope Z_scope.
Open Scope list_scope.

(** ** Specification vocabulary *)
Definition is_least (l : list Q) (m : Q) : Prop := (exists x, In x l /\ m == x)%Q /\ forall x, In x l -> (m <= x)%Q.
Definition is_greatest (l : list Q) (m : Q) : Prop := (exists x, In x l /\ m == x)%Q /\ forall x, In x l -> (x <= m)%Q.
(** the range a distribution reports *)
Definition reports (d : dist) (lo hi : Q) : Prop := get_min d = Ok lo /\ get_max d = Ok hi.
Definition reports_eq (d : dist) (a b : Q) : Prop := exists lo hi, reports d lo hi /\ (lo == a)%Q /\ (hi == b)%Q.
(** error of storing x as a code of dtype q with parameters (s, z) and reading it back *)
Definition rt_error (q : gdtype) (s : Q) (z : Z) (x : Q) : Q := Qabs (x - dequant1 z s (quant1 q z s x)).
(** dtypes for which every difference of two codes fits in int32 *)
Definition narrow (q : gdtype) : Prop := within_int32 q /\ gmin q < gmax q /\ gmax q - gmin q <= 2 ^ 31 - 1.
Definition no_widening (d d' : dist) : Prop :=
  forall lo hi lo' hi', reports d lo hi -> reports d' lo' hi' -> (lo <= lo' /\ hi' <= hi)%Q.

(** ** C28: ranges *)
Theorem C28_unsliced_range : forall a n p x y, (0 < n)%nat -> In x a -> In y a -> (x < y)%Q ->
  exists d lo hi, mk_dist a n p = Ok d /\ reports d lo hi /\ is_least a lo /\ is_greatest a hi.
Proof.
  intros a n p x y Hn Hx Hy L.
  destruct (fresh_range a n p x y Hn Hx Hy L) as (d & lo & hi & E & _ & _ & _ & _ & G & F & _ & _ & R & A & B).
  exists d, lo, hi. split; [exact E|]. split; [split; assumption|].
  split; (split; [assumption|intros z Hz; apply R, Hz]).
Qed.

(** every sample is in exactly one bin: the histogram's total is the number of samples *)
Theorem C28_histogram_mass : forall a n p d, mk_dist a n p = Ok d -> sumZ (d_hist d) = Z.of_nat (length a).
Proof. exact fresh_mass. Qed.

(** Constant data: half a unit either side (three bins or more). *)
Theorem C28_constant_range : forall c a n p, (3 <= n)%nat -> a <> [] -> (forall x, In x a -> x == c)%Q ->
  exists d lo hi, mk_dist a n p = Ok d /\ reports d lo hi /\ (lo == c - (1#2))%Q /\ (hi == c + (1#2))%Q.
Proof.
  intros c a n p Hn NE HC.
  destruct (mk_dist_wf a n p ltac:(lia)) as (d & E & W & D & N & P & E0 & En & HH).
  destruct a as [|q r]; [congruence|].
  destruct (minQ_spec q r) as (_ & zn & Mn2 & Mn3). destruct (maxQ_spec q r) as (_ & zx & Mx2 & Mx3).
  rewrite (HC zn Mn2) in Mn3. rewrite (HC zx Mx2) in Mx3.
  assert (RR : (fst (hist_range (q :: r)) == c - (1#2) /\ snd (hist_range (q :: r)) == c + (1#2))%Q).
  { cbn [hist_range]. assert (Qeq_bool (minQ q r) (maxQ q r) = true) as ->.
    { apply Qeq_bool_iff. lra. } cbn [fst snd]. lra. }
  destruct RR as [R1 R2]. set (w := ((snd (hist_range (q :: r)) - fst (hist_range (q :: r))) / inject_Z (Z.of_nat n))%Q) in *.
  assert (NZ : (3 <= inject_Z (Z.of_nat n))%Q) by (change 3%Q with (inject_Z 3); apply (proj1 (Zle_inj _ _)); lia).
  assert (WW : (w * inject_Z (Z.of_nat n) == 1)%Q).
  { unfold w. rewrite R1, R2. field. intros C. rewrite C in NZ. lra. }
  assert (W3 : (3 * w <= 1)%Q). { pose proof (wf_w _ _ W). nra. }
  assert (DD : forall z, In z (d_data d) -> (z == c)%Q).
  { intros z Hz. apply HC. rewrite D in Hz. eapply Permutation.Permutation_in; [symmetry; apply sortQ_perm|exact Hz]. }
  pose proof (wf_w _ _ W) as WP.
  destruct (get_min_wf d w W) as (lo & G1 & G2 & G3 & G4 & G5).
  destruct (get_max_wf d w W) as (hi & F1 & F2 & F3 & F4 & F5 & F6).
  rewrite N in *.
  pose proof (edge_succ d w 0 W ltac:(lia)) as S0.
  pose proof (edge_succ d w (n - 1) W ltac:(lia)) as Sn. replace (S (n - 1)) with n in Sn by lia.
  exists d, lo, hi. split; [exact E|]. split; [split; assumption|]. split.
  - destruct (Z.lt_ge_cases (nth 0 (d_hist d) 0) 2) as [H|H].
    + rewrite (G4 H). lra.
    + specialize (G5 H). apply DD in G5. lra.
  - destruct (Z.lt_ge_cases (nth (n - 1) (d_hist d) 0) 2) as [H|H].
    + rewrite (F4 H). lra.
    + specialize (F5 H). apply DD in F5. lra.
Qed.

(** ** C28: slices.  Distributions reachable by construction and slicing (partial bins included,
    the default), for slices that meet the edges. *)
Inductive reach : dist -> Prop :=
| reach_new : forall a n d, (0 < n)%nat -> mk_dist a n true = Ok d -> reach d
| reach_slice : forall d d' start stop, reach d -> (start <= stop)%Q ->
    (hd 0%Q (d_edges d) <= stop)%Q -> (start < last (d_edges d) 0)%Q ->
    dist_slice d (Some start) (Some stop) = Ok d' -> reach d'.

Lemma edge0_hd d : edge d 0 = hd 0%Q (d_edges d).
Proof. unfold edge. now destruct (d_edges d). Qed.

Lemma slice_cases d w start stop : wf d w -> d_partial d = true -> (start <= stop)%Q ->
  (hd 0%Q (d_edges d) <= stop)%Q -> (start < last (d_edges d) 0)%Q ->
  ((stop - start < w)%Q /\ dist_slice d (Some start) (Some stop) = mk_dist (filter (in_closed start stop) (d_data d)) 1 true) \/
  ((w <= stop - start)%Q /\ dist_slice d (Some start) (Some stop) = clone d start stop).
Proof.
  intros W P H1 H2 H3. unfold dist_slice. cbn [rbind].
  destruct (bin_size_wf d w W) as (b & -> & Eb). cbn [rbind].
  assert (A : (Qabs (start - stop) == stop - start)%Q).
  { rewrite Qabs_neg by lra. lra. }
  destruct (Qltb (Qabs (start - stop)) b) eqn:E.
  - left. apply Qltb_lt in E. split; [lra|]. now rewrite (slice_closed _ _ _ (wf_sorted _ _ W)).
  - right. apply Qltb_ge in E. split; [lra|reflexivity].
Qed.

Lemma reach_wf d : reach d -> exists w, wf d w /\ d_partial d = true.
Proof.
  induction 1 as [a n d Hn E|d d' start stop R (w & W & P) H1 H2 H3 E].
  - destruct (mk_dist_wf a n true Hn) as (d' & E' & W & _ & _ & P & _). rewrite E in E'.
    assert (d' = d) by congruence. subst d'. eauto.
  - destruct (slice_cases d w start stop W P H1 H2 H3) as [[_ SE]|[_ SE]]; rewrite SE in E.
    + destruct (mk_dist_wf (filter (in_closed start stop) (d_data d)) 1 true ltac:(lia)) as (d2 & E' & W' & _ & _ & P' & _).
      rewrite E in E'. assert (d2 = d') by congruence. subst d2. eauto.
    + rewrite <- edge0_hd in H2. rewrite (wf_last_edge d w W) in H3.
      destruct (clone_wf d w start stop W P H1 H2 H3) as (m & M & d2 & _ & E' & _ & _ & _ & _ & P' & W' & _).
      rewrite E in E'. assert (d2 = d') by congruence. subst d2. eauto.
Qed.

(** Whatever the history, slicing such a distribution and reading its range never raises, the range
    is ordered, every sample is above the minimum and at most the maximum unless it sits exactly on
    the last edge. *)
Theorem C28_slices_never_fail : forall d, reach d ->
  (exists lo hi, reports d lo hi /\ (hd 0%Q (d_edges d) <= lo)%Q /\ (hi <= last (d_edges d) 0)%Q /\
     forall x, In x (d_data d) -> (lo <= x)%Q /\ ((x <= hi)%Q \/ (x == last (d_edges d) 0)%Q)) /\
  (forall start stop, (start <= stop)%Q -> (hd 0%Q (d_edges d) <= stop)%Q -> (start < last (d_edges d) 0)%Q ->
     exists d', dist_slice d (Some start) (Some stop) = Ok d').
Proof.
  intros d R. destruct (reach_wf d R) as (w & W & P). split.
  - destruct (get_min_wf d w W) as (lo & G1 & G2 & G3 & _). destruct (get_max_wf d w W) as (hi & F1 & F2 & F3 & _).
    exists lo, hi. split; [split; assumption|]. rewrite (wf_last_edge d w W), <- edge0_hd.
    split; [lra|]. split; [lra|]. intros x Hx. split; [now apply G3|].
    destruct (wf_in _ _ W x Hx) as [_ X]. destruct (Qlt_le_dec x (edge d (nbins d))) as [L|L].
    + left. now apply F3.
    + right. lra.
  - intros start stop H1 H2 H3. destruct (slice_cases d w start stop W P H1 H2 H3) as [[_ SE]|[_ SE]]; rewrite SE.
    + destruct (mk_dist_wf (filter (in_closed start stop) (d_data d)) 1 true ltac:(lia)) as (d2 & E' & _). eauto.
    + rewrite <- edge0_hd in H2. rewrite (wf_last_edge d w W) in H3.
      destruct (clone_wf d w start stop W P H1 H2 H3) as (m & M & d2 & _ & E' & _). eauto.
Qed.

Lemma clone_same_max d d' w m M : wf d w -> wf d' w -> (m < M <= nbins d)%nat -> M = nbins d ->
  nbins d' = (M - m)%nat -> (forall i, (i <= M - m)%nat -> edge d' i = edge d (m + i)) ->
  (forall i, (i < M - m)%nat -> nth i (d_hist d') 0 = nth (m + i) (d_hist d) 0) ->
  d_data d' = filter (in_closed (edge d m) (edge d M)) (d_data d) -> get_max d' = get_max d.
Proof.
  intros W W' HM EM N' ED EH D.
  unfold get_max. f_equal.
  replace (-1) with (Z.of_nat (M - m - 1) - Z.of_nat (nbins d')) at 1 by (rewrite N'; lia).
  rewrite (get_bin_neg d' w) by (try exact W'; rewrite N'; lia).
  replace (-1) with (Z.of_nat (M - 1) - Z.of_nat (nbins d)) by lia.
  rewrite (get_bin_neg d w) by (try exact W; lia).
  unfold get_bin.
  assert ((Z.of_nat (M - m - 1) <? 0) = false) as -> by (apply Z.ltb_ge; lia).
  assert ((Z.of_nat (M - 1) <? 0) = false) as -> by (apply Z.ltb_ge; lia). cbn zeta.
  pose proof (wf_len _ _ W) as LE. pose proof (wf_len _ _ W') as LE'. rewrite N' in LE'.
  rewrite (py_index_nth (d_edges d') (M - m - 1) 0%Q), (py_index_nth (d_edges d) (M - 1) 0%Q) by lia.
  replace (Z.of_nat (M - m - 1) + 1) with (Z.of_nat (M - m)) by lia.
  replace (Z.of_nat (M - 1) + 1) with (Z.of_nat M) by lia.
  rewrite (py_index_nth (d_edges d') (M - m) 0%Q), (py_index_nth (d_edges d) M 0%Q) by lia.
  rewrite (py_index_nth (d_hist d') (M - m - 1) 0) by (fold (nbins d'); lia).
  rewrite (py_index_nth (d_hist d) (M - 1) 0) by (fold (nbins d); lia). cbn [rbind].
  fold (edge d' (M - m - 1)) (edge d' (M - m)) (edge d (M - 1)) (edge d M).
  rewrite !ED, EH by lia. replace (m + (M - m - 1))%nat with (M - 1)%nat by lia.
  replace (m + (M - m))%nat with M by lia.
  rewrite !slice_from by (apply W || apply W').
  assert (FD : filter (Qle_bool (edge d (M - 1))) (d_data d') = filter (Qle_bool (edge d (M - 1))) (d_data d)).
  { rewrite D, filter_filter. apply filter_ext_in. intros x Hx. unfold in_closed.
    destruct (wf_in _ _ W x Hx) as [_ X2]. rewrite <- EM in X2.
    rewrite (proj2 (Qle_bool_iff _ _) X2), andb_true_r.
    destruct (Qle_bool (edge d (M - 1)) x) eqn:EE; [|apply andb_false_r]. rewrite andb_true_r.
    apply Qle_bool_iff in EE. apply Qle_bool_iff.
    assert (edge d m <= edge d (M - 1))%Q by (apply (edge_mono d w); [exact W|lia]). lra. }
  rewrite FD. reflexivity.
Qed.

(** What a slice keeps: exactly the samples inside [start, stop] when it is narrower than a bin,
    otherwise exactly the samples between the two edges that enclose it (so all the samples of the
    slice, and none further than one bin from it); and then the range never widens. *)
Theorem C28_slice_contents : forall d d' b start stop, reach d -> (start <= stop)%Q ->
  (hd 0%Q (d_edges d) <= stop)%Q -> (start < last (d_edges d) 0)%Q ->
  get_bin_size d = Ok b -> dist_slice d (Some start) (Some stop) = Ok d' ->
  (forall x, In x (d_data d') -> In x (d_data d) /\ (start - b < x)%Q /\ (x <= stop + b)%Q) /\
  (forall x, In x (d_data d) -> (start <= x <= stop)%Q -> In x (d_data d')) /\
  ((stop - start < b)%Q -> forall x, In x (d_data d') -> (start <= x <= stop)%Q) /\
  ((b <= stop - start)%Q ->
     (exists e f, In e (d_edges d) /\ In f (d_edges d) /\
        (e <= start \/ e = hd 0 (d_edges d))%Q /\ (stop <= f \/ f = last (d_edges d) 0)%Q /\
        d_data d' = filter (fun x => Qle_bool e x && Qle_bool x f) (d_data d)) /\
     no_widening d d').
Proof.
  intros d d' b start stop R H1 H2 H3 Hb E. destruct (reach_wf d R) as (w & W & P).
  destruct (bin_size_wf d w W) as (b' & B1 & B2). rewrite Hb in B1. assert (b' = b) by congruence. subst b'.
  pose proof (wf_w _ _ W) as WP.
  destruct (slice_cases d w start stop W P H1 H2 H3) as [[L SE]|[L SE]]; rewrite SE in E.
  - destruct (mk_dist_wf (filter (in_closed start stop) (d_data d)) 1 true ltac:(lia)) as (d2 & E' & _ & D & _).
    rewrite E in E'. assert (d2 = d') by congruence. subst d2.
    assert (IN : forall x, In x (d_data d') <-> (In x (d_data d) /\ (start <= x <= stop)%Q)).
    { intros x. rewrite D. transitivity (In x (filter (in_closed start stop) (d_data d))).
      - split; apply Permutation.Permutation_in; [symmetry|]; apply sortQ_perm.
      - rewrite filter_In. unfold in_closed. rewrite andb_true_iff, !Qle_bool_iff. tauto. }
    split; [|split; [|split]].
    + intros x Hx. apply IN in Hx as [Hx ?]. split; [exact Hx|]. lra.
    + intros x Hx ?. apply IN. tauto.
    + intros _ x Hx. now apply IN in Hx.
    + intros ?. exfalso. lra.
  - assert (H2' := H2). assert (H3' := H3). rewrite <- edge0_hd in H2'. rewrite (wf_last_edge d w W) in H3'.
    destruct (clone_wf d w start stop W P H1 H2' H3') as (m & M & d2 & HM & E' & N' & ED & EH & D & P' & W' & A1 & A2 & A3 & A4).
    rewrite E in E'. assert (d2 = d') by congruence. subst d2.
    pose proof (edge_succ d w m W ltac:(lia)) as Sm.
    pose proof (edge_succ d w (M - 1) W ltac:(lia)) as SM. replace (S (M - 1)) with M in SM by lia.
    assert (IN : forall x, In x (d_data d') <-> (In x (d_data d) /\ (edge d m <= x <= edge d M)%Q)).
    { intros x. rewrite D, filter_In. unfold in_closed. rewrite andb_true_iff, !Qle_bool_iff. tauto. }
    split; [|split; [|split]].
    + intros x Hx. apply IN in Hx as [Hx ?]. split; [exact Hx|]. lra.
    + intros x Hx Hr. apply IN. split; [exact Hx|]. destruct (wf_in _ _ W x Hx) as [X1 X2]. split.
      * destruct A1 as [-> | ?]; lra.
      * destruct A3 as [-> | ?]; lra.
    + intros ?. exfalso. lra.
    + intros _. split.
      * exists (edge d m), (edge d M). pose proof (wf_len _ _ W) as LE.
        split; [apply nth_In; lia|]. split; [apply nth_In; lia|]. split; [|split; [|exact D]].
        -- destruct A1 as [-> | ?]; [right; apply edge0_hd|now left].
        -- destruct A3 as [-> | ?]; [right; symmetry; now apply (wf_last_edge d w)|left; lra].
      * intros lo hi lo' hi' [G1 F1] [G1' F1'].
        destruct (get_min_wf d w W) as (l & Q1 & Q2 & Q3 & Q4 & Q5). rewrite G1 in Q1. assert (l = lo) by congruence. subst l.
        destruct (get_min_wf d' w W') as (l & Q1' & Q2' & Q3' & Q4' & Q5'). rewrite G1' in Q1'. assert (l = lo') by congruence. subst l.
        destruct (get_max_wf d w W) as (h & T1 & T2 & T3 & T4 & T5 & _). rewrite F1 in T1. assert (h = hi) by congruence. subst h.
        destruct (get_max_wf d' w W') as (h & T1' & T2' & T3' & T4' & T5' & _). rewrite F1' in T1'. assert (h = hi') by congruence. subst h.
        rewrite !ED in Q2' by lia. rewrite Nat.add_0_r in *. rewrite N' in *.
        split.
        -- destruct (Nat.eq_dec m 0) as [-> | Nm].
           ++ rewrite EH in Q4', Q5' by lia. cbn [Nat.add] in *.
              destruct (Z.lt_ge_cases (nth 0 (d_hist d) 0) 2) as [H|H].
              ** rewrite (Q4 H). lra.
              ** apply Q3. apply (Q5' H : In lo' (d_data d')) || idtac. apply IN. now apply Q5'.
           ++ assert (edge d 1 <= edge d m)%Q by (apply (edge_mono d w); [exact W|lia]). lra.
        -- destruct (Nat.eq_dec M (nbins d)) as [EM | NM].
           ++ (* the last bin is the same *)
              assert (EQ : get_max d' = get_max d); [|rewrite EQ in F1'; assert (hi' = hi) by congruence; subst; apply Qle_refl].
              apply (clone_same_max d d' w m M); assumption.
           ++ assert (edge d M <= edge d (nbins d - 1))%Q by (apply (edge_mono d w); [exact W|lia]).
              rewrite !ED in T2' by lia. replace (m + (M - m))%nat with M in T2' by lia. lra.
Qed.

(** Indexing with a bin number, [d[i]]: every sample of bin i is kept, and nothing further than one bin from it.  (Bins are half open
    on the right; the hypothesis that the bin does not start on the last edge only excludes a last bin all of whose samples are the
    maximum.) *)
Theorem C28_index_keeps_bin : forall d i c w d', reach d -> (S i < length (d_edges d))%nat -> get_bin d (Z.of_nat i) = Ok c ->
  (b_min c < last (d_edges d) 0)%Q -> get_bin_size d = Ok w -> dist_at d (Z.of_nat i) = Ok d' ->
  let e := nth i (d_edges d) 0%Q in let f := nth (S i) (d_edges d) 0%Q in
  (forall x, In x (d_data d) -> (e <= x < f)%Q -> In x (d_data d')) /\
  (forall x, In x (d_data d') -> In x (d_data d) /\ (e - w < x)%Q /\ (x <= f + w)%Q).
Proof.
  intros d i c w d' R Hi G Hl Hw E. cbv zeta. destruct (reach_wf d R) as (w0 & W & P). pose proof (wf_len _ _ W) as LE.
  assert (Hn : (i < nbins d)%nat) by lia.
  destruct (get_bin_wf d w0 i W Hn) as (p & P1 & P2 & P3). rewrite P3 in G. cbv zeta in G. fold (edge d i) (edge d (S i)).
  pose proof (edge_succ d w0 i W Hn) as ES. pose proof (wf_w _ _ W) as WP.
  assert (PS : forall x, p x = true -> (edge d i <= x <= edge d (S i))%Q).
  { intros x Hx. destruct P1 as [-> | [_ ->]]; unfold half_open, in_closed in Hx; apply andb_prop in Hx as [A B]; apply Qle_bool_iff in A;
      [apply Qltb_lt in B|apply Qle_bool_iff in B]; split; lra. }
  assert (PI : forall x, (edge d i <= x < edge d (S i))%Q -> p x = true).
  { intros x [A B]. destruct P1 as [-> | [_ ->]]; unfold half_open, in_closed; apply andb_true_iff; (split; [now apply Qle_bool_iff|]);
      [now apply Qltb_lt|apply Qle_bool_iff; lra]. }
  assert (BB : (edge d i <= b_min c)%Q /\ (b_min c <= b_max c)%Q /\ (b_max c <= edge d (S i))%Q /\
    forall x, In x (d_data d) -> (edge d i <= x < edge d (S i))%Q -> (b_min c <= x <= b_max c)%Q).
  { destruct (countb p (d_data d) <? 2) eqn:CT.
    - assert (c = mkbin (edge d i) (edge d (S i)) (countb p (d_data d)) []) as -> by congruence. cbn [b_min b_max].
      split; [lra|]. split; [lra|]. split; [lra|]. intros x _ ?. lra.
    - assert (c = mkbin (hd 0%Q (filter p (d_data d))) (last (filter p (d_data d)) 0%Q) (countb p (d_data d)) (filter p (d_data d))) as -> by congruence.
      cbn [b_min b_max]. apply Z.ltb_ge in CT. unfold countb in CT.
      assert (NE : filter p (d_data d) <> []) by (intros Z0; rewrite Z0 in CT; cbn in CT; lia).
      pose proof (sorted_filter p _ (wf_sorted _ _ W)) as SF.
      pose proof (hd_In _ NE) as HI. pose proof (last_In _ NE) as LI.
      pose proof (sorted_hd_le _ _ SF LI) as HL.
      apply filter_In in HI as [_ HI]. apply filter_In in LI as [_ LI]. apply PS in HI. apply PS in LI.
      split; [lra|]. split; [exact HL|]. split; [lra|]. intros x Hx Hr.
      assert (IX : In x (filter p (d_data d))) by (apply filter_In; split; [exact Hx|now apply PI]).
      split; [now apply sorted_hd_le|now apply sorted_last_ge]. }
  destruct BB as (B1 & B2 & B3 & B4).
  unfold dist_at in E. rewrite P3 in E. cbv zeta in E. cbn [rbind] in E. 
  assert (E' : dist_slice d (Some (b_min c)) (Some (b_max c)) = Ok d') by (injection G as G; rewrite <- G; exact E).
  assert (E0 : (hd 0%Q (d_edges d) <= b_max c)%Q).
  { rewrite <- edge0_hd. assert (edge d 0 <= edge d i)%Q by (apply (edge_mono d w0); [exact W|lia]). lra. }
  destruct (C28_slice_contents d d' w (b_min c) (b_max c) R B2 E0 Hl Hw E') as (C1 & C2 & _).
  split; [intros x Hx Hr; apply C2; [exact Hx|now apply B4]|].
  intros x Hx. destruct (C1 x Hx) as (A & B & C). split; [exact A|]. split; lra.
Qed.
(** A bin with fewer than two samples is sliced at its own edges, which brings in the next bin and the edge after it: here [d[0]]
    contains 4 although bin 0 is [0, 2). *)
Theorem C28_index_more_than_bin_refuted : exists d d', reach d /\ nth 1 (d_edges d) 0%Q == 2 /\
  dist_at d 0 = Ok d' /\ d_data d' = [0; 4]%Q.
Proof.
  pose (a := [0; 4; 5; 6; 10]%Q).
  assert (exists d, mk_dist a 5 true = Ok d) as (d & E) by (eexists; reflexivity).
  exists d. assert (R : reach d) by (apply (reach_new a 5); [lia|exact E]).
  vm_compute in E. assert (X : forall e, Ok e = Ok d -> e = d) by congruence. apply X in E. subst d.
  eexists. split; [exact R|]. split; [reflexivity|]. split; vm_compute; reflexivity.
Qed.
Example C28_index_example : exists d c w d', reach d /\ (3 < length (d_edges d))%nat /\ get_bin d 2 = Ok c /\
  (b_min c < last (d_edges d) 0)%Q /\ get_bin_size d = Ok w /\ dist_at d 2 = Ok d' /\ d_data d' = [4; 5]%Q.
Proof.
  pose (a := [0; 4; 5; 6; 10]%Q).
  assert (exists d, mk_dist a 5 true = Ok d) as (d & E) by (eexists; reflexivity).
  exists d. assert (R : reach d) by (apply (reach_new a 5); [lia|exact E]).
  vm_compute in E. assert (X : forall e, Ok e = Ok d -> e = d) by congruence. apply X in E. subst d.
  eexists _, _, _. split; [exact R|]. split; [cbn; lia|]. split; [vm_compute; reflexivity|]. split; [reflexivity|].
  split; [vm_compute; reflexivity|]. split; vm_compute; reflexivity.
Qed.
(** A slice narrower than a bin can widen the range: an empty one reports [0, 1]. *)
Theorem C28_narrow_slice_refuted : exists d d' start stop, reach d /\ (start <= stop)%Q /\
  reports_eq d 0 (1#10) /\ dist_slice d (Some start) (Some stop) = Ok d' /\ reports_eq d' 0 1.
Proof.
  pose (a := [0; 1#10]%Q). destruct (mk_dist_wf a 2 true ltac:(lia)) as (d & E & _).
  exists d. vm_compute in E. assert (X : forall e, Ok e = Ok d -> e = d) by congruence. apply X in E. subst d.
  eexists _, (1#100)%Q, (2#100)%Q. split; [apply (reach_new a 2); [lia|reflexivity]|].
  split; [discriminate|]. split; [eexists _, _; split; [split|split]; vm_compute; reflexivity|]. split; [vm_compute; reflexivity|].
  eexists _, _; split; [split|split]; vm_compute; reflexivity.
Qed.
(** A slice that ends below the first edge returns the whole distribution instead of an empty one. *)
Theorem C28_slice_below_refuted : exists d d', reach d /\
  dist_slice d (Some (-10)%Q) (Some (-5)%Q) = Ok d' /\ d_data d' = [0; 1; 2; 3; 4]%Q.
Proof.
  pose (a := [0; 1; 2; 3; 4]%Q).
  assert (exists d, mk_dist a 4 true = Ok d) as (d & E) by (eexists; reflexivity).
  exists d. assert (R : reach d) by (apply (reach_new a 4); [lia|exact E]).
  vm_compute in E. assert (X : forall e, Ok e = Ok d -> e = d) by congruence. apply X in E. subst d.
  eexists. split; [exact R|]. split; vm_compute; reflexivity.
Qed.

Example C28_example : exists d, mk_dist [-5; -4; 9#2; 2; 2; 11#4; 0; 5]%Q 10 true = Ok d /\
  (hd 0%Q (d_edges d) <= 11#5)%Q /\ (-(41#10) < last (d_edges d) 0)%Q /\
  exists d', dist_slice d (Some (-(41#10))%Q) (Some (11#5)) = Ok d' /\ d_data d' = [-5; -4; 0; 2; 2; 11#4]%Q /\
   d_hist d' = [1; 1; 0; 0; 0; 1; 0; 3].
Proof. eexists. split; [reflexivity|]. split; [discriminate|]. split; [reflexivity|]. eexists. split; [vm_compute; reflexivity|]. split; vm_compute; reflexivity. Qed.

(** ** C26 *)
Lemma error_half q s z x (lo hi : Z) : narrow q -> in_dtype q z -> (0 < s)%Q -> gmin q <= lo -> lo <= hi -> hi <= gmax q ->
  (inject_Z lo - (1#2) <= x / s + inject_Z z <= inject_Z hi + (1#2))%Q -> (rt_error q s z x <= s * (1#2))%Q.
Proof.
  intros (N1 & N2 & N3) Hz Hs H1 H2 H3 [Y1 Y2]. unfold rt_error. set (y := (x / s + inject_Z z)%Q) in *.
  set (k := clipZ lo hi (Qfloor (y + (1#2)))).
  assert (HK : lo <= k <= hi) by (apply clipZ_range; exact H2).
  assert (ZN : zp_nowrap q z) by (unfold zp_nowrap, in_dtype in *; lia).
  assert (IK : in_dt q k) by (unfold in_dt; lia).
  eapply Qle_trans; [apply (quant1_nearest q z s x k N1 ZN Hs IK)|].
  rewrite (dequant1_nowrap q z s k N1 ZN IK). rewrite dist_scale by exact Hs. fold y.
  apply Qmult_le_l; [exact Hs|]. apply Qabs_Qle_condition.
  destruct (Qfloor_bounds (y + (1#2))) as [F1 F2].
  unfold k, clipZ. destruct (Z.max_spec (Qfloor (y + (1#2))) lo) as [[L ->]|[L ->]].
  - rewrite Z.min_l by exact H2. assert (inject_Z (Qfloor (y + (1#2))) + 1 <= inject_Z lo)%Q.
    { change 1%Q with (inject_Z 1). rewrite <- inject_Z_plus. apply (proj1 (Zle_inj _ _)). lia. } lra.
  - destruct (Z.min_spec (Qfloor (y + (1#2))) hi) as [[G ->]|[G ->]]; [lra|].
    apply (proj1 (Zle_inj _ _)) in G. lra.
Qed.

Lemma asym_params d q sym lo hi : reports d lo hi -> (Qmin lo 0 < Qmax hi 0)%Q ->
  let qmin := if sym : bool then - gmax q else gmin q in qmin < gmax q ->
  exists s z, dist_quantize d q None None sym = Ok (s, z) /\ (0 < s)%Q /\
    (s == (Qmax hi 0 - Qmin lo 0) / inject_Z (gmax q - qmin))%Q /\ qmin <= z <= gmax q /\
    (Qabs (inject_Z z - (inject_Z qmin - Qmin lo 0 / s)) <= 1#2)%Q /\
    (Qabs (inject_Z z - (inject_Z (gmax q) - Qmax hi 0 / s)) <= 1#2)%Q.
Proof.
  intros [G F] HL qmin HQ. unfold dist_quantize. rewrite G, F. cbn [rbind]. fold qmin.
  set (mn := Qmin lo 0) in *. set (mx := Qmax hi 0) in *.
  assert ((gmax q - qmin =? 0) = false) as -> by (apply Z.eqb_neq; lia).
  assert (Qeq_bool (mn - mx) 0 = false) as ->.
  { apply not_true_iff_false. intros C. apply Qeq_bool_iff in C. lra. }
  assert (DP : (0 < inject_Z (gmax q - qmin))%Q) by (change 0%Q with (inject_Z 0); apply (proj1 (Zlt_inj _ _)); lia).
  set (s := ((mx - mn) / inject_Z (gmax q - qmin))%Q).
  assert (SP : (0 < s)%Q). { unfold s. apply Qlt_shift_div_l; [exact DP|]. rewrite Qmult_0_l. lra. }
  assert (Qeq_bool s 0 = false) as ->.
  { apply not_true_iff_false. intros C. apply Qeq_bool_iff in C. lra. }
  set (r := ((mn * inject_Z (gmax q) - mx * inject_Z qmin) / (mn - mx))%Q).
  assert (MX : (0 <= mx)%Q) by apply Q.le_max_r. assert (MN : (mn <= 0)%Q) by apply Q.le_min_r.
  assert (R1 : (r == inject_Z qmin - mn / s)%Q).
  { unfold r, s. rewrite inject_Z_minus. field. rewrite <- inject_Z_minus. repeat split; lra. }
  assert (R2 : (r == inject_Z (gmax q) - mx / s)%Q).
  { unfold r, s. rewrite inject_Z_minus. field. rewrite <- inject_Z_minus. repeat split; lra. }
  assert (P1 : (mn / s <= 0)%Q) by (apply Qle_shift_div_r; [exact SP|lra]).
  assert (P2 : (0 <= mx / s)%Q) by (apply Qle_shift_div_l; [exact SP|lra]).
  exists s, (Qround_even r). split; [reflexivity|]. split; [exact SP|]. split; [reflexivity|].
  pose proof (Qround_even_near r) as NR. apply Qabs_Qle_condition in NR.
  split; [split|split].
  - rewrite <- (Qround_even_inject qmin). apply Qround_even_mono. lra.
  - rewrite <- (Qround_even_inject (gmax q)). apply Qround_even_mono. lra.
  - apply Qabs_Qle_condition. lra.
  - apply Qabs_Qle_condition. lra.
Qed.

(** Asymmetric calibration, and symmetric = True without a forced zero point on signed dtypes. *)
Theorem C26_calibration : forall d q sym lo hi, narrow q -> (sym = true -> 0 < gmax q /\ gmin q <= - gmax q) ->
  reports d lo hi -> (Qmin lo 0 < Qmax hi 0)%Q ->
  exists s z, dist_quantize d q None None sym = Ok (s, z) /\ (0 < s)%Q /\ in_dtype q z /\
    quant1 q z s 0 = z /\
    forall x, (Qmin lo 0 <= x <= Qmax hi 0)%Q -> (rt_error q s z x <= s * (1#2))%Q.
Proof.
  intros d q sym lo hi N HS R HL. pose proof N as (N1 & N2 & N3).
  set (qmin := if sym then - gmax q else gmin q).
  assert (QL : qmin < gmax q) by (unfold qmin; destruct sym; [specialize (HS eq_refl); lia|exact N2]).
  assert (QM : gmin q <= qmin) by (unfold qmin; destruct sym; [specialize (HS eq_refl); lia|lia]).
  destruct (asym_params d q sym lo hi R HL QL) as (s & z & E & SP & _ & Z1 & A & B). fold qmin in Z1, A, B.
  assert (Hz : in_dtype q z) by (unfold in_dtype; lia).
  exists s, z. split; [exact E|]. split; [exact SP|]. split; [exact Hz|]. split; [now apply quant1_zero|].
  intros x [X1 X2]. apply Qabs_Qle_condition in A, B.
  apply (error_half q s z x qmin (gmax q) N Hz SP QM ltac:(lia) ltac:(lia)).
  assert (Qmin lo 0 / s <= x / s)%Q by (apply Qmult_le_compat_r; [exact X1|apply Qlt_le_weak, Qinv_lt_0_compat, SP]).
  assert (x / s <= Qmax hi 0 / s)%Q by (apply Qmult_le_compat_r; [exact X2|apply Qlt_le_weak, Qinv_lt_0_compat, SP]).
  lra.
Qed.

(** End to end: calibrating on non-constant data and quantizing that data. *)
Theorem C26_data_roundtrip : forall a n p q x y, narrow q -> (0 < n)%nat -> In x a -> In y a -> (x < y)%Q ->
  exists d s z, mk_dist a n p = Ok d /\ dist_quantize d q None None false = Ok (s, z) /\ (0 < s)%Q /\ in_dtype q z /\
    quant1 q z s 0 = z /\ forall v, In v a -> (rt_error q s z v <= s * (1#2))%Q.
Proof.
  intros a n p q x y N Hn Hx Hy L.
  destruct (C28_unsliced_range a n p x y Hn Hx Hy L) as (d & lo & hi & E & R & [LO LO'] & [HI HI']).
  destruct (C26_calibration d q false lo hi N ltac:(discriminate) R) as (s & z & Q1 & Q2 & Q3 & Q4 & Q5).
  - pose proof (LO' x Hx). pose proof (HI' y Hy). pose proof (Q.le_min_l lo 0). pose proof (Q.le_max_l hi 0). lra.
  - exists d, s, z. split; [exact E|]. split; [exact Q1|]. split; [exact Q2|]. split; [exact Q3|]. split; [exact Q4|].
    intros v Hv. apply Q5. pose proof (LO' v Hv). pose proof (HI' v Hv).
    pose proof (Q.le_min_l lo 0). pose proof (Q.le_max_l hi 0). lra.
Qed.

Example C26_example : narrow int8 /\ exists d s z,
  mk_dist [-1; 2; 3]%Q 512 true = Ok d /\ dist_quantize d int8 None None false = Ok (s, z) /\
  (s == 4#255)%Q /\ z = -64.
Proof.
  split; [unfold narrow, within_int32; cbn; lia|].
  assert (exists d, mk_dist [-1; 2; 3]%Q 512 true = Ok d) as (d & E) by (eexists; reflexivity).
  exists d. eexists _, _. split; [exact E|]. 
  assert (X : forall e, Ok e = Ok d -> e = d) by congruence. vm_compute in E. apply X in E. subst d.
  split; [vm_compute; reflexivity|]. split; vm_compute; reflexivity.
Qed.

(** Data that is all zero: a single-bin distribution cannot be calibrated. *)
Theorem C26_degenerate_raises : forall d q lo hi, reports d lo hi -> (lo == 0)%Q -> (hi == 0)%Q -> gmin q <> gmax q ->
  dist_quantize d q None None false = Err EValueError.
Proof.
  intros d q lo hi [G F] L H N. unfold dist_quantize. rewrite G, F. cbn [rbind].
  assert ((gmax q - gmin q =? 0) = false) as -> by (apply Z.eqb_neq; lia).
  assert (Qeq_bool (Qmin lo 0 - Qmax hi 0) 0 = true) as ->; [|reflexivity].
  apply Qeq_bool_iff. destruct (Q.min_spec lo 0) as [[? ->]|[? ->]]; destruct (Q.max_spec hi 0) as [[? ->]|[? ->]]; lra.
Qed.
Example C26_degenerate_example : exists d, mk_dist [0; 0]%Q 1 true = Ok d /\ reports_eq d 0 0.
Proof. eexists. split; [reflexivity|]. eexists _, _; split; [split|split]; vm_compute; reflexivity. Qed.

(** ** C27 *)
Lemma forced_params d q sym z lo hi : reports d lo hi -> (Qmin lo 0 < Qmax hi 0)%Q ->
  let qmin := if sym : bool then - gmax q else gmin q in
  let den := if sym then gmax q else Z.abs qmin in qmin < gmax q -> 0 < den ->
  exists s, dist_quantize d q (Some z) None sym = Ok (s, z) /\ (0 < s)%Q /\
    forall x, (Qmin lo 0 <= x <= Qmax hi 0)%Q -> (- inject_Z den <= x / s <= inject_Z den)%Q.
Proof.
  intros [G F] HL qmin den HQ HD. unfold dist_quantize. rewrite G, F. cbn [rbind]. fold qmin.
  set (mn := Qmin lo 0) in *. set (mx := Qmax hi 0) in *. fold den.
  assert ((gmax q - qmin =? 0) = false) as -> by (apply Z.eqb_neq; lia).
  assert (Qeq_bool (mn - mx) 0 = false) as ->.
  { apply not_true_iff_false. intros C. apply Qeq_bool_iff in C. lra. }
  assert ((den =? 0) = false) as -> by (apply Z.eqb_neq; lia). cbn [rbind].
  assert (DP : (0 < inject_Z den)%Q) by (change 0%Q with (inject_Z 0); apply (proj1 (Zlt_inj _ _)); lia).
  assert (MX : (0 <= mx)%Q) by apply Q.le_max_r. assert (MN : (mn <= 0)%Q) by apply Q.le_min_r.
  set (A := Qmax (Qabs mn) (Qabs mx)).
  assert (A1 : (- mn <= A)%Q). { unfold A. rewrite <- (Qabs_neg mn MN). apply Q.le_max_l. }
  assert (A2 : (mx <= A)%Q). { unfold A. rewrite <- (Qabs_pos mx MX) at 1. apply Q.le_max_r. }
  assert (AP : (0 < A)%Q) by lra. set (s := (A / inject_Z den)%Q).
  assert (SP : (0 < s)%Q). { unfold s. apply Qlt_shift_div_l; [exact DP|]. lra. }
  assert (Qeq_bool s 0 = false) as ->.
  { apply not_true_iff_false. intros C. apply Qeq_bool_iff in C. lra. }
  exists s. split; [reflexivity|]. split; [exact SP|]. intros x [X1 X2].
  assert (SD : (s * inject_Z den == A)%Q) by (unfold s; field; lra).
  split; [apply Qle_shift_div_l|apply Qle_shift_div_r]; try exact SP; lra.
Qed.

(** Symmetric with the zero point forced to 0, signed dtype: no saturation, codes within
    [-max, max] (the code -max-1 is never used), half a step of error. *)
Theorem C27_symmetric : forall d q lo hi, narrow q -> 0 < gmax q -> gmin q <= - gmax q ->
  reports d lo hi -> (Qmin lo 0 < Qmax hi 0)%Q ->
  exists s, dist_quantize d q (Some 0) None true = Ok (s, 0) /\ (0 < s)%Q /\
    forall x, (Qmin lo 0 <= x <= Qmax hi 0)%Q ->
      - gmax q <= quant1 q 0 s x <= gmax q /\ (rt_error q s 0 x <= s * (1#2))%Q.
Proof.
  intros d q lo hi N M1 M2 R HL. pose proof N as (N1 & N2 & N3).
  assert (QL : - gmax q < gmax q) by lia.
  destruct (forced_params d q true 0 lo hi R HL QL M1) as (s & E & SP & B).
  exists s. split; [exact E|]. split; [exact SP|]. intros x Hx. specialize (B x Hx). cbn beta iota in B.
  rewrite <- inject_Z_opp in B. split.
  - unfold quant1. rewrite q_round_clip by exact N1.
    assert (- gmax q <= Qfloor (x / s + inject_Z 0 + (1#2))).
    { apply Qfloor_ge. change (inject_Z 0) with 0%Q. lra. }
    assert (Qfloor (x / s + inject_Z 0 + (1#2)) < gmax q + 1).
    { apply Qfloor_lt. rewrite inject_Z_plus. change (inject_Z 0) with 0%Q. change (inject_Z 1) with 1%Q. lra. }
    rewrite clipZ_id by lia. lia.
  - apply (error_half q s 0 x (- gmax q) (gmax q) N); try lia; try assumption; [unfold in_dtype; lia|].
    change (inject_Z 0) with 0%Q. lra.
Qed.
(** Without the symmetric flag the positive maximum is clipped, by at most one step. *)
Theorem C27_unsymmetric_one_step : forall d q lo hi, narrow q -> 0 < gmax q -> gmin q = - gmax q - 1 ->
  reports d lo hi -> (Qmin lo 0 < Qmax hi 0)%Q ->
  exists s, dist_quantize d q (Some 0) None false = Ok (s, 0) /\ (0 < s)%Q /\
    forall x, (Qmin lo 0 <= x <= Qmax hi 0)%Q ->
     (rt_error q s 0 x <= s)%Q /\ ((x <= inject_Z (gmax q) * s)%Q -> (rt_error q s 0 x <= s * (1#2))%Q).
Proof.
  intros d q lo hi N M1 M2 R HL. pose proof N as (N1 & N2 & N3).
  assert (QL : 0 < Z.abs (gmin q)) by lia.
  destruct (forced_params d q false 0 lo hi R HL N2 QL) as (s & E & SP & B).
  exists s. split; [exact E|]. split; [exact SP|]. intros x Hx. specialize (B x Hx). cbn beta iota in B.
  assert (D0 : in_dtype q 0) by (unfold in_dtype; lia).
  replace (Z.abs (gmin q)) with (gmax q + 1) in B by lia. rewrite inject_Z_plus in B. change (inject_Z 1) with 1%Q in B.
  assert (GM : (inject_Z (gmin q) == - inject_Z (gmax q) - 1)%Q).
  { rewrite M2. rewrite inject_Z_minus, inject_Z_opp. reflexivity. }
  assert (HALF : (x / s <= inject_Z (gmax q))%Q -> (rt_error q s 0 x <= s * (1#2))%Q).
  { intros H. apply (error_half q s 0 x (gmin q) (gmax q) N); try lia; try assumption.
    change (inject_Z 0) with 0%Q. lra. }
  split.
  - destruct (Qlt_le_dec (inject_Z (gmax q)) (x / s)) as [L|L].
    + unfold rt_error. rewrite (quant1_saturate_high q 0 s x N1) by (change (inject_Z 0) with 0%Q; lra).
      rewrite (dequant1_nowrap q 0 s (gmax q) N1) by (unfold zp_nowrap, in_dt, within_int32 in *; lia).
      rewrite dist_scale by exact SP. change (inject_Z 0) with 0%Q.
      rewrite Qabs_pos by lra. 
      assert (X : (x / s + 0 - inject_Z (gmax q) <= 1)%Q) by lra.
      apply (Qmult_le_compat_r _ _ s) in X; [|lra]. lra.
    + specialize (HALF L). lra.
  - intros H. apply HALF. apply Qle_shift_div_r; [exact SP|exact H].
Qed.
Theorem C27_unsymmetric_tight : exists d s x, mk_dist [0; 1; 10]%Q 8 true = Ok d /\ reports_eq d 0 10 /\
  dist_quantize d int8 (Some 0) None false = Ok (s, 0) /\ (x <= 10)%Q /\ (rt_error int8 s 0 x == s)%Q.
Proof.
  assert (exists d, mk_dist [0; 1; 10]%Q 8 true = Ok d) as (d & E) by (eexists; reflexivity).
  exists d. eexists _, 10%Q. split; [exact E|].
  assert (X : forall e, Ok e = Ok d -> e = d) by congruence. vm_compute in E. apply X in E. subst d.
  split; [eexists _, _; split; [split|split]; vm_compute; reflexivity|]. split; [vm_compute; reflexivity|]. split; [discriminate|]. vm_compute. reflexivity.
Qed.
(** Forced parameters are used as they are, except a zero scale, which becomes scale 1 and zero point 0; a scale of 0 is never returned. *)
Theorem C27_forced_used : forall d q fz fs sym s z, dist_quantize d q fz fs sym = Ok (s, z) ->
  ~ (s == 0)%Q /\
  (forall s0, fs = Some s0 -> ~ (s0 == 0)%Q -> s = s0 /\ forall z0, fz = Some z0 -> z = z0) /\
  (forall s0, fs = Some s0 -> (s0 == 0)%Q -> s = 1%Q /\ z = 0).
Proof.
  intros d q fz fs sym s z. unfold dist_quantize.
  destruct (get_min d) as [mn|]; [|discriminate]. cbn [rbind]. destruct (get_max d) as [mx|]; [|discriminate]. cbn [rbind].
  set (qn := if sym then - gmax q else gmin q). destruct (gmax q - qn =? 0); [discriminate|].
  destruct (Qeq_bool (Qmin mn 0 - Qmax mx 0) 0); [discriminate|].
  match goal with |- (do sz <- ?e; _) = _ -> _ => destruct e as [[s1 z1]|] eqn:E1; [|discriminate] end. cbn [rbind].
  assert (Z1 : forall z0, fz = Some z0 -> z1 = z0).
  { intros z0 ->. match type of E1 with (if ?c then _ else _) = _ => destruct c; [discriminate|] end. congruence. }
  destruct fs as [s0|].
  - destruct (Qeq_bool s0 0) eqn:E0; intros H.
    + apply Qeq_bool_iff in E0. assert (s = 1%Q) as -> by congruence. assert (z = 0) as -> by congruence.
      split; [discriminate|]. split; [|intros; split; reflexivity]. intros s2 E2 NZ. assert (s2 = s0) by congruence. subst. contradiction.
    + assert (NE : ~ (s0 == 0)%Q) by (intros C; apply Qeq_bool_iff in C; congruence).
      assert (s = s0) as -> by congruence. assert (z = z1) as -> by congruence.
      split; [exact NE|]. split; [intros s2 E2 _; split; [congruence|exact Z1]|]. intros s2 E2 C. assert (s2 = s0) by congruence. subst. contradiction.
  - destruct (Qeq_bool s1 0) eqn:E0; intros H.
    + assert (s = 1%Q) as -> by congruence. split; [discriminate|]. split; intros s2 E2; discriminate.
    + assert (s = s1) as -> by congruence. split; [intros C; apply Qeq_bool_iff in C; congruence|]. split; intros s2 E2; discriminate.
Qed.
Example C27_forced_example : exists d, mk_dist [0; 1; 10]%Q 8 true = Ok d /\ dist_quantize d int8 (Some 3) (Some (1#7)) false = Ok (1#7, 3) /\
  dist_quantize d int8 (Some 3) (Some 0%Q) false = Ok (1%Q, 0).
Proof. eexists. split; [reflexivity|]. split; vm_compute; reflexivity. Qed.
(** Unsigned dtypes: forcing the zero point without the symmetric flag divides by zero. *)
Theorem C27_unsigned_forced_raises : forall d q z fs lo hi, gmin q = 0 -> 0 < gmax q ->
  reports d lo hi -> (Qmin lo 0 < Qmax hi 0)%Q -> dist_quantize d q (Some z) fs false = Err EZeroDivision.
Proof.
  intros d q z fs lo hi M0 M1 [G F] HL. unfold dist_quantize. rewrite G, F. cbn [rbind].
  assert ((gmax q - gmin q =? 0) = false) as -> by (apply Z.eqb_neq; lia).
  assert (Qeq_bool (Qmin lo 0 - Qmax hi 0) 0 = false) as ->.
  { apply not_true_iff_false. intros C. apply Qeq_bool_iff in C. lra. }
  rewrite M0. reflexivity.
Qed.
(** A forced zero point other than 0 saturates: the scale ignores it. *)
Theorem C27_forced_nonzero_refuted : exists d s, mk_dist [-10; 0; 10]%Q 8 true = Ok d /\ reports_eq d (-10) 10 /\
  dist_quantize d int8 (Some 64) None true = Ok (s, 64) /\ (10 * s < rt_error int8 s 64 10)%Q.
Proof.
  assert (exists d, mk_dist [-10; 0; 10]%Q 8 true = Ok d) as (d & E) by (eexists; reflexivity).
  exists d. eexists. split; [exact E|].
  assert (X : forall e, Ok e = Ok d -> e = d) by congruence. vm_compute in E. apply X in E. subst d.
  split; [eexists _, _; split; [split|split]; vm_compute; reflexivity|]. split; [vm_compute; reflexivity|]. vm_compute. reflexivity.
Qed.
(** The symmetric flag alone on an unsigned dtype yields a zero point outside the dtype. *)
Theorem C27_symmetric_unsigned_refuted : exists d s z, mk_dist [1; 2; 10]%Q 8 true = Ok d /\
  dist_quantize d {| gmin := 0; gmax := 255; grepr := chars_of "uint8" |} None None true = Ok (s, z) /\ z = -255.
Proof.
  assert (exists d, mk_dist [1; 2; 10]%Q 8 true = Ok d) as (d & E) by (eexists; reflexivity).
  exists d. eexists _, _. split; [exact E|].
  assert (X : forall e, Ok e = Ok d -> e = d) by congruence. vm_compute in E. apply X in E. subst d.
  split; vm_compute; reflexivity.
Qed.
Example C27_example : exists d lo hi, mk_dist [0; 9; -11]%Q 3 true = Ok d /\ reports d lo hi /\ (Qmin lo 0 < Qmax hi 0)%Q /\
  exists s, dist_quantize d int8 (Some 0) None true = Ok (s, 0) /\ (s == 11#127)%Q.
Proof.
  assert (exists d, mk_dist [0; 9; -11]%Q 3 true = Ok d) as (d & E) by (eexists; reflexivity).
  exists d. eexists _, _. split; [exact E|].
  assert (X : forall e, Ok e = Ok d -> e = d) by congruence. vm_compute in E. apply X in E. subst d.
  split; [split; vm_compute; reflexivity|]. split; [vm_compute; reflexivity|]. eexists. split; vm_compute; reflexivity.
Qed.
