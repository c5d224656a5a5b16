(** C26 (saturation) and C54: fused ReLU calibration. *)
From Verif Require Import Base BaseProofs DtypeModel QuantModel QuantProofs PropCore DistModel DistProofs DistClone PropDist.
From Coq Require Import Sorting.Sorted Qminmax Lqa.
Open Scope Z_scope.
Open Scope list_scope.

(** the real number read back after quantizing x *)
Definition readback (q : gdtype) (s : Q) (z : Z) (x : Q) : Q := dequant1 z s (quant1 q z s x).
Definition limit (lo hi x : Q) : Q := if Qlt_le_dec x lo then lo else if Qlt_le_dec hi x then hi else x.
Definition relu (x : Q) : Q := Qmax x 0.
Definition relu6 (x : Q) : Q := Qmin (Qmax x 0) 6.

Lemma readback_mono q s z x y : narrow q -> in_dtype q z -> (0 < s)%Q -> (x <= y)%Q ->
  (readback q s z x <= readback q s z y)%Q.
Proof.
  intros (N1 & N2 & N3) Hz Hs H. unfold readback.
  assert (ZN : zp_nowrap q z) by (unfold zp_nowrap, in_dtype in *; lia).
  pose proof (quant1_mono q z s x y N1 Hs H) as M.
  assert (I : forall v, in_dt q (quant1 q z s v)) by (intros v; apply q_round_range; exact N1).
  rewrite !(dequant1_nowrap q) by (try assumption; apply I).
  apply Qmult_le_compat_r; [|lra]. apply (proj1 (Zle_inj _ _)). lia.
Qed.
Lemma readback_bounds q s z x : narrow q -> in_dtype q z -> (0 < s)%Q ->
  (inject_Z (gmin q - z) * s <= readback q s z x <= inject_Z (gmax q - z) * s)%Q.
Proof.
  intros (N1 & N2 & N3) Hz Hs. unfold readback.
  assert (ZN : zp_nowrap q z) by (unfold zp_nowrap, in_dtype in *; lia).
  assert (I : in_dt q (quant1 q z s x)) by (apply q_round_range; exact N1).
  rewrite !(dequant1_nowrap q) by assumption. unfold in_dt in I.
  split; (apply Qmult_le_compat_r; [|lra]); apply (proj1 (Zle_inj _ _)); lia.
Qed.

(** Every real, inside or outside the calibrated range, reads back within half a step of itself
    limited to that range. *)
Theorem C26_saturation : forall d q lo hi, narrow q -> reports d lo hi -> (Qmin lo 0 < Qmax hi 0)%Q ->
  exists s z, dist_quantize d q None None false = Ok (s, z) /\ (0 < s)%Q /\ in_dtype q z /\
    forall x, (Qabs (readback q s z x - limit (Qmin lo 0) (Qmax hi 0) x) <= s * (1#2))%Q.
Proof.
  intros d q lo hi N R HL. pose proof N as (N1 & N2 & N3).
  destruct (asym_params d q false lo hi R HL N2) as (s & z & E & SP & _ & Z1 & A & B).
  destruct (C26_calibration d q false lo hi N ltac:(discriminate) R HL) as (s' & z' & E' & _ & Hz & _ & IN).
  rewrite E in E'. assert (s' = s) by congruence. assert (z' = z) by congruence. subst s' z'.
  exists s, z. split; [exact E|]. split; [exact SP|]. split; [exact Hz|]. cbn beta iota in *.
  set (mn := Qmin lo 0) in *. set (mx := Qmax hi 0) in *.
  assert (IN' : forall x, (mn <= x <= mx)%Q -> (Qabs (readback q s z x - x) <= s * (1#2))%Q).
  { intros x Hx. rewrite <- Qabs_opp. specialize (IN x Hx). unfold rt_error in IN. unfold readback.
    eapply Qle_trans; [|exact IN]. apply Qle_lteq; right. apply Qabs_wd. ring. }
  apply Qabs_Qle_condition in A, B.
  assert (MS : forall u, ((u / s) * s == u)%Q) by (intros u; field; lra).
  intros x. unfold limit. destruct (Qlt_le_dec x mn) as [L|L]; [|destruct (Qlt_le_dec mx x) as [G|G]].
  - pose proof (readback_bounds q s z x N Hz SP) as [B1 _].
    pose proof (readback_mono q s z x mn N Hz SP ltac:(lra)) as M.
    pose proof (IN' mn ltac:(lra)) as I. apply Qabs_Qle_condition in I. apply Qabs_Qle_condition.
    rewrite inject_Z_minus in B1.
    assert (C : ((mn / s - (1#2)) * s <= (inject_Z (gmin q) - inject_Z z) * s)%Q) by (apply Qmult_le_compat_r; lra).
    specialize (MS mn). lra.
  - pose proof (readback_bounds q s z x N Hz SP) as [_ B1].
    pose proof (readback_mono q s z mx x N Hz SP ltac:(lra)) as M.
    pose proof (IN' mx ltac:(lra)) as I. apply Qabs_Qle_condition in I. apply Qabs_Qle_condition.
    rewrite inject_Z_minus in B1.
    assert (C : ((inject_Z (gmax q) - inject_Z z) * s <= (mx / s + (1#2)) * s)%Q) by (apply Qmult_le_compat_r; lra).
    specialize (MS mx). lra.
  - apply IN'. lra.
Qed.
Example C26_saturation_example : exists d, mk_dist [1; 3]%Q 4 true = Ok d /\ reports_eq d 1 3 /\
  exists s z, dist_quantize d int8 None None false = Ok (s, z) /\ (readback int8 s z 1000 == 3)%Q /\ (readback int8 s z (-7) == 0)%Q.
Proof.
  assert (exists d, mk_dist [1; 3]%Q 4 true = Ok d) as (d & E) by (eexists; reflexivity).
  exists d. split; [exact E|].
  assert (X : forall e, Ok e = Ok d -> e = d) by congruence. vm_compute in E. apply X in E. subst d.
  split; [eexists _, _; split; [split|split]; vm_compute; reflexivity|].
  eexists _, _. split; [vm_compute; reflexivity|]. split; vm_compute; reflexivity.
Qed.

(** ** C54 *)
(** the bin size is the width of the data divided by the number of bins *)
Lemma bin_size_width d n w b lo hi : wf d w -> nbins d = n -> (b == w)%Q -> (edge d 0 == lo)%Q -> (edge d n == hi)%Q ->
  (b * inject_Z (Z.of_nat n) == hi - lo)%Q.
Proof. intros W NB B E0 En. pose proof (wf_edge _ _ W n ltac:(lia)) as E. rewrite En, E0 in E. rewrite B. lra. Qed.
(** the trimmed calibration saturates at one bin below 0 and at the largest sample *)
Lemma relu_sat : forall a n q x y, narrow q -> (0 < n)%nat -> In x a -> In y a -> (x <= 0)%Q ->
  (0 < y)%Q -> (forall v, In v a -> v <= y)%Q ->
  exists d b d' s z mn lo hi, mk_dist a n true = Ok d /\ get_bin_size d = Ok b /\
  (exists u, In u a /\ (mn == u)%Q) /\ (forall v, In v a -> mn <= v)%Q /\ (b * inject_Z (Z.of_nat n) == y - mn)%Q /\
  ((b <= y)%Q ->
    fused_trim FRelu d = Ok d' /\ dist_quantize d' q None None false = Ok (s, z) /\ (0 < s)%Q /\ in_dtype q z /\
    (- b < lo <= 0)%Q /\ (hi == y)%Q /\
    forall v, (Qabs (readback q s z v - limit lo hi v) <= s * (1#2))%Q).
Proof.
  intros a n q x y N Hn Hx Hy X0 Y0 YM.
  destruct (fresh_range a n true x y Hn Hx Hy ltac:(lra)) as (d & lo & hi & E & W & D & NB & P & G & F & E0 & En & RG & (zl & ZL1 & ZL2) & (zh & ZH1 & ZH2)).
  destruct (bin_size_wf d _ W) as (b & BS & Bw). set (w := (_ / _)%Q) in *.
  assert (HY : (hi == y)%Q). { pose proof (RG y Hy). pose proof (YM zh ZH1). lra. }
  destruct (Qlt_le_dec y b) as [YB|YB].
  { exists d, b, d, 1%Q, 0, lo, 0%Q, 0%Q. split; [exact E|]. split; [exact BS|]. split; [exists zl; split; assumption|]. split; [intros v Hv; apply RG, Hv|].
    split; [rewrite (bin_size_width d n w b lo hi W NB Bw E0 En); lra|]. intros H. exfalso. lra. }
  assert (R : reach d) by (apply (reach_new a n); assumption).
  assert (LE : last (d_edges d) 0%Q == hi). { rewrite (wf_last_edge d w W), NB. exact En. }
  pose proof (RG x Hx) as [L0 _].
  assert (H2 : (hd 0 (d_edges d) <= hi)%Q). { rewrite <- edge0_hd. lra. }
  assert (SC : dist_slice d (Some 0%Q) (Some hi) = clone d 0 hi).
  { destruct (slice_cases d w 0 hi W P ltac:(lra) H2 ltac:(lra)) as [[? ?]|[? ?]]; [exfalso; lra|assumption]. }
  assert (FT : fused_trim FRelu d = clone d 0 hi).
  { unfold fused_trim, dist_slice. cbn [rbind]. rewrite F. cbn [rbind]. rewrite BS. cbn [rbind].
    unfold dist_slice in SC. cbn [rbind] in SC. rewrite BS in SC. cbn [rbind] in SC. exact SC. }
  rewrite <- edge0_hd in H2.
  destruct (clone_wf d w 0 hi W P ltac:(lra) H2) as (m & M & d' & HM & CE & N' & ED & EH & DD & P' & W' & A1 & A2 & A3 & A4).
  { rewrite NB. lra. }
  pose proof (edge_succ d w m W ltac:(lia)) as Sm.
  destruct (get_min_wf d' w W') as (lo' & G' & G2 & G3 & _). destruct (get_max_wf d' w W') as (hi' & F' & F2 & F3 & F4 & F5 & F6).
  (* the slice goes to the last edge, so its maximum is the data's *)
  assert (HM' : M = nbins d).
  { destruct A3 as [A3|A3]; [exact A3|]. exfalso.
    assert (edge d M <= edge d (nbins d))%Q by (apply (edge_mono d w); [exact W|lia]). rewrite NB in H. lra. }
  assert (NW : no_widening d d').
  { eapply (C28_slice_contents d d' b 0 hi R); try lra; [|exact BS|rewrite SC; exact CE]. rewrite <- edge0_hd. lra. }
  destruct (NW lo hi lo' hi' (conj G F) (conj G' F')) as [NW1 NW2].
  assert (ZD : In zh (d_data d)). { rewrite D. eapply Permutation.Permutation_in; [apply sortQ_perm|exact ZH1]. }
  assert (HH : (hi <= hi')%Q).
  { destruct (Z.lt_ge_cases (nth (nbins d' - 1) (d_hist d') 0) 2) as [H|H].
    - rewrite (F4 H). rewrite N', ED by lia. replace (m + (M - m))%nat with n by lia. lra.
    - (* closed count of a fresh distribution *)
      assert (C : nth (nbins d' - 1) (d_hist d') 0 = countb (in_closed (edge d' (nbins d' - 1)) (edge d' (nbins d'))) (d_data d')).
      { rewrite N'. rewrite EH, !ED by lia. replace (m + (M - m - 1))%nat with (n - 1)%nat by lia.
        replace (m + (M - m))%nat with n by lia. rewrite DD, HM', NB.
        assert (EM : (edge d m <= edge d (n - 1))%Q) by (apply (edge_mono d w); [exact W|lia]).
        rewrite countb_filter.
        - destruct (mk_dist_wf a n true Hn) as (d0 & E1 & _ & _ & _ & _ & _ & _ & HC). rewrite E in E1.
          assert (d0 = d) by congruence. subst d0. rewrite HC by lia. rewrite D, <- (countb_perm _ _ _ (sortQ_perm a)).
          unfold bin_count, countb. f_equal. f_equal. apply filter_ext. intros u. unfold bin_has, in_closed.
          replace (S (n - 1)) with n by lia. rewrite Nat.eqb_refl.
          assert (EI : forall i, (i <= n)%nat -> edge d i = edge_at (fst (hist_range a)) (snd (hist_range a)) n i).
          { intros i Hi. unfold mk_dist in E. destruct n as [|k]; [lia|]. destruct (hist_range a) as [a0 b0].
            assert (DE : d_edges d = map (edge_at a0 b0 (S k)) (seq 0 (S (S k)))).
            { assert (d = mkdist (sortQ a) (map (edge_at a0 b0 (S k)) (seq 0 (S (S k)))) (map (bin_count a a0 b0 (S k)) (seq 0 (S k))) true) by congruence.
              subst d. reflexivity. }
            unfold edge. rewrite DE. cbn [fst snd]. apply nth_map_seq. lia. }
          rewrite !EI by lia. reflexivity.
        - intros u Hu. unfold in_closed in *. apply andb_true_iff in Hu as [U1 U2]. apply Qle_bool_iff in U1, U2.
          apply andb_true_iff. split; apply Qle_bool_iff; lra. }
      specialize (F6 C zh). rewrite ZH2. apply F6. rewrite DD. apply filter_In. split; [exact ZD|].
      destruct (wf_in _ _ W zh ZD). unfold in_closed. apply andb_true_iff.
      assert (edge d m <= edge d (M - 1))%Q by (apply (edge_mono d w); [exact W|lia]).
      split; apply Qle_bool_iff; [|rewrite HM'; lra].
      destruct A1 as [-> | A1]; lra. }
  assert (LB : (- b < Qmin lo' 0)%Q /\ (Qmin lo' 0 <= 0)%Q).
  { split; [|apply Q.le_min_r]. rewrite !ED in G2 by lia. rewrite Nat.add_0_r in G2.
    assert (- b < lo')%Q by lra. pose proof (wf_w _ _ W). destruct (Q.min_spec lo' 0) as [[_ ->]|[_ ->]]; lra. }
  assert (HX : (Qmax hi' 0 == hi)%Q). { destruct (Q.max_spec hi' 0) as [[? ->]|[? ->]]; lra. }
  destruct (C26_saturation d' q lo' hi' N (conj G' F')) as (s & z & QE & SP & Hz & SAT); [lra|].
  exists d, b, d', s, z, lo, (Qmin lo' 0), (Qmax hi' 0). split; [exact E|]. split; [exact BS|]. split; [exists zl; split; assumption|]. split; [intros v Hv; apply RG, Hv|].
  split; [rewrite (bin_size_width d n w b lo hi W NB Bw E0 En); lra|]. intros _. split; [rewrite FT; exact CE|].
  split; [exact QE|]. split; [exact SP|]. split; [exact Hz|]. split; [exact LB|]. split; [lra|]. exact SAT.
Qed.

(** Setting: pre-activations [a] with a sample below or at 0 and a maximum at least one bin above 0;
    [b] is the bin size.  Then the fused trim succeeds, and quantizing with the parameters it yields
    computes ReLU up to one bin plus half a step. *)
Theorem C54_fused_relu : forall a n q x y, narrow q -> (0 < n)%nat -> In x a -> In y a -> (x <= 0)%Q ->
  (0 < y)%Q -> (forall v, In v a -> v <= y)%Q ->
  exists d b d' s z, mk_dist a n true = Ok d /\ get_bin_size d = Ok b /\
  ((b <= y)%Q ->
    fused_trim FRelu d = Ok d' /\ dist_quantize d' q None None false = Ok (s, z) /\ (0 < s)%Q /\ in_dtype q z /\
    forall v, In v a -> (Qabs (readback q s z v - relu v) <= b + s * (1#2))%Q /\
                      ((0 <= v)%Q -> (Qabs (readback q s z v - v) <= s * (1#2))%Q)).
Proof.
  intros a n q x y N Hn Hx Hy X0 Y0 YM.
  destruct (relu_sat a n q x y N Hn Hx Hy X0 Y0 YM) as (d & b & d' & s & z & mn & lo & hi & E & BS & _ & _ & _ & H).
  exists d, b, d', s, z. split; [exact E|]. split; [exact BS|]. intros HB.
  destruct (H HB) as (FT & QE & SP & Hz & LB & HX & SAT).
  split; [exact FT|]. split; [exact QE|]. split; [exact SP|]. split; [exact Hz|]. intros v Hv. specialize (SAT v).
  pose proof (YM v Hv) as V2. apply Qabs_Qle_condition in SAT. unfold limit in SAT.
  split.
  - apply Qabs_Qle_condition. unfold relu.
    destruct (Qlt_le_dec v lo); [|destruct (Qlt_le_dec hi v)];
    destruct (Q.max_spec v 0) as [[? ->]|[? ->]]; lra.
  - intros V0. apply Qabs_Qle_condition.
    destruct (Qlt_le_dec v lo); [lra|destruct (Qlt_le_dec hi v)]; lra.
Qed.

(** The bin term is real: the trimmed range starts at an edge below 0, so negative pre-activations
    read back as negative numbers (two steps below zero here), which no ReLU outputs. *)
Theorem C54_negative_leak_refuted : exists d b d' s z, mk_dist [-10; 1]%Q 512 true = Ok d /\ get_bin_size d = Ok b /\ (b <= 1)%Q /\
  fused_trim FRelu d = Ok d' /\ dist_quantize d' int8 None None false = Ok (s, z) /\
  (readback int8 s z (-10) == - (2 * s))%Q.
Proof.
  assert (exists d, mk_dist [-10; 1]%Q 512 true = Ok d) as (d & E) by (eexists; reflexivity).
  exists d. eexists _, _, _, _. split; [exact E|].
  assert (X : forall e, Ok e = Ok d -> e = d) by congruence. vm_compute in E. apply X in E. subst d.
  split; [vm_compute; reflexivity|]. split; [discriminate|].
  split; [vm_compute; reflexivity|]. split; [vm_compute; reflexivity|]. vm_compute. reflexivity.
Qed.

(** Non-negative pre-activations: the zero point is the lowest code, so nothing below zero exists. *)
Theorem C54_nonnegative_exact : forall a n q x y, narrow q -> (0 < n)%nat -> In x a -> In y a -> (x < y)%Q ->
  (forall v, In v a -> 0 <= v)%Q ->
  exists d s, mk_dist a n true = Ok d /\ dist_quantize d q None None false = Ok (s, gmin q) /\ (0 < s)%Q /\
   forall v, (0 <= readback q s (gmin q) v)%Q /\ ((v <= 0)%Q -> (readback q s (gmin q) v == 0)%Q).
Proof.
  intros a n q x y N Hn Hx Hy L NN. pose proof N as (N1 & N2 & N3).
  destruct (C28_unsliced_range a n true x y Hn Hx Hy L) as (d & lo & hi & E & R & [(zl & ZL & ZE) LO'] & [HI HI']).
  pose proof (NN zl ZL) as L0. pose proof (HI' y Hy). pose proof (NN x Hx).
  assert (M0 : (Qmin lo 0 == 0)%Q) by (destruct (Q.min_spec lo 0) as [[? ->]|[? ->]]; lra).
  assert (X0 : (Qmax hi 0 == hi)%Q) by (destruct (Q.max_spec hi 0) as [[? ->]|[? ->]]; lra).
  destruct (asym_params d q false lo hi R ltac:(lra) N2) as (s & z & QE & SP & _ & Z1 & A & B).
  assert (Z0 : z = gmin q).
  { cbn beta iota in *. apply Qabs_Qle_condition in A. rewrite M0 in A.
    assert (0 / s == 0)%Q by (field; lra).
    assert (inject_Z z < inject_Z (gmin q + 1))%Q.
    { rewrite inject_Z_plus. change (inject_Z 1) with 1%Q. lra. }
    rewrite <- Zlt_Qlt in H2. lia. }
  subst z. exists d, s. split; [exact E|]. split; [exact QE|]. split; [exact SP|].
  assert (Hz : in_dtype q (gmin q)) by (unfold in_dtype; lia).
  intros v. pose proof (readback_bounds q s (gmin q) v N Hz SP) as [B1 _]. rewrite Z.sub_diag in B1.
  change (inject_Z 0) with 0%Q in B1. split; [lra|].
  intros V. pose proof (readback_mono q s (gmin q) v 0 N Hz SP V) as M. unfold readback at 2 in M.
  rewrite quant1_zero in M by assumption.
  rewrite (dequant1_nowrap q) in M by (try assumption; unfold zp_nowrap, in_dt; lia).
  rewrite Z.sub_diag in M. change (inject_Z 0) with 0%Q in M. lra.
Qed.

(** All pre-activations negative by a bin or more: calibration fails with IndexError. *)
Theorem C54_all_negative_raises : forall a n q x y, (0 < n)%nat -> In x a -> In y a -> (x < y)%Q ->
  (y < 0)%Q -> (forall v, In v a -> v <= y)%Q ->
  exists d b, mk_dist a n true = Ok d /\ get_bin_size d = Ok b /\
  ((b <= - y)%Q -> exists d', fused_trim FRelu d = Ok d' /\ dist_quantize d' q None None false = Err EIndexError).
Proof.
  intros a n q x y Hn Hx Hy L Y0 YM.
  destruct (fresh_range a n true x y Hn Hx Hy L) as (d & lo & hi & E & W & D & NB & P & G & F & E0 & En & RG & _ & (zh & ZH1 & ZH2)).
  destruct (bin_size_wf d _ W) as (b & BS & Bw). set (w := (_ / _)%Q) in *.
  assert (HY : (hi == y)%Q). { pose proof (RG y Hy). pose proof (YM zh ZH1). lra. }
  exists d, b. split; [exact E|]. split; [exact BS|]. intros HB.
  assert (LEN := wf_len _ _ W).
  assert (LL : forall v acc, (edge d n <= v)%Q -> last_le v (d_edges d) 0 acc = Z.of_nat n).
  { intros v acc Hv. destruct (last_le_spec v (d_edges d) 0 acc) as [[A _]|(k & K1 & -> & K2 & K3)].
    - exfalso. assert (v < edge d n)%Q by (apply A, nth_In; lia). lra.
    - destruct (Nat.eq_dec k n) as [-> | NE]; [lia|]. exfalso. specialize (K3 n ltac:(lia)). fold (edge d n) in K3. lra. }
  unfold fused_trim, dist_slice. cbn [rbind]. rewrite F. cbn [rbind]. rewrite BS. cbn [rbind].
  assert (Qltb (Qabs (0 - hi)) b = false) as ->.
  { apply Qltb_ge. rewrite Qabs_pos by lra. lra. }
  unfold clone. rewrite P. fold (nbins d). rewrite NB, !LL by lra. cbn zeta.
  replace (Z.min (Z.of_nat n + 1) (Z.of_nat n)) with (Z.of_nat n) by lia.
  rewrite LEN, NB. replace (Z.min (Z.of_nat n + 1) (Z.of_nat (S n))) with (Z.of_nat (S n)) by lia.
  rewrite py_slice_nat by lia. rewrite py_slice_nat by (fold (nbins d); lia).
  rewrite !(py_index_nth _ n 0%Q) by lia. cbn [rbind]. eexists. split; [reflexivity|].
  unfold dist_quantize, get_min, get_bin. cbn [Z.ltb Z.compare d_edges d_hist].
  replace (S n - n)%nat with 1%nat by lia. rewrite Nat.sub_diag.
  destruct (skipn n (d_edges d)) as [|e r] eqn:SK.
  - exfalso. apply (f_equal (@length Q)) in SK. rewrite skipn_length in SK. cbn [length] in SK. lia.
  - cbn [firstn]. reflexivity.
Qed.
Example C54_all_negative_example : exists d b, mk_dist [-10; -5; -7]%Q 512 true = Ok d /\ get_bin_size d = Ok b /\ (b <= 5)%Q.
Proof. eexists _, _. split; [reflexivity|]. split; [vm_compute; reflexivity|]. discriminate. Qed.

Lemma relu6_sat : forall a n q x y, narrow q -> (0 < n)%nat -> In x a -> In y a -> (x <= 0)%Q -> (0 < y)%Q -> (forall v, In v a -> v <= y)%Q ->
  exists d b d' s z mn lo hi, mk_dist a n true = Ok d /\ get_bin_size d = Ok b /\
  (exists u, In u a /\ (mn == u)%Q) /\ (forall v, In v a -> mn <= v)%Q /\ (b * inject_Z (Z.of_nat n) == y - mn)%Q /\
  ((b <= 6)%Q ->
    fused_trim FRelu6 d = Ok d' /\ dist_quantize d' q None None false = Ok (s, z) /\ (0 < s)%Q /\ in_dtype q z /\
    (- b < lo <= 0)%Q /\ (Qmin y 6 - b <= hi <= 6 + b)%Q /\ (0 < hi <= y)%Q /\
    forall v, (Qabs (readback q s z v - limit lo hi v) <= s * (1#2))%Q).
Proof.
  intros a n q x y N Hn Hx Hy X0 Y0 YM.
  destruct (fresh_range a n true x y Hn Hx Hy ltac:(lra)) as (d & lo & hi & E & W & D & NB & P & G & F & E0 & En & RG & (zl & ZL1 & ZL2) & (zh & ZH1 & ZH2)).
  destruct (bin_size_wf d _ W) as (b & BS & Bw). set (w := (_ / _)%Q) in *.
  assert (HY : (hi == y)%Q). { pose proof (RG y Hy). pose proof (YM zh ZH1). lra. }
  destruct (Qlt_le_dec 6 b) as [YB|YB].
  { exists d, b, d, 1%Q, 0, lo, 0%Q, 0%Q. split; [exact E|]. split; [exact BS|]. split; [exists zl; split; assumption|]. split; [intros v Hv; apply RG, Hv|].
    split; [rewrite (bin_size_width d n w b lo hi W NB Bw E0 En); lra|]. intros H. exfalso. lra. }
  assert (LE : last (d_edges d) 0%Q == hi). { rewrite (wf_last_edge d w W), NB. exact En. }
  pose proof (RG x Hx) as [L0 _]. pose proof (RG y Hy) as [_ LY].
  assert (H2 : (hd 0 (d_edges d) <= 6)%Q). { rewrite <- edge0_hd. lra. }
  assert (SC : fused_trim FRelu6 d = clone d 0 6).
  { unfold fused_trim. destruct (slice_cases d w 0 6 W P ltac:(lra) H2 ltac:(lra)) as [[? ?]|[? ?]]; [exfalso; lra|assumption]. }
  rewrite <- edge0_hd in H2.
  destruct (clone_wf d w 0 6 W P ltac:(lra) H2) as (m & M & d' & HM & CE & N' & ED & EH & DD & P' & W' & A1 & A2 & A3 & A4).
  { rewrite NB. lra. }
  pose proof (edge_succ d w m W ltac:(lia)) as Sm.
  pose proof (edge_succ d w (M - 1) W ltac:(lia)) as SM. replace (S (M - 1)) with M in SM by lia.
  destruct (get_min_wf d' w W') as (lo' & G' & G2 & _). destruct (get_max_wf d' w W') as (hi' & F' & F2 & _).
  rewrite !ED in G2 by lia. rewrite N', !ED in F2 by lia. rewrite Nat.add_0_r in G2.
  replace (m + (M - m - 1))%nat with (M - 1)%nat in F2 by lia. replace (m + (M - m))%nat with M in F2 by lia.
  pose proof (wf_w _ _ W) as WP.
  assert (EMP : (0 < edge d M)%Q).
  { assert (edge d (S m) <= edge d M)%Q by (apply (edge_mono d w); [exact W|lia]). lra. }
  assert (LB : (- b < Qmin lo' 0)%Q /\ (Qmin lo' 0 <= 0)%Q).
  { split; [|apply Q.le_min_r]. destruct (Q.min_spec lo' 0) as [[_ ->]|[_ ->]]; lra. }
  assert (HB : (edge d M - b <= Qmax hi' 0)%Q /\ (Qmax hi' 0 <= edge d M)%Q /\ (0 <= Qmax hi' 0)%Q).
  { destruct (Q.max_spec hi' 0) as [[? ->]|[? ->]]; lra. }
  assert (HP : (0 < hi')%Q).
  { destruct (Nat.eq_dec M (nbins d)) as [EQ|NQ].
    - rewrite (clone_same_max d d' w m M W W' HM EQ N' ED EH DD) in F'. assert (hi' = hi) by congruence. subst. lra.
    - assert (S m < M)%nat.
      { destruct (Nat.eq_dec (S m) M) as [EM|]; [|lia]. exfalso. destruct A3 as [A3|A3]; [lia|]. subst M.
        destruct A1 as [-> | A1]; lra. }
      assert (edge d (S m) <= edge d (M - 1))%Q by (apply (edge_mono d w); [exact W|lia]). lra. }
  destruct (C26_saturation d' q lo' hi' N (conj G' F')) as (s & z & QE & SP & Hz & SAT).
  { destruct (Q.max_spec hi' 0) as [[? ->]|[? ->]]; lra. }
  assert (EL : (edge d M <= edge d (nbins d))%Q) by (apply (edge_mono d w); [exact W|lia]).
  exists d, b, d', s, z, lo, (Qmin lo' 0), (Qmax hi' 0). split; [exact E|]. split; [exact BS|]. split; [exists zl; split; assumption|]. split; [intros v Hv; apply RG, Hv|].
  split; [rewrite (bin_size_width d n w b lo hi W NB Bw E0 En); lra|]. intros _. split; [rewrite SC; exact CE|].
  split; [exact QE|]. split; [exact SP|]. split; [exact Hz|]. split; [exact LB|].
  rewrite NB in EL.
  split.
  { split; [|lra]. assert (Qmin y 6 <= edge d M)%Q; [|lra].
    destruct A3 as [-> | A3]; [rewrite NB; pose proof (Q.le_min_l y 6); lra|pose proof (Q.le_min_r y 6); lra]. }
  split; [|exact SAT]. destruct (Q.max_spec hi' 0) as [[? ->]|[? ->]]; lra.
Qed.
Theorem C54_fused_relu6 : forall a n q x y, narrow q -> (0 < n)%nat -> In x a -> In y a -> (x <= 0)%Q -> (0 < y)%Q ->
  exists d b d' s z, mk_dist a n true = Ok d /\ get_bin_size d = Ok b /\
  ((b <= 6)%Q ->
    fused_trim FRelu6 d = Ok d' /\ dist_quantize d' q None None false = Ok (s, z) /\ (0 < s)%Q /\ in_dtype q z /\
    forall v, In v a -> (Qabs (readback q s z v - relu6 v) <= b + s * (1#2))%Q).
Proof.
  intros a n q x y N Hn Hx Hy X0 Y0.
  destruct (fresh_range a n true x y Hn Hx Hy ltac:(lra)) as (d0 & lo0 & hi0 & E0 & _ & _ & _ & _ & _ & _ & _ & _ & RG & _ & (zh & ZH1 & ZH2)).
  pose proof (RG y Hy) as [_ LY].
  destruct (relu6_sat a n q x zh N Hn Hx ZH1 X0 ltac:(lra)) as (d & b & d' & s & z & mn & lo & hi & E & BS & _ & _ & _ & H).
  { intros v Hv. pose proof (RG v Hv). lra. }
  exists d, b, d', s, z. split; [exact E|]. split; [exact BS|]. intros HB.
  destruct (H HB) as (FT & QE & SP & Hz & LB & HX & HX2 & SAT).
  split; [exact FT|]. split; [exact QE|]. split; [exact SP|]. split; [exact Hz|]. intros v Hv. specialize (SAT v).
  pose proof (RG v Hv) as [V1 V2]. apply Qabs_Qle_condition in SAT. unfold limit in SAT.
  destruct (Q.min_spec zh 6) as [[ZM1 ZM2]|[ZM1 ZM2]]; rewrite ZM2 in HX;
  apply Qabs_Qle_condition; unfold relu6;
  (destruct (Qlt_le_dec v lo); [|destruct (Qlt_le_dec hi v)]);
  destruct (Q.max_spec v 0) as [[? EX]|[? EX]]; rewrite EX;
  match goal with |- context [Qmin ?u 6] => destruct (Q.min_spec u 6) as [[? ->]|[? ->]] end; lra.
Qed.
(** and the upper side leaks the same way: outputs above 6 *)
Theorem C54_above_six_refuted : exists d d' s z, mk_dist [-100; 100]%Q 512 true = Ok d /\
  fused_trim FRelu6 d = Ok d' /\ dist_quantize d' int8 None None false = Ok (s, z) /\
  (6 + 5 * s < readback int8 s z 100)%Q.
Proof.
  assert (exists d, mk_dist [-100; 100]%Q 512 true = Ok d) as (d & E) by (eexists; reflexivity).
  exists d. eexists _, _, _. split; [exact E|].
  assert (X : forall e, Ok e = Ok d -> e = d) by congruence. vm_compute in E. apply X in E. subst d.
  split; [vm_compute; reflexivity|]. split; [vm_compute; reflexivity|]. vm_compute. reflexivity.
Qed.
