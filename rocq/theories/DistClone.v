(** Slicing keeps distributions well formed. *)
From Verif Require Import Base BaseProofs DtypeModel DistModel DistProofs.
From Coq Require Import Sorting.Sorted Qminmax Lqa.
Open Scope Z_scope.
Open Scope list_scope.

Lemma last_le_spec v l : forall i acc,
  ((forall e, In e l -> (v < e)%Q) /\ last_le v l i acc = acc) \/
  (exists k, (k < length l)%nat /\ last_le v l i acc = i + Z.of_nat k /\ (nth k l 0 <= v)%Q /\
     forall j, (k < j < length l)%nat -> (v < nth j l 0)%Q).
Proof.
  induction l as [|e l IH]; intros i acc; cbn [last_le].
  - left. split; [intros e []|reflexivity].
  - destruct (Qle_bool e v) eqn:E.
    + apply Qle_bool_iff in E. right. destruct (IH (i + 1) i) as [[A ->]|(k & K1 & -> & K2 & K3)].
      * exists 0%nat. cbn [length nth]. split; [lia|]. split; [lia|]. split; [exact E|].
        intros j Hj. destruct j as [|j]; [lia|]. apply A. apply nth_In. lia.
      * exists (S k). cbn [length nth]. split; [lia|]. split; [lia|]. split; [exact K2|].
        intros j Hj. destruct j as [|j]; [lia|]. apply K3. lia.
    + apply Qle_bool_false in E. destruct (IH (i + 1) acc) as [[A ->]|(k & K1 & -> & K2 & K3)].
      * left. split; [|reflexivity]. intros x [<- | Hx]; [exact E|now apply A].
      * right. exists (S k). cbn [length nth]. split; [lia|]. split; [lia|]. split; [exact K2|].
        intros j Hj. destruct j as [|j]; [lia|]. apply K3. lia.
Qed.

Lemma nth_skipn' {A} (l : list A) m i (x : A) : nth i (skipn m l) x = nth (m + i) l x.
Proof.
  revert l; induction m as [|m IH]; intros l; [reflexivity|].
  destruct l as [|a l]; [destruct i; reflexivity|]. cbn [skipn Nat.add nth]. apply IH.
Qed.
Lemma nth_firstn' {A} (l : list A) m i (x : A) : (i < m)%nat -> nth i (firstn m l) x = nth i l x.
Proof.
  revert l i; induction m as [|m IH]; intros l i H; [lia|].
  destruct l as [|a l]; [destruct i; reflexivity|]. destruct i as [|i]; [reflexivity|].
  cbn [firstn nth]. apply IH. lia.
Qed.
Lemma py_slice_nat {A} (l : list A) (a b : nat) : (a <= b <= length l)%nat ->
  py_slice l (Some (Z.of_nat a)) (Some (Z.of_nat b)) = firstn (b - a) (skipn a l).
Proof.
  intros H. unfold py_slice, py_norm.
  assert ((Z.of_nat a <? 0) = false) as -> by (apply Z.ltb_ge; lia).
  assert ((Z.of_nat b <? 0) = false) as -> by (apply Z.ltb_ge; lia).
  rewrite !Z.min_l by lia. f_equal; [lia|]. f_equal. lia.
Qed.

Lemma countb_filter p q l : (forall x, p x = true -> q x = true) -> countb p (filter q l) = countb p l.
Proof.
  intros H. unfold countb. rewrite filter_filter. f_equal. f_equal. apply filter_ext. intros x.
  destruct (p x) eqn:E; [rewrite (H x E); reflexivity|apply andb_false_r].
Qed.

Lemma wf_last_edge d w : wf d w -> last (d_edges d) 0%Q = edge d (nbins d).
Proof.
  intros W. unfold edge. pose proof (wf_len _ _ W) as L.
  destruct (d_edges d) as [|e r] eqn:E using rev_ind; [simpl in L; lia|].
  rewrite last_last. rewrite app_length in L. simpl in L.
  rewrite app_nth2 by lia. replace (nbins d - length r)%nat with 0%nat by lia. reflexivity.
Qed.

Lemma clone_wf d w start stop : wf d w -> d_partial d = true ->
  (start <= stop)%Q -> (edge d 0 <= stop)%Q -> (start < edge d (nbins d))%Q ->
  exists m M d', (m < M <= nbins d)%nat /\ clone d start stop = Ok d' /\
    nbins d' = (M - m)%nat /\ (forall i, (i <= M - m)%nat -> edge d' i = edge d (m + i)) /\
    (forall i, (i < M - m)%nat -> nth i (d_hist d') 0 = nth (m + i) (d_hist d) 0) /\
    d_data d' = filter (in_closed (edge d m) (edge d M)) (d_data d) /\ d_partial d' = true /\
    wf d' w /\
    (m = 0%nat \/ (edge d m <= start)%Q) /\ (start < edge d (S m))%Q /\
    (M = nbins d \/ (stop < edge d M)%Q) /\ (edge d (M - 1) <= stop)%Q.
Proof.
  intros W HP H1 H2 H3. pose proof (wf_len _ _ W) as L. pose proof (wf_ne _ _ W) as NE.
  unfold clone. rewrite HP. cbn zeta. fold (nbins d).
  assert (Hm : exists m, (m < nbins d)%nat /\ last_le start (d_edges d) 0 0 = Z.of_nat m /\
            (m = 0%nat \/ (edge d m <= start)%Q) /\ (start < edge d (S m))%Q).
  { destruct (last_le_spec start (d_edges d) 0 0) as [[A ->]|(k & K1 & -> & K2 & K3)].
    - exists 0%nat. split; [lia|]. split; [reflexivity|]. split; [now left|].
      apply A. apply nth_In. lia.
    - assert (k < nbins d)%nat.
      { destruct (Nat.eq_dec k (nbins d)) as [-> | N]; [|lia]. exfalso. unfold edge in H3. lra. }
      exists k. split; [assumption|]. split; [lia|]. split; [right; exact K2|]. apply K3. lia. }
  destruct Hm as (m & Hm & -> & Em & Em').
  assert (HM : exists M, (M <= nbins d)%nat /\ last_le stop (d_edges d) 0 (Z.of_nat (nbins d)) = Z.of_nat M /\
            (edge d M <= stop)%Q /\ forall j, (M < j <= nbins d)%nat -> (stop < edge d j)%Q).
  { destruct (last_le_spec stop (d_edges d) 0 (Z.of_nat (nbins d))) as [[A ->]|(k & K1 & -> & K2 & K3)].
    - exfalso. assert (stop < edge d 0)%Q by (apply A, nth_In; lia). lra.
    - exists k. split; [lia|]. split; [lia|]. split; [exact K2|]. intros j Hj. apply K3. lia. }
  destruct HM as (M0 & HM & -> & EM & EM').
  assert (MM : (m <= M0)%nat).
  { destruct Em as [-> | Em]; [lia|]. destruct (Nat.le_gt_cases m M0) as [|G]; [assumption|].
    specialize (EM' m ltac:(lia)). lra. }
  set (M := Nat.min (S M0) (nbins d)).
  replace (Z.min (Z.of_nat M0 + 1) (Z.of_nat (nbins d))) with (Z.of_nat M) by (unfold M; lia).
  assert (HMM : (m < M <= nbins d)%nat) by (unfold M; lia).
  replace (Z.min (Z.of_nat M + 1) (Z.of_nat (length (d_edges d)))) with (Z.of_nat (S M)) by (rewrite L; lia).
  rewrite !py_slice_nat by (unfold nbins in *; lia).
  rewrite (py_index_nth _ m 0%Q), (py_index_nth _ M 0%Q) by lia. cbn [rbind].
  fold (edge d m) (edge d M). rewrite (slice_closed _ _ _ (wf_sorted _ _ W)).
  eexists m, M, _. split; [exact HMM|]. split; [reflexivity|].
  match goal with |- nbins ?x = _ /\ _ => set (d' := x) end.
  assert (N' : nbins d' = (M - m)%nat).
  { unfold nbins. cbn [d_hist d']. rewrite firstn_length, skipn_length. unfold nbins in *; lia. }
  assert (E' : forall i, (i <= M - m)%nat -> edge d' i = edge d (m + i)).
  { intros i Hi. unfold edge. cbn [d_edges d']. rewrite nth_firstn' by lia. apply nth_skipn'. }
  assert (H' : forall i, (i < M - m)%nat -> nth i (d_hist d') 0 = nth (m + i) (d_hist d) 0).
  { intros i Hi. cbn [d_hist d']. rewrite nth_firstn' by lia. apply nth_skipn'. }
  split; [exact N'|]. split; [exact E'|]. split; [exact H'|]. split; [reflexivity|]. split; [reflexivity|].
  split; [|split; [exact Em|split; [exact Em'|split]]].
  - split.
    + cbn [d_data d']. apply sorted_filter, W.
    + apply W.
    + rewrite N'. cbn [d_edges d']. rewrite firstn_length, skipn_length. lia.
    + rewrite N'. lia.
    + intros i Hi. rewrite N' in Hi. rewrite !E' by lia. rewrite Nat.add_0_r.
      pose proof (wf_edge _ _ W (m + i) ltac:(lia)) as A. pose proof (wf_edge _ _ W m ltac:(lia)) as B.
      rewrite Nat2Z.inj_add, inject_Z_plus in A. lra.
    + intros x Hx. rewrite N', !E' by lia. rewrite Nat.add_0_r. replace (m + (M - m))%nat with M by lia.
      cbn [d_data d'] in Hx. apply filter_In in Hx as [_ Hx]. unfold in_closed in Hx.
      apply andb_true_iff in Hx as [X1 X2]. apply Qle_bool_iff in X1, X2. split; assumption.
    + intros i Hi. rewrite N' in Hi. rewrite !E', H' by lia. cbn [d_data d'].
      replace (m + S i)%nat with (S (m + i)) by lia.
      assert (EA : (edge d m <= edge d (m + i))%Q) by (apply (edge_mono d w); [exact W|lia]).
      assert (EB : (edge d (S (m + i)) <= edge d M)%Q) by (apply (edge_mono d w); [exact W|lia]).
      destruct (wf_cnt _ _ W (m + i) ltac:(lia)) as [-> | [EN ->]].
      * left. symmetry. apply countb_filter. intros x Hx. unfold half_open in Hx. unfold in_closed.
        apply andb_true_iff in Hx as [X1 X2]. apply Qle_bool_iff in X1. apply Qltb_lt in X2.
        apply andb_true_iff. split; apply Qle_bool_iff; lra.
      * right. split; [rewrite N'; lia|]. symmetry. apply countb_filter. intros x Hx. unfold in_closed in *.
        apply andb_true_iff in Hx as [X1 X2]. apply Qle_bool_iff in X1, X2.
        apply andb_true_iff. split; apply Qle_bool_iff; lra.
  - destruct (Nat.eq_dec M (nbins d)) as [-> | N]; [now left|right].
    apply EM'. unfold M in *; lia.
  - assert (M - 1 <= M0)%nat by (unfold M; lia).
    assert (edge d (M - 1) <= edge d M0)%Q by (apply (edge_mono d w); [exact W|lia]). lra.
Qed.

Lemma bin_size_wf d w : wf d w -> exists b, get_bin_size d = Ok b /\ (b == w)%Q.
Proof.
  intros W. pose proof (wf_len _ _ W) as L. pose proof (wf_ne _ _ W) as NE. unfold get_bin_size.
  pose proof (py_index_nth (d_edges d) 1 0%Q ltac:(lia)) as P1. change (Z.of_nat 1) with 1 in P1.
  pose proof (py_index_nth (d_edges d) 0 0%Q ltac:(lia)) as P0. change (Z.of_nat 0) with 0 in P0.
  rewrite P1, P0. cbn [rbind].
  eexists. split; [reflexivity|]. fold (edge d 1) (edge d 0).
  pose proof (edge_succ d w 0 W NE) as E. pose proof (wf_w _ _ W).
  assert (X : (edge d 1 - edge d 0 == w)%Q) by lra. rewrite X. apply Qabs_pos. lra.
Qed.

(** ** fresh distributions *)
Lemma fresh_range a n p x y : (0 < n)%nat -> In x a -> In y a -> (x < y)%Q ->
  exists d lo hi, mk_dist a n p = Ok d /\ wf d ((snd (hist_range a) - fst (hist_range a)) / inject_Z (Z.of_nat n)) /\
    d_data d = sortQ a /\ nbins d = n /\ d_partial d = p /\
    get_min d = Ok lo /\ get_max d = Ok hi /\ (edge d 0 == lo)%Q /\ (edge d n == hi)%Q /\
    (forall z, In z a -> (lo <= z <= hi)%Q) /\ (exists z, In z a /\ (lo == z)%Q) /\ (exists z, In z a /\ (hi == z)%Q).
Proof.
  intros Hn Hx Hy L. destruct (mk_dist_wf a n p Hn) as (d & E & W & D & N & P & E0 & En & HC).
  assert (SP := sortQ_perm a).
  assert (IN : forall z, In z (d_data d) <-> In z a).
  { intros z. rewrite D. split; apply Permutation.Permutation_in; [symmetry|]; exact SP. }
  destruct a as [|q r]; [destruct Hx|].
  assert (R : hist_range (q :: r) = (minQ q r, maxQ q r)).
  { cbn [hist_range]. destruct (Qeq_bool (minQ q r) (maxQ q r)) eqn:EE; [|reflexivity].
    apply Qeq_bool_iff in EE. pose proof (proj1 (minQ_spec q r) x Hx). pose proof (proj1 (maxQ_spec q r) y Hy). lra. }
  assert (E0' := E0). assert (En' := En). rewrite R in E0', En'. cbn [fst snd] in E0', En'.
  destruct (minQ_spec q r) as (Mn1 & zn & Mn2 & Mn3). destruct (maxQ_spec q r) as (Mx1 & zx & Mx2 & Mx3).
  destruct (get_min_wf d _ W) as (lo & G1 & G2 & G3 & G4 & G5).
  destruct (get_max_wf d _ W) as (hi & F1 & F2 & F3 & F4 & F5 & F6).
  rewrite N in *.
  assert (C : nth (n - 1) (d_hist d) 0 = countb (in_closed (edge d (n - 1)) (edge d n)) (d_data d)).
  { destruct (wf_cnt _ _ W (n - 1)) as [C|[_ C]]; [lia| |].
    - rewrite HC by lia. unfold bin_count. fold (countb (bin_has (fst (hist_range (q :: r))) (snd (hist_range (q :: r))) n (n - 1)) (q :: r)).
      rewrite (countb_perm _ _ _ SP). rewrite D. unfold countb. f_equal. f_equal. apply filter_ext. intros z.
      unfold bin_has, in_closed. replace (S (n - 1)) with n by lia. rewrite Nat.eqb_refl.
      assert (EI : forall i, (i <= n)%nat -> edge d i = edge_at (fst (hist_range (q :: r))) (snd (hist_range (q :: r))) n i).
      { intros i Hi. unfold mk_dist in E. destruct n as [|k]; [lia|]. destruct (hist_range (q :: r)) as [a0 b0].
        assert (DE : d_edges d = map (edge_at a0 b0 (S k)) (seq 0 (S (S k)))).
        { assert (d = mkdist (sortQ (q :: r)) (map (edge_at a0 b0 (S k)) (seq 0 (S (S k)))) (map (bin_count (q :: r) a0 b0 (S k)) (seq 0 (S k))) p) by congruence.
          subst d. reflexivity. }
        unfold edge. rewrite DE. cbn [fst snd]. apply nth_map_seq. lia. }
      rewrite !EI by lia. reflexivity.
    - replace (S (n - 1)) with n in C by lia. exact C. }
  specialize (F6 C).
  assert (LO : (lo == minQ q r)%Q).
  { destruct (Z.lt_ge_cases (nth 0 (d_hist d) 0) 2) as [H|H].
    - rewrite (G4 H). exact E0'.
    - specialize (G5 H). apply IN in G5. pose proof (Mn1 lo G5). apply IN in Mn2. specialize (G3 zn Mn2). lra. }
  assert (HI : (hi == maxQ q r)%Q).
  { destruct (Z.lt_ge_cases (nth (n - 1) (d_hist d) 0) 2) as [H|H].
    - rewrite (F4 H). exact En'.
    - specialize (F5 H). apply IN in F5. pose proof (Mx1 hi F5). apply IN in Mx2. specialize (F6 zx Mx2). lra. }
  exists d, lo, hi. split; [exact E|]. split; [exact W|]. split; [exact D|]. split; [exact N|]. split; [exact P|].
  split; [exact G1|]. split; [exact F1|]. split; [lra|]. split; [lra|]. split.
  - intros z Hz. specialize (Mn1 z Hz). specialize (Mx1 z Hz). lra.
  - split; [exists zn|exists zx]; (split; [assumption|lra]).
Qed.

(** every sample is counted exactly once *)
Lemma countb_split l a b : (a <= b)%Q ->
  countb (half_open a b) l = countb (fun x => Qltb x b) l - countb (fun x => Qltb x a) l.
Proof.
  intros H. unfold countb. induction l as [|x l IH]; [reflexivity|]. cbn [filter]. unfold half_open in *.
  destruct (Qltb x a) eqn:EA.
  - apply Qltb_lt in EA. assert (Qltb x b = true) as -> by (apply Qltb_lt; lra).
    assert (Qle_bool a x = false) as -> by (apply Qle_bool_false; lra). cbn [andb length]. lia.
  - apply Qltb_ge in EA. assert (Qle_bool a x = true) as -> by (apply Qle_bool_iff; lra). cbn [andb].
    destruct (Qltb x b); cbn [length]; lia.
Qed.
Lemma sum_telescope (f : nat -> Z) n : sumZ (map (fun i => f (S i) - f i) (seq 0 n)) = f n - f 0%nat.
Proof.
  induction n as [|n IH]; [simpl; lia|]. rewrite seq_S, map_app, sumZ_app, IH. simpl. lia.
Qed.
Lemma fresh_mass a n p d : mk_dist a n p = Ok d -> sumZ (d_hist d) = Z.of_nat (length a).
Proof.
  intros E. destruct n as [|k]; [discriminate|].
  pose proof (hist_range_in a) as RI. pose proof (hist_range_lt a) as RL.
  unfold mk_dist in E. destruct (hist_range a) as [lo hi]. cbn [fst snd] in *.
  assert (DH : d_hist d = map (bin_count a lo hi (S k)) (seq 0 (S k))).
  { assert (d = mkdist (sortQ a) (map (edge_at lo hi (S k)) (seq 0 (S (S k)))) (map (bin_count a lo hi (S k)) (seq 0 (S k))) p) by congruence.
    now subst d. }
  rewrite DH. rewrite seq_S, map_app, sumZ_app. cbn [map Nat.add].
  set (f := fun i => countb (fun x => Qltb x (edge_at lo hi (S k) i)) a).
  assert (NZ : (0 < inject_Z (Z.of_nat (S k)))%Q) by (change 0%Q with (inject_Z 0); apply (proj1 (Zlt_inj _ _)); lia).
  assert (EM : forall i, (edge_at lo hi (S k) i <= edge_at lo hi (S k) (S i))%Q).
  { intros i. unfold edge_at. apply Qplus_le_r. apply Qmult_le_compat_r.
    - apply (proj1 (Zle_inj _ _)). lia.
    - apply Qle_shift_div_l; [exact NZ|]. rewrite Qmult_0_l. apply -> Qle_minus_iff. lra. }
  assert (A : sumZ (map (bin_count a lo hi (S k)) (seq 0 k)) = f k - f 0%nat).
  { rewrite <- sum_telescope. f_equal. apply map_ext_in. intros i Hi. apply in_seq in Hi.
    unfold f. rewrite <- countb_split by apply EM. unfold bin_count, countb. f_equal. f_equal. apply filter_ext. intros x.
    unfold bin_has, half_open. assert ((S i =? S k)%nat = false) as -> by (apply Nat.eqb_neq; lia). reflexivity. }
  rewrite A. assert (F0 : f 0%nat = 0).
  { unfold f, countb. rewrite filter_none; [reflexivity|]. intros x Hx. apply Qltb_ge.
    rewrite edge_at_0. apply RI, Hx. }
  rewrite F0. unfold sumZ. cbn [fold_right]. unfold bin_count, f, countb.
  assert (LEN : forall l, (forall x, In x l -> In x a) ->
    Z.of_nat (length (filter (fun x => Qltb x (edge_at lo hi (S k) k)) l)) +
    Z.of_nat (length (filter (bin_has lo hi (S k) k) l)) = Z.of_nat (length l)).
  { induction l as [|x l IH]; intros HI; [reflexivity|]. cbn [filter length].
    specialize (IH (fun z Hz => HI z (or_intror Hz))). unfold bin_has in *. rewrite Nat.eqb_refl in *.
    assert (Qle_bool x (edge_at lo hi (S k) (S k)) = true) as ->.
    { apply Qle_bool_iff. rewrite edge_at_n by lia. apply (RI x). apply HI. now left. }
    rewrite andb_true_r.
    destruct (Qltb x (edge_at lo hi (S k) k)) eqn:X.
    - apply Qltb_lt in X. assert (Qle_bool (edge_at lo hi (S k) k) x = false) as -> by (apply Qle_bool_false; lra).
      cbn [length]. lia.
    - apply Qltb_ge in X. assert (Qle_bool (edge_at lo hi (S k) k) x = true) as -> by (apply Qle_bool_iff; lra).
      cbn [length]. lia. }
  specialize (LEN a (fun _ H => H)). lia.
Qed.
