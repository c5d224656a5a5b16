(** Proofs about DistModel. *)
From Verif Require Import Base BaseProofs DtypeModel QuantModel QuantProofs DistModel.
From Coq Require Import Sorting.Sorted Permutation Qminmax Lqa.
Open Scope Z_scope.
Open Scope list_scope.

Lemma Qltb_lt x y : Qltb x y = true <-> (x < y)%Q.
Proof.
  unfold Qltb. rewrite negb_true_iff. split; intros H.
  - apply Qnot_le_lt. intros C. apply Qle_bool_iff in C. congruence.
  - apply not_true_iff_false. intros C. apply Qle_bool_iff in C. now apply (Qlt_not_le _ _ H).
Qed.
Lemma Qltb_ge x y : Qltb x y = false <-> (y <= x)%Q.
Proof. unfold Qltb. rewrite negb_false_iff. apply Qle_bool_iff. Qed.
Lemma Qle_bool_false x y : Qle_bool x y = false <-> (y < x)%Q.
Proof.
  split; intros H.
  - apply Qnot_le_lt. intros C. apply Qle_bool_iff in C. congruence.
  - apply not_true_iff_false. intros C. apply Qle_bool_iff in C. now apply (Qlt_not_le _ _ H).
Qed.

(** ** sort *)
Lemma insertQ_perm x l : Permutation (x :: l) (insertQ x l).
Proof.
  induction l as [|y r IH]; simpl; [reflexivity|]. destruct (Qle_bool x y); [reflexivity|].
  etransitivity; [apply perm_swap|]. now constructor.
Qed.
Lemma sortQ_perm l : Permutation l (sortQ l).
Proof.
  induction l as [|x l IH]; simpl; [constructor|].
  etransitivity; [constructor; exact IH|apply insertQ_perm].
Qed.
Lemma insertQ_sorted x l : StronglySorted Qle l -> StronglySorted Qle (insertQ x l).
Proof.
  induction l as [|y r IH]; intros H; simpl; [repeat constructor|].
  destruct (Qle_bool x y) eqn:E.
  - apply Qle_bool_iff in E. constructor; [exact H|]. inversion H; subst.
    constructor; [exact E|]. eapply Forall_impl; [|eassumption]. intros a Ha. cbv beta in Ha. lra.
  - apply Qle_bool_false in E. inversion H; subst. constructor; [now apply IH|].
    assert (P : Permutation (x :: r) (insertQ x r)) by apply insertQ_perm.
    eapply Permutation_Forall; [exact P|]. constructor; [lra|assumption].
Qed.
Lemma sortQ_sorted l : StronglySorted Qle (sortQ l).
Proof. induction l as [|x l IH]; simpl; [constructor|now apply insertQ_sorted]. Qed.

Lemma filter_perm {A} (p : A -> bool) l l' : Permutation l l' -> Permutation (filter p l) (filter p l').
Proof.
  induction 1; simpl.
  - constructor.
  - destruct (p x); [now constructor|assumption].
  - destruct (p x), (p y); try constructor; reflexivity.
  - etransitivity; eassumption.
Qed.
Lemma filter_len_perm {A} (p : A -> bool) l l' : Permutation l l' -> length (filter p l) = length (filter p l').
Proof. intros H. now apply Permutation_length, filter_perm. Qed.
Lemma filter_none {A} (p : A -> bool) l : (forall x, In x l -> p x = false) -> filter p l = [].
Proof.
  induction l as [|x l IH]; intros H; simpl; [reflexivity|].
  rewrite (H x (or_introl eq_refl)). apply IH. intros y Hy; apply H; now right.
Qed.
Lemma filter_all {A} (p : A -> bool) l : (forall x, In x l -> p x = true) -> filter p l = l.
Proof.
  induction l as [|x l IH]; intros H; simpl; [reflexivity|].
  rewrite (H x (or_introl eq_refl)). f_equal. apply IH. intros y Hy; apply H; now right.
Qed.
Lemma filter_filter {A} (p q : A -> bool) l : filter p (filter q l) = filter (fun x => q x && p x) l.
Proof.
  induction l as [|x l IH]; simpl; [reflexivity|]. destruct (q x); simpl; [|exact IH].
  destruct (p x); now rewrite IH.
Qed.

(** ** slices of sorted data *)
Lemma sorted_split_lt l v : StronglySorted Qle l ->
  filter (fun x => Qltb x v) l = firstn (ss_left l v) l /\
  filter (fun x => Qle_bool v x) l = skipn (ss_left l v) l.
Proof.
  unfold ss_left. induction l as [|x l IH]; intros H; [split; reflexivity|].
  apply StronglySorted_inv in H as [H Hx]. destruct (IH H) as [I1 I2]. cbn [filter].
  destruct (Qltb x v) eqn:E.
  - apply Qltb_lt in E. cbn [length firstn skipn].
    assert (Qle_bool v x = false) as -> by now apply Qle_bool_false.
    split; [now f_equal|exact I2].
  - apply Qltb_ge in E. assert (Qle_bool v x = true) as -> by now apply Qle_bool_iff.
    rewrite Forall_forall in Hx.
    assert (N : filter (fun x => Qltb x v) l = []).
    { apply filter_none. intros y Hy. apply Qltb_ge. specialize (Hx y Hy). lra. }
    rewrite N. cbn [length firstn skipn]. split; [reflexivity|]. f_equal.
    apply filter_all. intros y Hy. apply Qle_bool_iff. specialize (Hx y Hy). lra.
Qed.
Lemma sorted_split_le l v : StronglySorted Qle l ->
  filter (fun x => Qle_bool x v) l = firstn (ss_right l v) l /\
  filter (fun x => Qltb v x) l = skipn (ss_right l v) l.
Proof.
  unfold ss_right. induction l as [|x l IH]; intros H; [split; reflexivity|].
  apply StronglySorted_inv in H as [H Hx]. destruct (IH H) as [I1 I2]. cbn [filter].
  destruct (Qle_bool x v) eqn:E.
  - apply Qle_bool_iff in E. cbn [length firstn skipn].
    assert (Qltb v x = false) as -> by now apply Qltb_ge.
    split; [now f_equal|exact I2].
  - apply Qle_bool_false in E. assert (Qltb v x = true) as -> by now apply Qltb_lt.
    rewrite Forall_forall in Hx.
    assert (N : filter (fun x => Qle_bool x v) l = []).
    { apply filter_none. intros y Hy. apply Qle_bool_false. specialize (Hx y Hy). lra. }
    rewrite N. cbn [length firstn skipn]. split; [reflexivity|]. f_equal.
    apply filter_all. intros y Hy. apply Qltb_lt. specialize (Hx y Hy). lra.
Qed.
Lemma sorted_filter (p : Q -> bool) l : StronglySorted Qle l -> StronglySorted Qle (filter p l).
Proof.
  induction 1 as [|x l H IH Hx]; simpl; [constructor|]. destruct (p x); [|exact IH].
  constructor; [exact IH|]. rewrite Forall_forall in *. intros y Hy. apply filter_In in Hy. now apply Hx.
Qed.

Definition in_closed (a b x : Q) : bool := Qle_bool a x && Qle_bool x b.

Lemma slice_closed d a b : StronglySorted Qle (d_data d) ->
  slice_distribution d (Some a) (Some b) = filter (in_closed a b) (d_data d).
Proof.
  intros S. unfold slice_distribution. set (l := d_data d) in *.
  destruct (Qlt_le_dec b a) as [L|L].
  - assert (ss_right l b <= ss_left l a)%nat.
    { unfold ss_right, ss_left. clear S. induction l as [|x l IH]; simpl; [lia|].
      destruct (Qle_bool x b) eqn:E1.
      - apply Qle_bool_iff in E1. assert (Qltb x a = true) as -> by (apply Qltb_lt; lra). simpl; lia.
      - destruct (Qltb x a); simpl; lia. }
    replace (ss_right l b - ss_left l a)%nat with 0%nat by lia. symmetry. apply filter_none.
    intros x _. unfold in_closed. destruct (Qle_bool a x) eqn:E1; [|reflexivity].
    apply Qle_bool_iff in E1. apply Qle_bool_false. lra.
  - assert (E : (ss_left (filter (fun x => Qle_bool x b) l) a = ss_left l a)%nat).
    { unfold ss_left. rewrite filter_filter. f_equal. apply filter_ext. intros x.
      destruct (Qltb x a) eqn:E1; [|now rewrite andb_false_r].
      apply Qltb_lt in E1. rewrite andb_true_r. apply Qle_bool_iff. lra. }
    assert (LE : (ss_left l a <= ss_right l b)%nat).
    { rewrite <- E. unfold ss_left, ss_right. clear. induction (filter (fun x => Qle_bool x b) l) as [|x r IH]; simpl; [lia|].
      destruct (Qltb x a); simpl; lia. }
    rewrite firstn_skipn_comm. replace (ss_left l a + (ss_right l b - ss_left l a))%nat with (ss_right l b) by lia.
    destruct (sorted_split_le l b S) as [<- _]. rewrite <- E.
    destruct (sorted_split_lt (filter (fun x => Qle_bool x b) l) a (sorted_filter _ _ S)) as [_ <-].
    rewrite filter_filter. apply filter_ext. intros x. unfold in_closed. apply andb_comm.
Qed.
Lemma slice_from d a : StronglySorted Qle (d_data d) ->
  slice_distribution d (Some a) None = filter (Qle_bool a) (d_data d).
Proof.
  intros S. unfold slice_distribution. destruct (sorted_split_lt (d_data d) a S) as [_ E].
  change (filter (Qle_bool a) (d_data d)) with (filter (fun x => Qle_bool a x) (d_data d)).
  rewrite E. apply firstn_all2. rewrite skipn_length. lia.
Qed.

(** ** min and max of a list *)
Lemma fold_min_le l : forall x, (fold_left Qmin l x <= x)%Q /\ (forall y, In y l -> (fold_left Qmin l x <= y)%Q) /\
  (exists y, In y (x :: l) /\ fold_left Qmin l x == y)%Q.
Proof.
  induction l as [|a l IH]; intros x; cbn [fold_left].
  - split; [apply Qle_refl|]. split; [intros y []|]. exists x. split; [now left|reflexivity].
  - destruct (IH (Qmin x a)) as (I1 & I2 & (y & Iy & E)).
    pose proof (Q.le_min_l x a). pose proof (Q.le_min_r x a).
    split; [lra|]. split.
    + intros z [-> | Hz]; [lra|]. now apply I2.
    + destruct Iy as [<- | Iy].
      * destruct (Q.min_spec x a) as [[_ M]|[_ M]]; [exists x|exists a]; (split; [simpl; tauto|lra]).
      * exists y. split; [simpl; tauto|exact E].
Qed.
Lemma fold_max_ge l : forall x, (x <= fold_left Qmax l x)%Q /\ (forall y, In y l -> (y <= fold_left Qmax l x)%Q) /\
  (exists y, In y (x :: l) /\ fold_left Qmax l x == y)%Q.
Proof.
  induction l as [|a l IH]; intros x; cbn [fold_left].
  - split; [apply Qle_refl|]. split; [intros y []|]. exists x. split; [now left|reflexivity].
  - destruct (IH (Qmax x a)) as (I1 & I2 & (y & Iy & E)).
    pose proof (Q.le_max_l x a). pose proof (Q.le_max_r x a).
    split; [lra|]. split.
    + intros z [-> | Hz]; [lra|]. now apply I2.
    + destruct Iy as [<- | Iy].
      * destruct (Q.max_spec x a) as [[_ M]|[_ M]]; [exists a|exists x]; (split; [simpl; tauto|lra]).
      * exists y. split; [simpl; tauto|exact E].
Qed.
Lemma minQ_spec x l : (forall y, In y (x :: l) -> (minQ x l <= y)%Q) /\ (exists y, In y (x :: l) /\ minQ x l == y)%Q.
Proof.
  unfold minQ. destruct (fold_min_le l x) as (A & B & C). split; [|exact C].
  intros y [<- | Hy]; [exact A|now apply B].
Qed.
Lemma maxQ_spec x l : (forall y, In y (x :: l) -> (y <= maxQ x l)%Q) /\ (exists y, In y (x :: l) /\ maxQ x l == y)%Q.
Proof.
  unfold maxQ. destruct (fold_max_ge l x) as (A & B & C). split; [|exact C].
  intros y [<- | Hy]; [exact A|now apply B].
Qed.

Lemma hist_range_lt a : (fst (hist_range a) < snd (hist_range a))%Q.
Proof.
  destruct a as [|x r]; [reflexivity|]. cbn [hist_range].
  destruct (Qeq_bool (minQ x r) (maxQ x r)) eqn:E; cbn [fst snd].
  - apply Qeq_bool_iff in E. lra.
  - apply Qeq_bool_neq in E. pose proof (proj1 (minQ_spec x r) x (or_introl eq_refl)).
    pose proof (proj1 (maxQ_spec x r) x (or_introl eq_refl)).
    destruct (Qlt_le_dec (minQ x r) (maxQ x r)); [assumption|]. exfalso. apply E. lra.
Qed.
Lemma hist_range_in a x : In x a -> (fst (hist_range a) <= x <= snd (hist_range a))%Q.
Proof.
  destruct a as [|y r]; [intros []|]. intros H.
  pose proof (proj1 (minQ_spec y r) x H). pose proof (proj1 (maxQ_spec y r) x H).
  cbn [hist_range]. destruct (Qeq_bool _ _); cbn [fst snd]; lra.
Qed.

(** ** well-formed distributions *)
Definition edge (d : dist) (i : nat) : Q := nth i (d_edges d) 0%Q.
Definition nbins (d : dist) : nat := length (d_hist d).
Definition half_open (a b x : Q) : bool := Qle_bool a x && Qltb x b.
Definition countb (p : Q -> bool) (l : list Q) : Z := Z.of_nat (length (filter p l)).

Record wf (d : dist) (w : Q) : Prop := {
  wf_sorted : StronglySorted Qle (d_data d);
  wf_w : (0 < w)%Q;
  wf_len : length (d_edges d) = S (nbins d);
  wf_ne : (0 < nbins d)%nat;
  wf_edge : forall i, (i <= nbins d)%nat -> (edge d i == edge d 0 + inject_Z (Z.of_nat i) * w)%Q;
  wf_in : forall x, In x (d_data d) -> (edge d 0 <= x <= edge d (nbins d))%Q;
  wf_cnt : forall i, (i < nbins d)%nat ->
    nth i (d_hist d) 0 = countb (half_open (edge d i) (edge d (S i))) (d_data d) \/
    (S i = nbins d /\ nth i (d_hist d) 0 = countb (in_closed (edge d i) (edge d (S i))) (d_data d))
}.

Lemma edge_at_0 lo hi n : (edge_at lo hi n 0 == lo)%Q.
Proof. unfold edge_at. change (inject_Z (Z.of_nat 0)) with 0%Q. lra. Qed.
Lemma edge_at_n lo hi n : (0 < n)%nat -> (edge_at lo hi n n == hi)%Q.
Proof.
  intros H. unfold edge_at. assert (~ inject_Z (Z.of_nat n) == 0)%Q.
  { intros C. assert (0 < inject_Z (Z.of_nat n))%Q by (change 0%Q with (inject_Z 0); apply (proj1 (Zlt_inj _ _)); lia). lra. }
  field. exact H0.
Qed.

Lemma nth_map_seq {A} (f : nat -> A) n i dflt : (i < n)%nat -> nth i (map f (seq 0 n)) dflt = f i.
Proof.
  intros H. rewrite (nth_indep _ dflt (f 0%nat)) by (rewrite map_length, seq_length; exact H).
  rewrite map_nth, seq_nth by exact H. reflexivity.
Qed.

Lemma countb_perm p l l' : Permutation l l' -> countb p l = countb p l'.
Proof. intros H. unfold countb. now rewrite (filter_len_perm p l l' H). Qed.

Lemma mk_dist_wf a n p : (0 < n)%nat -> exists d, mk_dist a n p = Ok d /\
  wf d ((snd (hist_range a) - fst (hist_range a)) / inject_Z (Z.of_nat n)) /\
  d_data d = sortQ a /\ nbins d = n /\ d_partial d = p /\
  (edge d 0 == fst (hist_range a))%Q /\ (edge d n == snd (hist_range a))%Q /\
  (forall i, (i < n)%nat -> nth i (d_hist d) 0 = bin_count a (fst (hist_range a)) (snd (hist_range a)) n i).
Proof.
  intros Hn. unfold mk_dist. destruct n as [|k]; [lia|]. remember (S k) as n.
  pose proof (hist_range_lt a) as RL. pose proof (hist_range_in a) as RI.
  destruct (hist_range a) as [lo hi]. cbn [fst snd] in *.
  eexists. split; [reflexivity|].
  assert (NB : forall x y z, nbins (mkdist x y (map z (seq 0 n)) p) = n)
    by (intros; unfold nbins; cbn [d_hist]; rewrite map_length, seq_length; reflexivity).
  assert (ED : forall x z i, (i <= n)%nat -> edge (mkdist x (map (edge_at lo hi n) (seq 0 (S n))) z p) i = edge_at lo hi n i).
  { intros. unfold edge. cbn [d_edges]. apply nth_map_seq. lia. }
  assert (NZ : (0 < inject_Z (Z.of_nat n))%Q) by (change 0%Q with (inject_Z 0); apply (proj1 (Zlt_inj _ _)); lia).
  split; [|split; [reflexivity|split; [apply NB|split; [reflexivity|split; [|split]]]]].
  - split.
    + apply sortQ_sorted.
    + apply Qlt_shift_div_l; [exact NZ|]. rewrite Qmult_0_l. apply -> Qlt_minus_iff. exact RL.
    + cbn [d_edges]. rewrite NB, map_length, seq_length. reflexivity.
    + rewrite NB. lia.
    + intros i Hi. rewrite NB in Hi. rewrite !ED by lia. rewrite edge_at_0. unfold edge_at. reflexivity.
    + intros x Hx. cbn [d_data] in Hx. rewrite NB, !ED by lia. rewrite edge_at_0, edge_at_n by lia.
      apply RI. eapply Permutation_in; [symmetry; apply sortQ_perm|exact Hx].
    + intros i Hi. rewrite NB in Hi. rewrite !ED by lia. cbn [d_hist d_data].
      rewrite nth_map_seq by lia. unfold bin_count.
      fold (countb (bin_has lo hi n i) a). rewrite (countb_perm _ _ _ (sortQ_perm a)). rewrite NB.
      destruct (Nat.eq_dec (S i) n) as [E|E].
      * right. split; [exact E|]. unfold countb. f_equal. f_equal. apply filter_ext. intros x.
        unfold bin_has, in_closed. rewrite (proj2 (Nat.eqb_eq _ _) E). reflexivity.
      * left. unfold countb. f_equal. f_equal. apply filter_ext. intros x.
        unfold bin_has, half_open. rewrite (proj2 (Nat.eqb_neq _ _) E). reflexivity.
  - rewrite ED by lia. apply edge_at_0.
  - rewrite ED by lia. apply edge_at_n. lia.
  - intros i Hi. cbn [d_hist]. apply nth_map_seq. exact Hi.
Qed.

(** ** get_bin on well-formed distributions *)
Lemma py_index_nth {A} (l : list A) (i : nat) dflt : (i < length l)%nat -> py_index l (Z.of_nat i) = Ok (nth i l dflt).
Proof.
  intros H. destruct (py_index_nonneg l (Z.of_nat i)) as (a & E & ->); [lia|].
  rewrite Nat2Z.id in E. f_equal. symmetry. now apply nth_error_nth.
Qed.

Lemma edge_mono d w i j : wf d w -> (i <= j <= nbins d)%nat -> (edge d i <= edge d j)%Q.
Proof.
  intros W H. pose proof (wf_edge _ _ W i ltac:(lia)). pose proof (wf_edge _ _ W j ltac:(lia)).
  pose proof (wf_w _ _ W) as HW.
  assert (L : (inject_Z (Z.of_nat i) <= inject_Z (Z.of_nat j))%Q) by (apply (proj1 (Zle_inj _ _)); lia).
  pose proof (Qmult_le_compat_r _ _ w L (Qlt_le_weak _ _ HW)). lra.
Qed.
Lemma edge_succ d w i : wf d w -> (i < nbins d)%nat -> (edge d (S i) == edge d i + w)%Q.
Proof.
  intros W H. pose proof (wf_edge _ _ W i ltac:(lia)) as E1. pose proof (wf_edge _ _ W (S i) ltac:(lia)) as E2.
  rewrite Nat2Z.inj_succ in E2. unfold Z.succ in E2. rewrite inject_Z_plus in E2.
  change (inject_Z 1) with 1%Q in E2. lra.
Qed.

(** content of a bin in sorted data *)
Lemma filter_from_prefix l a b : StronglySorted Qle l ->
  firstn (length (filter (half_open a b) l)) (filter (Qle_bool a) l) = filter (half_open a b) l.
Proof.
  intros S. assert (SF := sorted_filter (Qle_bool a) l S).
  assert (E : filter (half_open a b) l = filter (fun x => Qltb x b) (filter (Qle_bool a) l)).
  { rewrite filter_filter. reflexivity. }
  destruct (sorted_split_lt _ b SF) as [E1 _]. rewrite E, E1. rewrite firstn_length.
  unfold ss_left. f_equal.
  apply Nat.min_l. clear. induction (filter (Qle_bool a) l) as [|x r IH]; simpl; [lia|]. destruct (Qltb x b); simpl; lia.
Qed.
Lemma filter_closed_prefix l a b : StronglySorted Qle l ->
  firstn (length (filter (in_closed a b) l)) (filter (Qle_bool a) l) = filter (in_closed a b) l.
Proof.
  intros S. assert (SF := sorted_filter (Qle_bool a) l S).
  assert (E : filter (in_closed a b) l = filter (fun x => Qle_bool x b) (filter (Qle_bool a) l)).
  { rewrite filter_filter. reflexivity. }
  destruct (sorted_split_le _ b SF) as [E1 _]. rewrite E, E1. rewrite firstn_length.
  unfold ss_right. f_equal.
  apply Nat.min_l. clear. induction (filter (Qle_bool a) l) as [|x r IH]; simpl; [lia|]. destruct (Qle_bool x b); simpl; lia.
Qed.

Lemma get_bin_wf d w i : wf d w -> (i < nbins d)%nat ->
  exists p, (p = half_open (edge d i) (edge d (S i)) \/ (S i = nbins d /\ p = in_closed (edge d i) (edge d (S i)))) /\
  nth i (d_hist d) 0 = countb p (d_data d) /\
  get_bin d (Z.of_nat i) = Ok (let c := countb p (d_data d) in let it := filter p (d_data d) in
    if c <? 2 then mkbin (edge d i) (edge d (S i)) c []
    else mkbin (hd 0%Q it) (last it 0%Q) c it).
Proof.
  intros W Hi.
  assert (P : exists p, (p = half_open (edge d i) (edge d (S i)) \/ (S i = nbins d /\ p = in_closed (edge d i) (edge d (S i)))) /\
     nth i (d_hist d) 0 = countb p (d_data d) /\
     firstn (length (filter p (d_data d))) (filter (Qle_bool (edge d i)) (d_data d)) = filter p (d_data d)).
  { destruct (wf_cnt _ _ W i Hi) as [C|[E C]].
    - eexists. split; [left; reflexivity|]. split; [exact C|]. apply filter_from_prefix. apply W.
    - eexists. split; [right; split; [exact E|reflexivity]|]. split; [exact C|]. apply filter_closed_prefix. apply W. }
  destruct P as (p & P1 & P2 & P3). exists p. split; [exact P1|]. split; [exact P2|].
  unfold get_bin. assert ((Z.of_nat i <? 0) = false) as -> by (apply Z.ltb_ge; lia).
  cbn zeta. rewrite (py_index_nth _ i 0%Q) by (rewrite (wf_len _ _ W); lia). cbn [rbind].
  replace (Z.of_nat i + 1) with (Z.of_nat (S i)) by lia.
  rewrite (py_index_nth _ (S i) 0%Q) by (rewrite (wf_len _ _ W); lia). cbn [rbind].
  rewrite (py_index_nth _ i 0) by exact Hi. cbn [rbind]. rewrite P2.
  fold (edge d i) (edge d (S i)).
  destruct (countb p (d_data d) <? 2) eqn:E; [reflexivity|].
  rewrite (slice_from _ _ (wf_sorted _ _ W)).
  replace (Z.to_nat (countb p (d_data d))) with (length (filter p (d_data d))) by (unfold countb; lia).
  rewrite P3. unfold countb at 1. rewrite Z.eqb_refl. reflexivity.
Qed.

Lemma get_bin_neg d w i : wf d w -> (i < nbins d)%nat ->
  get_bin d (Z.of_nat i - Z.of_nat (nbins d)) = get_bin d (Z.of_nat i).
Proof.
  intros W Hi. unfold get_bin at 1. unfold dist_len. rewrite (wf_len _ _ W).
  assert ((Z.of_nat i - Z.of_nat (nbins d) <? 0) = true) as -> by (apply Z.ltb_lt; lia).
  unfold get_bin. assert ((Z.of_nat i <? 0) = false) as -> by (apply Z.ltb_ge; lia).
  cbn zeta. replace (Z.of_nat (S (nbins d)) - 1 + (Z.of_nat i - Z.of_nat (nbins d))) with (Z.of_nat i) by lia.
  reflexivity.
Qed.

Lemma sorted_hd_le l x : StronglySorted Qle l -> In x l -> (hd 0%Q l <= x)%Q.
Proof.
  intros S H. destruct l as [|y r]; [destruct H|]. cbn [hd].
  apply StronglySorted_inv in S as [_ F]. rewrite Forall_forall in F.
  destruct H as [<- | H]; [apply Qle_refl|now apply F].
Qed.
Lemma sorted_last_ge l x : StronglySorted Qle l -> In x l -> (x <= last l 0%Q)%Q.
Proof.
  induction l as [|y r IH]; intros S H; [destruct H|].
  apply StronglySorted_inv in S as [S F]. rewrite Forall_forall in F.
  destruct r as [|z r]; [destruct H as [<- | []]; apply Qle_refl|].
  change (last (y :: z :: r) 0%Q) with (last (z :: r) 0%Q).
  destruct H as [<- | H]; [|now apply IH].
  apply F. rewrite (app_removelast_last 0%Q (l := z :: r)) at 2 by discriminate.
  apply in_or_app; right; now left.
Qed.
Lemma last_In (l : list Q) : l <> [] -> In (last l 0%Q) l.
Proof.
  intros H. rewrite (app_removelast_last 0%Q H) at 2. apply in_or_app; right; now left.
Qed.
Lemma hd_In (l : list Q) : l <> [] -> In (hd 0%Q l) l.
Proof. destruct l; [congruence|]. intros _. now left. Qed.

(** the reported range brackets the data, up to data sitting exactly on the last edge *)
Lemma get_min_wf d w : wf d w -> exists m, get_min d = Ok m /\
  (edge d 0 <= m <= edge d 1)%Q /\ (forall x, In x (d_data d) -> (m <= x)%Q) /\
  (nth 0 (d_hist d) 0 < 2 -> m = edge d 0) /\
  (2 <= nth 0 (d_hist d) 0 -> In m (d_data d)).
Proof.
  intros W. pose proof (wf_ne _ _ W) as NE.
  destruct (get_bin_wf d w 0 W NE) as (p & P1 & P2 & P3).
  unfold get_min. change (get_bin d 0) with (get_bin d (Z.of_nat 0)). rewrite P3. rewrite P2. cbn [rmap].
  assert (PX : forall x, p x = true -> (edge d 0 <= x <= edge d 1)%Q).
  { intros x H. destruct P1 as [-> | [_ ->]]; unfold half_open, in_closed in H;
    apply andb_true_iff in H as [H1 H2]; apply Qle_bool_iff in H1.
    - apply Qltb_lt in H2. lra.
    - apply Qle_bool_iff in H2. lra. }
  eexists. split; [reflexivity|]. cbn zeta.
  destruct (countb p (d_data d) <? 2) eqn:E; cbn [b_min].
  - apply Z.ltb_lt in E. split; [split; [apply Qle_refl|]|split; [|split; [reflexivity|lia]]].
    + apply (edge_mono d w); [exact W|lia].
    + intros x Hx. apply (wf_in _ _ W x Hx).
  - apply Z.ltb_ge in E.
    assert (NN : filter p (d_data d) <> []) by (intros C; unfold countb in E; rewrite C in E; simpl in E; lia).
    pose proof (hd_In _ NN) as HI. apply filter_In in HI as [HI1 HI2].
    split; [now apply PX|split; [|split; [lia|intros _; exact HI1]]].
    intros x Hx. destruct (p x) eqn:Ex.
    + apply sorted_hd_le; [apply sorted_filter, W|]. apply filter_In. now split.
    + apply PX in HI2. pose proof (wf_in _ _ W x Hx) as [X1 X2].
      destruct P1 as [-> | [EN ->]]; unfold half_open, in_closed in Ex.
      * rewrite (proj2 (Qle_bool_iff _ _) X1) in Ex. cbn [andb] in Ex. apply Qltb_ge in Ex. lra.
      * rewrite (proj2 (Qle_bool_iff _ _) X1) in Ex. cbn [andb] in Ex. apply Qle_bool_false in Ex. lra.
Qed.

Lemma get_max_wf d w : wf d w -> exists m, get_max d = Ok m /\
  (edge d (nbins d - 1) <= m <= edge d (nbins d))%Q /\
  (forall x, In x (d_data d) -> (x < edge d (nbins d))%Q -> (x <= m)%Q) /\
  (nth (nbins d - 1) (d_hist d) 0 < 2 -> m = edge d (nbins d)) /\
  (2 <= nth (nbins d - 1) (d_hist d) 0 -> In m (d_data d)) /\
  (nth (nbins d - 1) (d_hist d) 0 = countb (in_closed (edge d (nbins d - 1)) (edge d (nbins d))) (d_data d) ->
   forall x, In x (d_data d) -> (x <= m)%Q).
Proof.
  intros W. pose proof (wf_ne _ _ W) as NE.
  destruct (get_bin_wf d w (nbins d - 1) W) as (p & P1 & P2 & P3); [lia|].
  unfold get_max. replace (-1) with (Z.of_nat (nbins d - 1) - Z.of_nat (nbins d)) by lia.
  rewrite (get_bin_neg d w) by (try exact W; lia). rewrite P3. rewrite P2. cbn [rmap].
  replace (S (nbins d - 1)) with (nbins d) in * by lia.
  set (n := nbins d) in *.
  assert (PX : forall x, p x = true -> (edge d (n - 1) <= x <= edge d n)%Q).
  { intros x H. destruct P1 as [-> | [_ ->]]; unfold half_open, in_closed in H;
    apply andb_true_iff in H as [H1 H2]; apply Qle_bool_iff in H1.
    - apply Qltb_lt in H2. lra.
    - apply Qle_bool_iff in H2. lra. }
  eexists. split; [reflexivity|]. cbn zeta.
  destruct (countb p (d_data d) <? 2) eqn:E; cbn [b_max].
  - apply Z.ltb_lt in E. split; [split; [|apply Qle_refl]|split; [|split; [reflexivity|split; [lia|]]]].
    + apply (edge_mono d w); [exact W|unfold n; lia].
    + intros x Hx _. apply (wf_in _ _ W x Hx).
    + intros _ x Hx. apply (wf_in _ _ W x Hx).
  - apply Z.ltb_ge in E.
    assert (NN : filter p (d_data d) <> []) by (intros C; unfold countb in E; rewrite C in E; simpl in E; lia).
    pose proof (last_In _ NN) as HI. apply filter_In in HI as [HI1 HI2]. apply PX in HI2.
    split; [exact HI2|split; [|split; [lia|split; [intros _; exact HI1|]]]].
    + intros x Hx L. destruct (p x) eqn:Ex.
      * apply sorted_last_ge; [apply sorted_filter, W|]. apply filter_In. now split.
      * assert (~ (edge d (n - 1) <= x)%Q); [|lra]. intros C.
        destruct P1 as [-> | [EN ->]]; unfold half_open, in_closed in Ex;
        rewrite (proj2 (Qle_bool_iff _ _) C) in Ex; cbn [andb] in Ex.
        -- apply Qltb_ge in Ex. lra.
        -- apply Qle_bool_false in Ex. lra.
    + intros CC x Hx. destruct (in_closed (edge d (n - 1)) (edge d n) x) eqn:IC.
      * (* filter p and filter closed have the same length, p implies closed: they are equal *)
        assert (EQ : filter p (d_data d) = filter (in_closed (edge d (n - 1)) (edge d n)) (d_data d)).
        { destruct P1 as [-> | [_ ->]]; [|reflexivity].
          assert (LE : forall l, (length (filter (half_open (edge d (n-1)) (edge d n)) l) <=
                         length (filter (in_closed (edge d (n-1)) (edge d n)) l))%nat /\
                      (length (filter (half_open (edge d (n-1)) (edge d n)) l) =
                         length (filter (in_closed (edge d (n-1)) (edge d n)) l) ->
                       filter (half_open (edge d (n-1)) (edge d n)) l = filter (in_closed (edge d (n-1)) (edge d n)) l)).
          { induction l as [|y l [I1 I2]]; [split; [apply le_n|reflexivity]|]. cbn [filter].
            destruct (half_open (edge d (n-1)) (edge d n) y) eqn:EY.
            - assert (in_closed (edge d (n-1)) (edge d n) y = true) as ->.
              { unfold half_open, in_closed in *. apply andb_true_iff in EY as [-> EY]. apply Qltb_lt in EY.
                cbn [andb]. apply Qle_bool_iff. lra. }
              cbn [length]. split; [lia|]. intros H. f_equal. apply I2. lia.
            - destruct (in_closed (edge d (n-1)) (edge d n) y); cbn [length]; (split; [lia|]); [lia|exact I2]. }
          apply LE. unfold countb in CC. lia. }
        rewrite EQ. apply sorted_last_ge; [apply sorted_filter, W|]. apply filter_In. now split.
      * destruct (wf_in _ _ W x Hx) as [_ X2]. unfold in_closed in IC. fold n in X2.
        rewrite (proj2 (Qle_bool_iff _ _) X2), andb_true_r in IC. apply Qle_bool_false in IC. lra.
Qed.
