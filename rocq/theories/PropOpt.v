(** C29, C55, C56: range optimizers. *)
From Verif Require Import Base BaseProofs DtypeModel QuantModel PropCore DistModel DistProofs DistClone PropDist OptModel.
From Coq Require Import Sorting.Sorted Qminmax Lqa.
Open Scope Z_scope.
Open Scope list_scope.

(** ** C29: KL reduce *)
(** size of a group of bins *)
Definition group_size (B T : nat) : nat := Z.to_nat (- (- Z.of_nat B / Z.of_nat T)).   (* ceil(B/T) *)
Definition same_group (b j j' : nat) : Prop := (j / b = j' / b)%nat.
Definition is_value (x : option Q) (v : Q) : Prop := exists u, x = Some u /\ (u == v)%Q.

Lemma ceil_div_group B T : (0 < T)%nat -> ceil_div B T = group_size B T.
Proof.
  intros H. unfold ceil_div, group_size. rewrite <- (Nat2Z.id ((B + T - 1) / T)). f_equal.
  rewrite Nat2Z.inj_div. rewrite Nat2Z.inj_sub, Nat2Z.inj_add by lia.
  set (x := Z.of_nat B). set (y := Z.of_nat T). assert (0 < y) by lia. change (Z.of_nat 1) with 1.
  symmetry. pose proof (Z.div_mod (x + y - 1) y ltac:(lia)). pose proof (Z.mod_pos_bound (x + y - 1) y ltac:(lia)).
  assert (E : - x / y = - ((x + y - 1) / y)); [|lia].
  symmetry. apply (Z.div_unique_pos _ _ _ (y - 1 - (x + y - 1) mod y)); lia.
Qed.
Lemma group_pos B T : (0 < B)%nat -> (0 < T)%nat -> (0 < ceil_div B T)%nat.
Proof. intros. unfold ceil_div. apply Nat.div_str_pos. lia. Qed.
Lemma group_covers B T : (0 < T)%nat -> (B <= T * ceil_div B T)%nat.
Proof.
  intros H. unfold ceil_div. pose proof (Nat.div_mod (B + T - 1) T ltac:(lia)).
  pose proof (Nat.mod_upper_bound (B + T - 1) T ltac:(lia)). lia.
Qed.

Lemma expand_length c : length (expand_chunk c) = length c.
Proof. unfold expand_chunk. destruct (_ =? 0); apply map_length. Qed.

Lemma skipn_skipn' {A} (l : list A) a b : skipn a (skipn b l) = skipn (b + a) l.
Proof. revert l; induction b as [|b IH]; intros l; [reflexivity|]. destruct l; [now rewrite !skipn_nil|]. cbn [skipn Nat.add]. apply IH. Qed.

Lemma chunk_S h b i : chunk h b (S i) = chunk (skipn b h) b i.
Proof. unfold chunk. rewrite skipn_skipn'. f_equal. Qed.

Lemma chunks_length (f : list Z -> list (option Q)) b : (forall c, length (f c) = length c) ->
  forall T h, length (concat (map (fun i => f (chunk h b i)) (seq 0 T))) = Nat.min (T * b) (length h).
Proof.
  intros Hf. induction T as [|T IH]; intros h; [reflexivity|].
  rewrite <- cons_seq, <- seq_shift, map_cons, map_map. cbn [concat].
  rewrite app_length, Hf. unfold chunk at 1. cbn [Nat.mul skipn]. rewrite firstn_length.
  rewrite (map_ext _ (fun i => f (chunk (skipn b h) b i))) by (intros; now rewrite chunk_S).
  rewrite IH, skipn_length. lia.
Qed.
Lemma chunks_nth (f : list Z -> list (option Q)) b : (0 < b)%nat -> (forall c, length (f c) = length c) ->
  forall T h j, (j < length h)%nat -> (j < T * b)%nat ->
  nth j (concat (map (fun i => f (chunk h b i)) (seq 0 T))) None = nth (j mod b) (f (chunk h b (j / b))) None.
Proof.
  intros Hb Hf. induction T as [|T IH]; intros h j Hj HT; [lia|].
  rewrite <- cons_seq, <- seq_shift, map_cons, map_map. cbn [concat].
  destruct (Nat.lt_ge_cases j b) as [L|L].
  - rewrite app_nth1 by (rewrite Hf; unfold chunk; cbn [Nat.mul skipn]; rewrite firstn_length; lia).
    now rewrite Nat.div_small, Nat.mod_small by exact L.
  - assert (LF : length (f (chunk h b 0)) = b).
    { rewrite Hf. unfold chunk. cbn [Nat.mul skipn]. rewrite firstn_length. lia. }
    rewrite app_nth2 by (rewrite LF; exact L). rewrite LF.
    rewrite (map_ext _ (fun i => f (chunk (skipn b h) b i))) by (intros; now rewrite chunk_S).
    rewrite IH by (try rewrite skipn_length; lia).
    assert (E : (j = b + (j - b))%nat) by lia. 
    assert (E1 : (j / b = S ((j - b) / b))%nat).
    { rewrite E at 1. replace (b + (j - b))%nat with (j - b + 1 * b)%nat by lia. rewrite Nat.div_add by lia. lia. }
    assert (E2 : (j mod b = (j - b) mod b)%nat).
    { rewrite E at 1. replace (b + (j - b))%nat with (j - b + 1 * b)%nat by lia. apply Nat.mod_add. lia. }
    rewrite E1, E2, chunk_S. reflexivity.
Qed.

Lemma chunk_nth h b k i : (i < b)%nat -> nth i (chunk h b k) 0 = nth (k * b + i) h 0.
Proof. intros H. unfold chunk. rewrite nth_firstn' by exact H. apply nth_skipn'. Qed.
Lemma chunk_len h b k : length (chunk h b k) = Nat.min b (length h - k * b).
Proof. unfold chunk. rewrite firstn_length, skipn_length. reflexivity. Qed.
Lemma chunk_In h b k x : (0 < b)%nat -> In x (chunk h b k) ->
  exists j, (j < length h)%nat /\ (j / b = k)%nat /\ nth j h 0 = x.
Proof.
  intros Hb H. apply (In_nth _ _ 0) in H as (i & Hi & E). rewrite chunk_len in Hi.
  rewrite chunk_nth in E by lia. exists (k * b + i)%nat. split; [lia|]. split; [|exact E].
  rewrite Nat.add_comm, Nat.div_add by lia. rewrite Nat.div_small by lia. reflexivity.
Qed.
Lemma In_chunk h b j : (0 < b)%nat -> (j < length h)%nat -> In (nth j h 0) (chunk h b (j / b)).
Proof.
  intros Hb Hj. pose proof (Nat.div_mod j b ltac:(lia)). pose proof (Nat.mod_upper_bound j b ltac:(lia)).
  replace (nth j h 0) with (nth (j mod b) (chunk h b (j / b)) 0).
  - apply nth_In. rewrite chunk_len. lia.
  - rewrite chunk_nth by lia. f_equal. lia.
Qed.

Lemma nonzero_count_0 c : nonzero_count c = 0 <-> forall x, In x c -> x = 0.
Proof.
  unfold nonzero_count. split.
  - intros H x Hx. destruct (x =? 0) eqn:E; [now apply Z.eqb_eq|].
    assert (I : In x (filter (fun x => negb (x =? 0)) c)) by (apply filter_In; split; [exact Hx|now rewrite E]).
    destruct (filter _ c); [destruct I|simpl in H; lia].
  - intros H. rewrite filter_none; [reflexivity|]. intros x Hx. rewrite (H x Hx). reflexivity.
Qed.

Lemma sumZ_nonneg c : (forall x, In x c -> 0 <= x) -> 0 <= sumZ c.
Proof.
  induction c as [|x c IH]; intros H; [simpl; lia|]. unfold sumZ; cbn [fold_right]; fold (sumZ c).
  pose proof (H x (or_introl eq_refl)). pose proof (IH (fun y Hy => H y (or_intror Hy))). lia.
Qed.
Lemma sumZ_pos c x : (forall y, In y c -> 0 <= y) -> In x c -> 0 < x -> 0 < sumZ c.
Proof.
  induction c as [|z c IH]; intros H I P; [destruct I|]. unfold sumZ; cbn [fold_right]; fold (sumZ c).
  pose proof (H z (or_introl eq_refl)). pose proof (sumZ_nonneg c (fun y Hy => H y (or_intror Hy))).
  destruct I as [-> | I]; [lia|]. pose proof (IH (fun y Hy => H y (or_intror Hy)) I P). lia.
Qed.

Lemma kl_reduce_ok B T h : (0 < B)%nat -> (0 < T)%nat -> (length h <= B)%nat ->
  kl_reduce B T h = Ok (concat (map (fun i => expand_chunk (chunk h (ceil_div B T) i)) (seq 0 T))).
Proof.
  intros HB HT HL. unfold kl_reduce. assert ((T =? 0)%nat = false) as -> by (apply Nat.eqb_neq; lia).
  cbn zeta. rewrite chunks_length by apply expand_length. pose proof (group_covers B T HT).
  rewrite Nat.min_r by lia. rewrite Nat.eqb_refl. reflexivity.
Qed.

(** Every entry of the result: NaN in an all-zero group; otherwise 0 where the histogram is 0, and
    the mean of the non-zero entries of the group, hence one common positive value, elsewhere. *)
Theorem C29_reduce : forall B T h, (0 < B)%nat -> (0 < T)%nat -> (length h <= B)%nat -> (forall x, In x h -> 0 <= x) ->
  let b := group_size B T in
  exists r, kl_reduce B T h = Ok r /\ length r = length h /\
  forall j, (j < length h)%nat ->
    ((forall j', (j' < length h)%nat -> same_group b j j' -> nth j' h 0 = 0) -> nth j r None = None) /\
    (forall j', (j' < length h)%nat -> same_group b j j' -> nth j' h 0 <> 0 -> nth j h 0 = 0 -> is_value (nth j r None) 0) /\
    (nth j h 0 <> 0 -> exists v, (0 < v)%Q /\ is_value (nth j r None) v /\
       forall j', (j' < length h)%nat -> same_group b j j' -> nth j' h 0 <> 0 -> is_value (nth j' r None) v).
Proof.
  intros B T h HB HT HL NN b. unfold b. rewrite <- (ceil_div_group B T HT). clear b.
  pose proof (group_pos B T HB HT) as GP. pose proof (group_covers B T HT) as GC.
  eexists. split; [apply kl_reduce_ok; assumption|]. set (b := ceil_div B T) in *.
  split; [rewrite chunks_length by apply expand_length; lia|].
  assert (AT : forall j, (j < length h)%nat ->
     nth j (concat (map (fun i => expand_chunk (chunk h b i)) (seq 0 T))) None =
     (let c := chunk h b (j / b) in if nonzero_count c =? 0 then None
      else Some (inject_Z (if (nth j h 0 =? 0)%Z then 0%Z else 1%Z) * (inject_Z (sumZ c) / inject_Z (nonzero_count c)))%Q)).
  { intros j Hj. rewrite chunks_nth by (try apply expand_length; lia). cbn zeta.
    pose proof (Nat.div_mod j b ltac:(lia)) as DM. pose proof (Nat.mod_upper_bound j b ltac:(lia)) as MU.
    unfold expand_chunk. set (c := chunk h b (j / b)).
    assert (LC : (j mod b < length c)%nat) by (unfold c; rewrite chunk_len; lia).
    destruct (nonzero_count c =? 0).
    - clear. generalize (j mod b)%nat. induction c; intros [|i]; cbn; auto.
    - match goal with |- nth _ (map ?g _) _ = _ => rewrite (nth_indep _ None (g 0%Z)) by (rewrite map_length; exact LC); rewrite (map_nth g) end.
      assert (EN : nth (j mod b) c 0 = nth j h 0).
      { unfold c. rewrite chunk_nth by lia. f_equal. lia. }
      rewrite EN. reflexivity. }
  intros j Hj. rewrite (AT j Hj). cbn zeta. set (c := chunk h b (j / b)).
  assert (NZ : forall j', (j' < length h)%nat -> same_group b j j' -> nth j' h 0 <> 0 -> (nonzero_count c =? 0) = false).
  { intros j' Hj' SG N. apply Z.eqb_neq. intros C. apply N. apply (proj1 (nonzero_count_0 c) C).
    unfold c. rewrite SG. apply In_chunk; assumption. }
  split; [|split].
  - intros H. assert ((nonzero_count c =? 0) = true) as ->; [|reflexivity]. apply Z.eqb_eq, nonzero_count_0.
    intros x Hx. apply chunk_In in Hx as (j' & A & B' & <-); [|exact GP]. apply H; [exact A|]. unfold same_group. lia.
  - intros j' Hj' SG N Z0. rewrite (NZ j' Hj' SG N), Z0. cbn [Z.eqb].
    eexists. split; [reflexivity|]. change (inject_Z 0) with 0%Q. ring.
  - intros N. rewrite (NZ j Hj eq_refl N). apply Z.eqb_neq in N. rewrite N. apply Z.eqb_neq in N.
    set (v := (inject_Z (sumZ c) / inject_Z (nonzero_count c))%Q).
    assert (VP : (0 < v)%Q).
    { unfold v. assert (0 < nonzero_count c).
      { pose proof (NZ j Hj eq_refl N) as X. apply Z.eqb_neq in X. unfold nonzero_count in *. lia. }
      assert (IC : forall y, In y c -> 0 <= y).
      { intros y Hy. apply chunk_In in Hy as (j' & A & _ & <-); [|exact GP]. apply NN, nth_In, A. }
      assert (IJ : In (nth j h 0) c) by (apply In_chunk; assumption).
      assert (0 < sumZ c) by (apply (sumZ_pos c (nth j h 0) IC IJ); pose proof (IC _ IJ); lia).
      apply Qlt_shift_div_l; [change 0%Q with (inject_Z 0); apply (proj1 (Zlt_inj _ _)); assumption|].
      rewrite Qmult_0_l. change 0%Q with (inject_Z 0); apply (proj1 (Zlt_inj _ _)); assumption. }
    exists v. split; [exact VP|]. split.
    + eexists. split; [reflexivity|]. change (inject_Z 1) with 1%Q. ring.
    + intros j' Hj' SG N'. rewrite (AT j' Hj'). cbn zeta. rewrite <- SG. fold c. rewrite (NZ j Hj eq_refl N).
      apply Z.eqb_neq in N'. rewrite N'. eexists. split; [reflexivity|]. fold v. change (inject_Z 1) with 1%Q. ring.
Qed.

(** Mass is preserved when no group is all zero. *)
Lemma expand_sum c : nonzero_count c <> 0 -> is_value (sum_nan (expand_chunk c)) (inject_Z (sumZ c)).
Proof.
  intros N. unfold expand_chunk. apply Z.eqb_neq in N. rewrite N. apply Z.eqb_neq in N.
  set (v := (inject_Z (sumZ c) / inject_Z (nonzero_count c))%Q).
  assert (A : forall l, is_value (sum_nan (map (fun x => Some (inject_Z (if (x =? 0)%Z then 0%Z else 1%Z) * v)%Q) l)) (inject_Z (nonzero_count l) * v)).
  { induction l as [|x l IH]; [exists 0%Q; split; [reflexivity|]; change (inject_Z (nonzero_count [])) with 0%Q; ring|].
    cbn [map sum_nan fold_right]. destruct IH as (u & E & IH). unfold sum_nan in E. rewrite E.
    eexists. split; [reflexivity|]. rewrite IH. unfold nonzero_count. cbn [filter].
    destruct (x =? 0); cbn [negb length].
    - change (inject_Z 0) with 0%Q. ring.
    - rewrite Nat2Z.inj_succ. unfold Z.succ. rewrite inject_Z_plus. change (inject_Z 1) with 1%Q. ring. }
  destruct (A c) as (u & E & EU). exists u. split; [exact E|]. rewrite EU. unfold v. field.
  intros C. apply N. apply (inject_Z_injective (nonzero_count c) 0). exact C.
Qed.
Lemma sum_nan_app a b x y : is_value (sum_nan a) x -> is_value (sum_nan b) y -> is_value (sum_nan (a ++ b)) (x + y).
Proof.
  revert x. induction a as [|o a IH]; intros x (u & E & EU) (w & F & FW).
  - cbn in E. assert (u = 0%Q) by congruence. subst u. exists w. split; [exact F|]. lra.
  - cbn [app sum_nan fold_right] in *. fold (sum_nan a) in E. fold (sum_nan (a ++ b)).
    destruct o as [v|]; [|discriminate]. destruct (sum_nan a) as [z|] eqn:Z; [|discriminate].
    assert (u = v + z)%Q by congruence. subst u.
    destruct (IH z) as (t & T1 & T2); [exists z; split; [reflexivity|reflexivity]|exists w; split; assumption|].
    rewrite T1. eexists. split; [reflexivity|]. lra.
Qed.
Theorem C29_mass_preserved : forall B T h, (0 < B)%nat -> (0 < T)%nat -> (length h <= B)%nat ->
  let b := group_size B T in
  (forall j, (j < length h)%nat -> exists j', (j' < length h)%nat /\ same_group b j j' /\ nth j' h 0 <> 0) ->
  exists r, kl_reduce B T h = Ok r /\ is_value (sum_nan r) (inject_Z (sumZ h)).
Proof.
  intros B T h HB HT HL b. unfold b. rewrite <- (ceil_div_group B T HT). clear b.
  pose proof (group_pos B T HB HT) as GP. pose proof (group_covers B T HT) as GC.
  intros H. eexists. split; [apply kl_reduce_ok; assumption|]. set (b := ceil_div B T) in *.
  assert (G : forall T h, (forall k, (k < T)%nat -> chunk h b k = [] \/ nonzero_count (chunk h b k) <> 0) ->
     is_value (sum_nan (concat (map (fun i => expand_chunk (chunk h b i)) (seq 0 T)))) (inject_Z (sumZ (firstn (T * b) h)))).
  { clearbody b. clear. intros T; induction T as [|T IH]; intros h H; [exists 0%Q; split; reflexivity|].
    rewrite <- cons_seq, <- seq_shift, map_cons, map_map. cbn [concat].
    rewrite (map_ext _ (fun i => expand_chunk (chunk (skipn b h) b i))) by (intros; now rewrite chunk_S).
    assert (FS : firstn (S T * b) h = firstn b h ++ firstn (T * b) (skipn b h)).
    { rewrite <- (firstn_skipn b (firstn (S T * b) h)). rewrite firstn_firstn, firstn_skipn_comm. f_equal; f_equal; lia. }
    assert (SUM : (inject_Z (sumZ (firstn (S T * b) h)) == inject_Z (sumZ (chunk h b 0)) + inject_Z (sumZ (firstn (T * b) (skipn b h))))%Q).
    { rewrite FS, sumZ_app, inject_Z_plus. reflexivity. }
    destruct (sum_nan_app (expand_chunk (chunk h b 0)) (concat (map (fun i => expand_chunk (chunk (skipn b h) b i)) (seq 0 T)))
       (inject_Z (sumZ (chunk h b 0))) (inject_Z (sumZ (firstn (T * b) (skipn b h))))) as (u & E & EU).
    - destruct (H 0%nat ltac:(lia)) as [-> | N]; [exists 0%Q; split; reflexivity|now apply expand_sum].
    - apply IH. intros k Hk. rewrite <- chunk_S. apply H. lia.
    - exists u. split; [exact E|]. rewrite EU, SUM. reflexivity. }
  specialize (G T h). rewrite firstn_all2 in G by lia. apply G. intros k Hk.
  destruct (chunk h b k) as [|x c] eqn:C; [now left|right]. rewrite <- C.
  assert (LT : (k * b < length h)%nat).
  { assert (L : length (chunk h b k) <> 0%nat) by (rewrite C; discriminate). rewrite chunk_len in L. lia. }
  destruct (H (k * b)%nat LT) as (j' & J1 & J2 & J3). intros N. apply J3. apply (proj1 (nonzero_count_0 _) N).
  unfold same_group in J2. rewrite Nat.div_mul in J2 by lia. rewrite J2. apply In_chunk; assumption.
Qed.
Example C29_example : group_size 8 2 = 4%nat /\ exists r, kl_reduce 8 2 [1; 0; 2; 3; 5; 3; 1; 7] = Ok r /\
  Forall2 (fun x v => is_value x v) r [2; 0; 2; 2; 4; 4; 4; 4]%Q.
Proof.
  split; [reflexivity|]. eexists. split; [vm_compute; reflexivity|].
  repeat (constructor; [eexists; split; [reflexivity|reflexivity]|]). constructor.
Qed.

(** ** C55: the KL threshold *)
Lemma py_slice_all {A} (l : list A) : py_slice l (Some 0) (Some (Z.of_nat (length l))) = l.
Proof.
  pose proof (py_slice_nat l 0 (length l) ltac:(lia)) as E. change (Z.of_nat 0) with 0 in E. rewrite E.
  rewrite Nat.sub_0_r. cbn [skipn]. apply firstn_all.
Qed.
Lemma clone_whole d w start stop : wf d w -> d_partial d = true -> (start < edge d 1)%Q ->
  ((edge d (nbins d) <= stop)%Q \/ (stop < edge d 0)%Q) -> clone d start stop = Ok d.
Proof.
  intros W P HS HT. pose proof (wf_len _ _ W) as L. pose proof (wf_ne _ _ W) as NE.
  unfold clone. rewrite P. fold (nbins d). cbn zeta.
  assert (last_le start (d_edges d) 0 0 = 0) as ->.
  { destruct (last_le_spec start (d_edges d) 0 0) as [[_ ->]|(k & K1 & -> & K2 & K3)]; [reflexivity|].
    destruct k as [|k]; [reflexivity|]. exfalso. fold (edge d (S k)) in K2.
    assert (edge d 1 <= edge d (S k))%Q by (apply (edge_mono d w); [exact W|lia]). lra. }
  assert (last_le stop (d_edges d) 0 (Z.of_nat (nbins d)) = Z.of_nat (nbins d)) as ->.
  { destruct (last_le_spec stop (d_edges d) 0 (Z.of_nat (nbins d))) as [[_ ->]|(k & K1 & -> & K2 & K3)]; [reflexivity|].
    fold (edge d k) in K2. destruct HT as [HT|HT].
    - destruct (Nat.eq_dec k (nbins d)) as [-> | N]; [reflexivity|]. exfalso. specialize (K3 (nbins d) ltac:(lia)).
      fold (edge d (nbins d)) in K3. lra.
    - exfalso. assert (edge d 0 <= edge d k)%Q by (apply (edge_mono d w); [exact W|lia]). lra. }
  replace (Z.min (Z.of_nat (nbins d) + 1) (Z.of_nat (nbins d))) with (Z.of_nat (nbins d)) by lia.
  replace (Z.min (Z.of_nat (nbins d) + 1) (Z.of_nat (length (d_edges d)))) with (Z.of_nat (length (d_edges d))) by lia.
  rewrite py_slice_all.
  assert (py_slice (d_hist d) (Some 0) (Some (Z.of_nat (nbins d))) = d_hist d) as -> by apply py_slice_all.
  pose proof (py_index_nth (d_edges d) 0 0%Q ltac:(lia)) as P0. change (Z.of_nat 0) with 0 in P0.
  rewrite P0, (py_index_nth (d_edges d) (nbins d) 0%Q) by lia. cbn [rbind].
  fold (edge d 0) (edge d (nbins d)). rewrite (slice_closed _ _ _ (wf_sorted _ _ W)).
  rewrite filter_all; [rewrite <- P; destruct d; reflexivity|].
  intros x Hx. destruct (wf_in _ _ W x Hx). unfold in_closed. apply andb_true_iff. split; now apply Qle_bool_iff.
Qed.

Lemma first_nan_lt l : forall i k, first_nan l i = Some k -> (i <= k < i + length l)%nat.
Proof.
  induction l as [|[v|] l IH]; intros i k H; cbn in H; [discriminate| |].
  - apply IH in H. cbn. lia.
  - assert (k = i) by congruence. cbn. lia.
Qed.
Lemma argmin_from_lt l : forall i best bv, (best < i)%nat -> (argmin_from l i best bv < i + length l)%nat.
Proof.
  induction l as [|[v|] l IH]; intros i best bv H; cbn [argmin_from length]; [lia| |lia].
  destruct (Qltb v bv).
  - specialize (IH (S i) i v ltac:(lia)). lia.
  - specialize (IH (S i) best bv ltac:(lia)). lia.
Qed.
Lemma argmin_ok l : l <> [] -> exists m, argmin l = Ok m /\ (m < length l)%nat.
Proof.
  intros N. unfold argmin. destruct (first_nan l 0) as [k|] eqn:E.
  - exists k. split; [reflexivity|]. apply first_nan_lt in E. lia.
  - destruct l as [|[v|] l]; [congruence| |discriminate].
    eexists. split; [reflexivity|]. pose proof (argmin_from_lt l 1 0 v ltac:(lia)). cbn [length]. lia.
Qed.

Lemma normalise_length l : length (normalise l) = length l.
Proof. unfold normalise. destruct (sum_nan l); apply map_length. Qed.
Lemma add_last_length l v : length (add_last l v) = length l.
Proof.
  unfold add_last. rewrite <- (rev_length l). destruct (rev l) as [|x r]; [reflexivity|].
  rewrite rev_length. reflexivity.
Qed.
(** The optimizer always computes some index m below B - T and slices up to (m + 1/2) bins from zero. *)
Lemma kl_trim_form kl B T d d1 b : (0 < T < B)%nat -> mk_dist (d_data d) B true = Ok d1 -> get_bin_size d1 = Ok b ->
  exists m, (m < B - T)%nat /\ kl_trim kl B T d = dist_slice d1 None (Some ((inject_Z (Z.of_nat m) + (1#2)) * b)%Q).
Proof.
  intros HT E BS. unfold kl_trim. rewrite E. cbn [rbind].
  destruct (mk_dist_wf (d_data d) B true ltac:(lia)) as (d2 & E' & _ & _ & N & _). rewrite E in E'.
  assert (d2 = d1) by congruence. subst d2.
  assert (M : exists divs, mapM (kl_step kl B T (d_hist d1)) (seq T (B - T)) = Ok divs /\ length divs = (B - T)%nat).
  { assert (STEP : forall i, In i (seq T (B - T)) -> exists v, kl_step kl B T (d_hist d1) i = Ok v).
    { intros i Hi. apply in_seq in Hi. unfold kl_step. assert ((i =? 0)%nat = false) as -> by (apply Nat.eqb_neq; lia).
      unfold nbins in N. rewrite kl_reduce_ok by (try rewrite firstn_length; lia). cbn [rbind].
      rewrite !normalise_length, map_length, add_last_length.
      rewrite chunks_length by apply expand_length. rewrite firstn_length.
      pose proof (group_covers B T ltac:(lia)). rewrite (Nat.min_r (T * _)) by lia. rewrite Nat.eqb_refl. eauto. }
    revert STEP. pose proof (seq_length (B - T) T) as LSEQ. revert LSEQ. generalize (seq T (B - T)) as l. intros l LSEQ STEP.
    assert (X : exists divs, mapM (kl_step kl B T (d_hist d1)) l = Ok divs).
    { clear LSEQ. induction l as [|i l IH]; [eexists; reflexivity|]. destruct (STEP i (or_introl eq_refl)) as (v & Ev).
      destruct IH as (vs & Evs); [intros j Hj; apply STEP; now right|]. cbn [mapM]. rewrite Ev. cbn [rbind]. rewrite Evs. eexists; reflexivity. }
    destruct X as (divs & X). exists divs. split; [exact X|]. apply mapM_length in X. rewrite X. apply LSEQ. }
  destruct M as (divs & -> & LD). cbn [rbind].
  destruct (argmin_ok divs) as (m & -> & LM); [intros ->; cbn in LD; lia|]. cbn [rbind]. rewrite BS. cbn [rbind].
  exists m. split; [lia|reflexivity].
Qed.

(** slices with no lower bound *)
Lemma slice_upto d w lo stop : wf d w -> d_partial d = true -> get_min d = Ok lo ->
  (Qabs (lo - stop) < w)%Q /\ dist_slice d None (Some stop) = mk_dist (filter (in_closed lo stop) (d_data d)) 1 true \/
  (w <= Qabs (lo - stop))%Q /\ dist_slice d None (Some stop) = clone d lo stop.
Proof.
  intros W P G. unfold dist_slice. rewrite G. cbn [rbind].
  destruct (bin_size_wf d w W) as (b & -> & Eb). cbn [rbind].
  destruct (Qltb (Qabs (lo - stop)) b) eqn:E.
  - left. apply Qltb_lt in E. split; [lra|]. now rewrite (slice_closed _ _ _ (wf_sorted _ _ W)).
  - right. apply Qltb_ge in E. split; [lra|reflexivity].
Qed.
Lemma inj_pos n : (0 < n)%nat -> (0 < inject_Z (Z.of_nat n))%Q.
Proof. intros H. change 0%Q with (inject_Z 0). apply (proj1 (Zlt_inj _ _)). lia. Qed.
Lemma inj_le a b : (a <= b)%nat -> (inject_Z (Z.of_nat a) <= inject_Z (Z.of_nat b))%Q.
Proof. intros H. apply (proj1 (Zle_inj _ _)). lia. Qed.

(** The starting point shared by the three theorems: the distribution is re-binned and the kept part is
    the slice up to (m + 1/2) * bin width, measured from zero. *)
Lemma kl_start kl B T d x y : (0 < T < B)%nat -> In x (d_data d) -> In y (d_data d) -> (x < y)%Q ->
  exists d1 lo hi w m b, mk_dist (d_data d) B true = Ok d1 /\ wf d1 w /\ d_partial d1 = true /\ nbins d1 = B /\
    d_data d1 = sortQ (d_data d) /\
    get_min d1 = Ok lo /\ get_max d1 = Ok hi /\ (edge d1 0 == lo)%Q /\ (edge d1 B == hi)%Q /\
    (forall z, In z (d_data d) -> (lo <= z <= hi)%Q) /\ (exists z, In z (d_data d) /\ (lo == z)%Q) /\ (exists z, In z (d_data d) /\ (hi == z)%Q) /\
    (m < B - T)%nat /\ (b == w)%Q /\ kl_trim kl B T d = dist_slice d1 None (Some ((inject_Z (Z.of_nat m) + (1#2)) * b)%Q).
Proof.
  intros HT Hx Hy L. destruct (fresh_range (d_data d) B true x y ltac:(lia) Hx Hy L)
    as (d1 & lo & hi & E & W & D & N & P & G1 & G2 & E0 & En & R1 & R2 & R3).
  destruct (bin_size_wf _ _ W) as (b & BS & Eb).
  destruct (kl_trim_form kl B T d d1 b HT E BS) as (m & M1 & M2).
  exists d1, lo, hi, ((snd (hist_range (d_data d)) - fst (hist_range (d_data d))) / inject_Z (Z.of_nat B))%Q, m, b.
  tauto.
Qed.

(** Non-positive data (weights, pre-activations of a dead unit) is never trimmed, whatever the divergence. *)
Theorem C55_negative_not_trimmed : forall kl B T d x y, (0 < T < B)%nat -> In x (d_data d) -> In y (d_data d) -> (x < y)%Q ->
  (forall z, In z (d_data d) -> (z <= 0)%Q) ->
  exists d1, mk_dist (d_data d) B true = Ok d1 /\ kl_trim kl B T d = Ok d1.
Proof.
  intros kl B T d x y HT Hx Hy L NP.
  destruct (kl_start kl B T d x y HT Hx Hy L) as (d1 & lo & hi & w & m & b & E & W & P & N & D & G1 & G2 & E0 & En & R1 & _ & (zh & Z1 & Z2) & M & Eb & ->).
  exists d1. split; [exact E|]. set (thr := ((inject_Z (Z.of_nat m) + (1#2)) * b)%Q).
  pose proof (wf_w _ _ W) as WP. pose proof (NP zh Z1) as HN.
  assert (0 <= inject_Z (Z.of_nat m))%Q by (change 0%Q with (inject_Z 0); apply (proj1 (Zle_inj _ _)); lia).
  assert (TP : (0 < thr)%Q) by (unfold thr; nra).
  pose proof (wf_edge _ _ W B ltac:(lia)) as EB. pose proof (edge_succ d1 w 0 W ltac:(lia)) as E1.
  assert (1 <= inject_Z (Z.of_nat B))%Q by (apply (inj_le 1); lia).
  destruct (slice_upto d1 w lo thr W P G1) as [[C _]|[_ ->]].
  - exfalso. rewrite Qabs_neg in C by nra. nra.
  - apply (clone_whole d1 w); [exact W|exact P|lra|]. left. rewrite N. lra.
Qed.

(** Positive data that starts far from zero: the threshold falls below every sample, so the result is
    either untouched or the empty distribution, which reports the range [0, 1]. *)
Theorem C55_far_positive : forall kl B T d x y, (0 < T < B)%nat -> In x (d_data d) -> In y (d_data d) -> (x < y)%Q ->
  (forall z z', In z (d_data d) -> In z' (d_data d) -> (0 < z)%Q /\ (z <= 2 * z')%Q) ->
  exists d', kl_trim kl B T d = Ok d' /\
    (mk_dist (d_data d) B true = Ok d' \/ (d_data d' = [] /\ reports_eq d' 0 1)).
Proof.
  intros kl B T d x y HT Hx Hy L NP.
  destruct (kl_start kl B T d x y HT Hx Hy L) as (d1 & lo & hi & w & m & b & E & W & P & N & D & G1 & G2 & E0 & En & R1 & (zl & Y1 & Y2) & (zh & Z1 & Z2) & M & Eb & ->).
  set (thr := ((inject_Z (Z.of_nat m) + (1#2)) * b)%Q).
  pose proof (wf_w _ _ W) as WP. destruct (NP zh zl Z1 Y1) as [H1 H2]. destruct (NP zl zl Y1 Y1) as [H3 _].
  pose proof (wf_edge _ _ W B ltac:(lia)) as EB.
  assert (MM : (inject_Z (Z.of_nat m) + 1 <= inject_Z (Z.of_nat B))%Q).
  { assert (X := inj_le (m + 1) B ltac:(lia)). rewrite Nat2Z.inj_add, inject_Z_plus in X. exact X. }
  assert (TL : (thr < lo)%Q).
  { assert (thr < inject_Z (Z.of_nat B) * w)%Q by (unfold thr; rewrite Eb; apply Qmult_lt_compat_r; lra). lra. }
  destruct (slice_upto d1 w lo thr W P G1) as [[_ ->]|[_ ->]].
  - rewrite filter_none.
    + eexists. split; [reflexivity|]. right. split; [reflexivity|]. exists 0%Q, 1%Q. split; [split; reflexivity|split; reflexivity].
    + intros z _. unfold in_closed. destruct (Qle_bool lo z) eqn:A; [|reflexivity]. apply Qle_bool_iff in A.
      cbn [andb]. apply Qle_bool_false. lra.
  - exists d1. split; [|now left]. pose proof (edge_succ d1 w 0 W ltac:(lia)) as E1.
    apply (clone_whole d1 w); [exact W|exact P|lra|]. right. lra.
Qed.

(** Data starting at zero (after a ReLU): whatever the divergence prefers, the top T of the B bins are
    always dropped, because the index of the best candidate is not offset by T. *)
Theorem C55_top_always_dropped : forall kl B T d hi, (0 < T < B)%nat -> In 0%Q (d_data d) -> In hi (d_data d) -> (0 < hi)%Q ->
  (forall z, In z (d_data d) -> (0 <= z <= hi)%Q) ->
  exists d', kl_trim kl B T d = Ok d' /\
    forall z, In z (d_data d') -> (z <= hi * (inject_Z (Z.of_nat (B - T)) / inject_Z (Z.of_nat B)))%Q.
Proof.
  intros kl B T d h HT Hx Hy L NP.
  destruct (kl_start kl B T d 0%Q h HT Hx Hy L) as (d1 & lo & hi & w & m & b & E & W & P & N & D & G1 & G2 & E0 & En & R1 & (zl & Y1 & Y2) & (zh & Z1 & Z2) & M & Eb & ->).
  set (thr := ((inject_Z (Z.of_nat m) + (1#2)) * b)%Q).
  pose proof (wf_w _ _ W) as WP. pose proof (NP zl Y1). pose proof (NP zh Z1). pose proof (R1 _ Hx). pose proof (R1 _ Hy).
  assert (LO : (lo == 0)%Q) by lra. assert (HI : (hi == h)%Q) by lra.
  pose proof (wf_edge _ _ W B ltac:(lia)) as EB. pose proof (inj_pos B ltac:(lia)) as BP.
  assert (EW : (h * (inject_Z (Z.of_nat (B - T)) / inject_Z (Z.of_nat B)) == inject_Z (Z.of_nat (B - T)) * w)%Q).
  { assert (HH : (h == inject_Z (Z.of_nat B) * w)%Q) by lra. rewrite HH. field. lra. }
  assert (MM : (inject_Z (Z.of_nat m) + 1 <= inject_Z (Z.of_nat (B - T)))%Q).
  { assert (X := inj_le (m + 1) (B - T) ltac:(lia)). rewrite Nat2Z.inj_add, inject_Z_plus in X. exact X. }
  assert (M0 : (0 <= inject_Z (Z.of_nat m))%Q) by (change 0%Q with (inject_Z 0); apply (proj1 (Zle_inj _ _)); lia).
  assert (TP : (0 < thr)%Q) by (unfold thr; nra).
  assert (TL : (thr <= inject_Z (Z.of_nat (B - T)) * w)%Q) by (unfold thr; rewrite Eb; apply Qmult_le_compat_r; lra).
  assert (MB : (inject_Z (Z.of_nat m) + 1 <= inject_Z (Z.of_nat B))%Q).
  { assert (X := inj_le (m + 1) B ltac:(lia)). rewrite Nat2Z.inj_add, inject_Z_plus in X. exact X. }
  assert (TE : (edge d1 0 <= thr)%Q) by lra.
  destruct (slice_upto d1 w lo thr W P G1) as [[_ ->]|[_ ->]].
  - destruct (mk_dist_wf (filter (in_closed lo thr) (d_data d1)) 1 true ltac:(lia)) as (d' & E' & _ & D' & _).
    exists d'. split; [exact E'|]. intros z Hz. rewrite D' in Hz.
    apply (Permutation.Permutation_in _ (Permutation.Permutation_sym (sortQ_perm _))) in Hz.
    apply filter_In in Hz as [_ Hz]. unfold in_closed in Hz. apply andb_true_iff in Hz as [_ Hz]. apply Qle_bool_iff in Hz. lra.
  - assert (S1 : (lo < edge d1 (nbins d1))%Q) by (rewrite N; lra).
    destruct (clone_wf d1 w lo thr W P ltac:(lra) TE S1) as (a & A & d' & A1 & E' & _ & _ & _ & D' & _ & _ & _ & _ & _ & A2).
    exists d'. split; [exact E'|]. intros z Hz. rewrite D' in Hz. apply filter_In in Hz as [_ Hz].
    unfold in_closed in Hz. apply andb_true_iff in Hz as [_ Hz]. apply Qle_bool_iff in Hz. rewrite EW.
    pose proof (wf_edge _ _ W (A - 1) ltac:(lia)) as EA1. pose proof (wf_edge _ _ W A ltac:(lia)) as EA.
    assert (AB : (A - 1 <= m)%nat).
    { destruct (Nat.le_gt_cases (A - 1) m) as [X|X]; [exact X|exfalso].
      assert (Y := inj_le (m + 1) (A - 1) ltac:(lia)). rewrite Nat2Z.inj_add, inject_Z_plus in Y. change (inject_Z (Z.of_nat 1)) with 1%Q in Y.
      assert (thr < inject_Z (Z.of_nat (A - 1)) * w)%Q by (unfold thr; rewrite Eb; apply Qmult_lt_compat_r; lra). lra. }
    assert (inject_Z (Z.of_nat A) * w <= inject_Z (Z.of_nat (B - T)) * w)%Q by (apply Qmult_le_compat_r; [apply inj_le; lia|lra]).
    lra.
Qed.
(** With as many target bins as bins, trimming raises. *)
Theorem C55_no_candidates_raises : forall kl B T d, (0 < B <= T)%nat -> kl_trim kl B T d = Err EValueError.
Proof.
  intros kl B T d H. unfold kl_trim. destruct (mk_dist_wf (d_data d) B true ltac:(lia)) as (d1 & -> & _). cbn [rbind].
  replace (B - T)%nat with 0%nat by lia. reflexivity.
Qed.

(** examples: the hypotheses of the three theorems are met by concrete data *)
Example C55_negative_example : exists d, mk_dist [-4; -3; -1; 0]%Q 8 true = Ok d /\ In (-4)%Q (d_data d) /\ In 0%Q (d_data d) /\
  (forall z, In z (d_data d) -> (z <= 0)%Q).
Proof.
  assert (exists d, mk_dist [-4; -3; -1; 0]%Q 8 true = Ok d /\ d_data d = [-4; -3; -1; 0]%Q) as (d & E & D) by (eexists; split; reflexivity).
  exists d. rewrite D. split; [exact E|]. split; [now left|]. split; [cbn; tauto|]. intros z [<- | [<- | [<- | [<- | []]]]]; lra.
Qed.
Example C55_positive_example : exists d, mk_dist [10; 11; 13; 18]%Q 8 true = Ok d /\
  (forall z z', In z (d_data d) -> In z' (d_data d) -> (0 < z)%Q /\ (z <= 2 * z')%Q).
Proof.
  assert (exists d, mk_dist [10; 11; 13; 18]%Q 8 true = Ok d /\ d_data d = [10; 11; 13; 18]%Q) as (d & E & D) by (eexists; split; reflexivity).
  exists d. rewrite D. split; [exact E|].
  intros z z' [<- | [<- | [<- | [<- | []]]]] [<- | [<- | [<- | [<- | []]]]]; lra.
Qed.

Lemma nth_map_lt {A C} (f : A -> C) l i da dc : (i < length l)%nat -> nth i (map f l) dc = f (nth i l da).
Proof. intros H. rewrite (nth_indep (map f l) dc (f da)) by (now rewrite map_length). apply map_nth. Qed.
(** What the divergence is computed between, for every candidate number i of bins kept.  The reference is the first i bins with all the
    samples above them added to the last of them, as fractions of ALL the samples; the candidate is the reduced histogram of the first i
    bins, as fractions of its own total; both have i entries.  If the histogram is empty the reference is NaN everywhere, and if a group of
    the candidate is empty (its reduction is NaN there) the whole candidate is. *)
Lemma normalise_value l s j v : is_value (sum_nan l) s -> ~ (s == 0)%Q -> is_value (nth j l None) v -> is_value (nth j (normalise l) None) (v / s).
Proof.
  intros (u & U & EU) NZ (x & X & EX). unfold normalise. rewrite U.
  assert (QB : Qeq_bool u 0 = false).
  { destruct (Qeq_bool u 0) eqn:Z; [|reflexivity]. apply Qeq_bool_iff in Z. exfalso. apply NZ. now rewrite <- EU. }
  assert (L : (j < length l)%nat).
  { destruct (Nat.lt_ge_cases j (length l)) as [H|H]; [exact H|]. rewrite nth_overflow in X by exact H. discriminate. }
  rewrite (nth_map_lt _ l j None) by exact L. rewrite QB, X. cbn [option_map]. eexists. split; [reflexivity|]. rewrite EX, EU. reflexivity.
Qed.
Lemma normalise_none l j : sum_nan l = None \/ is_value (sum_nan l) 0 -> nth j (normalise l) None = None.
Proof.
  intros H. destruct (Nat.lt_ge_cases j (length l)) as [L|L].
  2:{ apply nth_overflow. now rewrite normalise_length. }
  unfold normalise. destruct H as [-> | (u & -> & E)]; [now rewrite (nth_map_lt _ l j None) by exact L|].
  rewrite (nth_map_lt _ l j None) by exact L. apply Qeq_bool_iff in E. now rewrite E.
Qed.
Lemma sum_nan_counts l : is_value (sum_nan (map (fun x => Some (inject_Z x)) l)) (inject_Z (sumZ l)).
Proof.
  induction l as [|x l IH]; [exists 0%Q; split; reflexivity|]. cbn [map]. destruct IH as (u & U & E).
  unfold sum_nan in *. cbn [fold_right]. rewrite U. eexists. split; [reflexivity|]. unfold sumZ in *. cbn [fold_right].
  rewrite inject_Z_plus, E. reflexivity.
Qed.
Lemma add_last_snoc l x v : add_last (l ++ [x]) v = l ++ [x + v].
Proof. unfold add_last. rewrite rev_app_distr. cbn [rev app]. now rewrite rev_involutive. Qed.
Theorem C55_divergence_arguments : forall kl B T h i, (0 < T <= i)%nat -> (i < B)%nat -> length h = B ->
  exists ref cand c, kl_step kl B T h i = Ok (kl ref cand) /\ kl_reduce B T (firstn i h) = Ok c /\
  length ref = i /\ length cand = i /\
  (sumZ h <> 0 -> forall j, (j < i)%nat -> is_value (nth j ref None)
     (inject_Z (if (S j =? i)%nat then sumZ (skipn j h) else nth j h 0) / inject_Z (sumZ h))) /\
  (sumZ h = 0 -> forall j, nth j ref None = None) /\
  (forall s, is_value (sum_nan c) s -> ~ (s == 0)%Q -> forall j v, is_value (nth j c None) v -> is_value (nth j cand None) (v / s)) /\
  (sum_nan c = None -> forall j, nth j cand None = None).
Proof.
  intros kl B T h i HT HB L. set (ref0 := add_last (firstn i h) (sumZ (skipn i h))).
  assert (LF : length (firstn i h) = i) by (rewrite firstn_length; lia).
  assert (R := kl_reduce_ok B T (firstn i h) ltac:(lia) ltac:(lia) ltac:(lia)).
  remember (concat (map (fun k => expand_chunk (chunk (firstn i h) (ceil_div B T) k)) (seq 0 T))) as c eqn:EC.
  assert (LC : length c = i).
  { rewrite EC. rewrite chunks_length by apply expand_length. pose proof (group_covers B T ltac:(lia)). lia. }
  exists (normalise (map (fun x => Some (inject_Z x)) ref0)), (normalise c), c.
  split.
  { unfold kl_step. assert ((i =? 0)%nat = false) as -> by (apply Nat.eqb_neq; lia). rewrite R. cbn [rbind]. fold ref0.
    rewrite !normalise_length, map_length. unfold ref0. rewrite add_last_length, LF, LC, Nat.eqb_refl. reflexivity. }
  split; [exact R|]. split; [rewrite normalise_length, map_length; unfold ref0; now rewrite add_last_length|].
  split; [now rewrite normalise_length|].
  assert (SH : exists p x, firstn i h = p ++ [x] /\ length p = (i - 1)%nat /\ ref0 = p ++ [x + sumZ (skipn i h)] /\ h = p ++ x :: skipn i h).
  { destruct (@exists_last _ (firstn i h)) as (p & x & E); [intros Z; rewrite Z in LF; cbn in LF; lia|].
    exists p, x. split; [exact E|]. split; [rewrite E, app_length in LF; cbn in LF; lia|]. split; [unfold ref0; rewrite E; apply add_last_snoc|].
    rewrite <- (firstn_skipn i h) at 1. rewrite E, <- app_assoc. reflexivity. }
  destruct SH as (p & x & _ & LP & ER & EH).
  assert (TOT : sumZ ref0 = sumZ h).
  { rewrite ER. rewrite EH at 2. rewrite !sumZ_app. unfold sumZ. cbn [fold_right]. lia. }
  pose proof (sum_nan_counts ref0) as SN. rewrite TOT in SN.
  split; [|split; [|split]].
  - intros NZ j Hj. apply normalise_value; [exact SN| |].
    + intros Q. apply NZ. change 0%Q with (inject_Z 0) in Q. unfold Qeq in Q. cbn in Q. lia.
    + rewrite (nth_map_lt _ ref0 j 0) by (unfold ref0; rewrite add_last_length; lia). eexists. split; [reflexivity|].
      apply inject_Z_injective. rewrite ER. destruct (S j =? i)%nat eqn:E.
      * apply Nat.eqb_eq in E. assert (j = length p) as -> by lia. rewrite app_nth2, Nat.sub_diag by lia. cbn [nth].
        rewrite EH at 2. rewrite skipn_app, skipn_all, Nat.sub_diag. cbn [app skipn]. unfold sumZ. cbn [fold_right]. lia.
      * apply Nat.eqb_neq in E. rewrite EH at 2. rewrite !app_nth1 by lia. reflexivity.
  - intros Z j. apply normalise_none. right. rewrite Z in SN. exact SN.
  - intros s S1 S2 j v V. now apply normalise_value.
  - intros N j. apply normalise_none. now left.
Qed.
Example C55_arguments_example : exists ref cand, kl_step (fun a b => match nth 0 a None, nth 0 b None with Some x, Some y => Some (x - y)%Q | _, _ => None end)
    4 2 [1; 3; 2; 2] 3 = Ok (match nth 0 ref None, nth 0 cand None with Some x, Some y => Some (x - y)%Q | _, _ => None end) /\
  Forall2 (fun x v => is_value x v) ref [1#8; 3#8; 1#2]%Q /\ Forall2 (fun x v => is_value x v) cand [1#3; 1#3; 1#3]%Q.
Proof.
  destruct (C55_divergence_arguments (fun a b => match nth 0 a None, nth 0 b None with Some x, Some y => Some (x - y)%Q | _, _ => None end)
    4 2 [1; 3; 2; 2] 3 ltac:(lia) ltac:(lia) eq_refl) as (ref & cand & c & E & EC & L1 & L2 & A & _ & C & _).
  exists ref, cand. split; [exact E|].
  specialize (A ltac:(discriminate)). vm_compute in EC. injection EC as <-.
  destruct ref as [|r0 [|r1 [|r2 [|r3 ref]]]]; try discriminate L1. destruct cand as [|c0 [|c1 [|c2 [|c3 cand]]]]; try discriminate L2.
  split.
  - constructor; [|constructor; [|constructor; [|constructor]]].
    + destruct (A 0%nat ltac:(lia)) as (u & U1 & U2). exists u. split; [exact U1|rewrite U2; reflexivity].
    + destruct (A 1%nat ltac:(lia)) as (u & U1 & U2). exists u. split; [exact U1|rewrite U2; reflexivity].
    + destruct (A 2%nat ltac:(lia)) as (u & U1 & U2). exists u. split; [exact U1|rewrite U2; reflexivity].
  - assert (S : is_value (sum_nan [Some 2; Some 2; Some 2]%Q) 6) by (eexists; split; reflexivity).
    assert (C' : forall j, (j < 3)%nat -> is_value (nth j [c0; c1; c2] None) (1#3)).
    { intros j Hj. destruct (C 6%Q ltac:(eexists; split; vm_compute; reflexivity) ltac:(discriminate) j 2%Q) as (u & U1 & U2).
      - destruct j as [|[|[|j]]]; [| | |lia]; (eexists; split; [reflexivity|reflexivity]).
      - exists u. split; [exact U1|rewrite U2; reflexivity]. }
    constructor; [exact (C' 0%nat ltac:(lia))|constructor; [exact (C' 1%nat ltac:(lia))|constructor; [exact (C' 2%nat ltac:(lia))|constructor]]].
Qed.

(** ** C56: FixedPercentOptimizer *)
Lemma sorted_nth l : StronglySorted Qle l -> forall i j, (i <= j < length l)%nat -> (nth i l 0 <= nth j l 0)%Q.
Proof.
  induction 1 as [|x l SS IH F]; intros i j H; [cbn in H; lia|]. cbn [length] in H.
  destruct j as [|j]; [assert (i = 0)%nat as -> by lia; apply Qle_refl|].
  destruct i as [|i]; cbn [nth].
  - rewrite Forall_forall in F. apply F, nth_In. lia.
  - apply IH. lia.
Qed.

(** smallest index that leaves at most 1% of the samples below it: ceil ((n - 1) / 100) *)
Definition one_percent_index (n : nat) : nat := Z.to_nat (- (- (Z.of_nat n - 1) / 100)).

Lemma percentile_low a p r : StronglySorted Qle a -> (0 <= p <= 1)%Q -> percentile a p = Ok r ->
  (r <= nth (one_percent_index (length a)) a 0)%Q.
Proof.
  intros SS HP H. unfold percentile in H.
  assert (Qltb p 0 = false) as Z0 by (apply Qltb_ge; lra). assert (Qltb 100 p = false) as Z1 by (apply Qltb_ge; lra).
  rewrite Z0, Z1 in H. cbn [orb] in H. destruct a as [|x0 a']; [discriminate|]. remember (x0 :: a') as a eqn:EA.
  assert (LN : (0 < length a)%nat) by (subst a; cbn; lia). clear EA. cbn zeta in H.
  set (N := (Z.of_nat (length a) - 1)%Z) in *. assert (HN : 0 <= N) by (unfold N; lia).
  set (pos := (p / 100 * inject_Z N)%Q) in *.
  assert (NQ : (0 <= inject_Z N)%Q) by (change 0%Q with (inject_Z 0); apply (proj1 (Zle_inj _ _)); exact HN).
  assert (PB : (0 <= pos <= inject_Z N / 100)%Q).
  { assert (PE : (pos == p * (inject_Z N / 100))%Q) by (unfold pos; field). rewrite PE.
    assert (0 <= inject_Z N / 100)%Q by (apply Qle_shift_div_l; lra). split; nra. }
  set (i := Qfloor pos) in *. pose proof (Qfloor_le pos) as F1. pose proof (Qlt_floor pos) as F2. fold i in F1, F2.
  rewrite inject_Z_plus in F2. change (inject_Z 1) with 1%Q in F2.
  assert (I0 : 0 <= i) by (apply (Qfloor_resp_le 0 pos); lra).
  set (k := - (- N / 100)). assert (K1 : N <= 100 * k /\ 100 * k < N + 100).
  { unfold k. pose proof (Z.div_mod (- N) 100 ltac:(lia)). pose proof (Z.mod_pos_bound (- N) 100 ltac:(lia)). lia. }
  assert (KN : k <= N) by lia.
  assert (KQ : (inject_Z N <= 100 * inject_Z k)%Q).
  { change 100%Q with (inject_Z 100). rewrite <- inject_Z_mult. apply (proj1 (Zle_inj _ _)). lia. }
  assert (N100 : (inject_Z N / 100 <= inject_Z k)%Q) by (apply Qle_shift_div_r; lra).
  assert (IK : i <= k) by (apply (proj2 (Zle_inj _ _)); lra).
  change (one_percent_index (length a)) with (Z.to_nat k).
  set (f := (pos - inject_Z i)%Q) in *. assert (r = nth (Z.to_nat i) a 0 + f * (nth (Nat.min (S (Z.to_nat i)) (length a - 1)) a 0 - nth (Z.to_nat i) a 0))%Q by congruence. subst r. clear H.
  set (x := nth (Z.to_nat i) a 0%Q). set (y := nth (Nat.min (S (Z.to_nat i)) (length a - 1)) a 0%Q).
  assert (FB : (0 <= f < 1)%Q) by (unfold f; lra).
  assert (XY : (x <= y)%Q) by (apply sorted_nth; [exact SS|lia]).
  destruct (Z.eq_dec i k) as [EK|NK].
  - assert (f == 0)%Q as -> by (unfold f; rewrite EK in *; lra). fold k in EK. unfold x. rewrite EK. lra.
  - assert (YK : (y <= nth (Z.to_nat k) a 0)%Q) by (apply sorted_nth; [exact SS|lia]). nra.
Qed.

(** FixedPercentOptimizer(p).trim for p in [0,1]: the percentiles it takes are those of p and 1 - p
    *percent*, so every sample is pulled down to the lowest 1 per cent of the data. *)
Theorem C56_upper_clip : forall p d d', StronglySorted Qle (d_data d) -> (0 <= p <= 1)%Q ->
  fixed_percent_trim p d = Ok d' ->
  length (d_data d') = length (d_data d) /\
  forall x, In x (d_data d') -> (x <= nth (one_percent_index (length (d_data d))) (d_data d) 0)%Q.
Proof.
  intros p d d' SS HP H. unfold fixed_percent_trim in H.
  destruct (percentile (d_data d) p) as [low|] eqn:E1; [cbn [rbind] in H|discriminate].
  destruct (percentile (d_data d) (1 - p)) as [high|] eqn:E2; [cbn [rbind] in H|discriminate].
  apply percentile_low in E2; [|exact SS|lra].
  unfold mk_dist_edges in H. destruct (negb (increasing (d_edges d))); [discriminate|]. destruct (_ <? 2)%nat; [discriminate|].
  assert (D : d_data d' = sortQ (map (clip_to low high) (d_data d))) by (apply (f_equal (fun r => match r with Ok e => d_data e | Err _ => [] end)) in H; symmetry; exact H).
  rewrite D. split.
  - rewrite <- (Permutation.Permutation_length (sortQ_perm _)). apply map_length.
  - intros x Hx. apply (Permutation.Permutation_in _ (Permutation.Permutation_sym (sortQ_perm _))) in Hx.
    apply in_map_iff in Hx as (u & <- & _). unfold clip_to. pose proof (Q.le_min_r (Qmax u low) high). lra.
Qed.
(** so with at most 101 samples nothing above the second smallest one survives *)
Theorem C56_second_smallest : forall p d d', StronglySorted Qle (d_data d) -> (2 <= length (d_data d) <= 101)%nat -> (0 <= p <= 1)%Q ->
  fixed_percent_trim p d = Ok d' -> forall x, In x (d_data d') -> (x <= nth 1 (d_data d) 0)%Q.
Proof.
  intros p d d' SS HL HP H x Hx. destruct (C56_upper_clip p d d' SS HP H) as [_ C].
  assert (one_percent_index (length (d_data d)) = 1%nat) as E; [|rewrite <- E; now apply C].
  unfold one_percent_index. change 1%nat with (Z.to_nat 1). f_equal.
  assert (- (Z.of_nat (length (d_data d)) - 1) / 100 = -1); [|lia]. symmetry.
  apply (Z.div_unique_pos _ _ _ (100 - (Z.of_nat (length (d_data d)) - 1))); lia.
Qed.

(** The parameter is not a percentage of 100 either: above 1 the call raises. *)
Theorem C56_above_one_raises : forall p d, (1 < p)%Q -> d_data d <> [] -> fixed_percent_trim p d = Err EValueError.
Proof.
  intros p d HP N. unfold fixed_percent_trim, percentile at 1.
  destruct (d_data d) eqn:E; [congruence|]. rewrite <- E. clear E.
  destruct (Qltb p 0 || Qltb 100 p); [reflexivity|]. cbn [rbind]. unfold percentile.
  assert (Qltb (1 - p) 0 = true) as -> by (apply Qltb_lt; lra). reflexivity.
Qed.

(** The bins are not re-computed, so the reported maximum, which is what the quantizer reads, stays the
    last edge of the original histogram although all the samples have been moved below it. *)
Lemma increasing_wf d w : wf d w -> increasing (d_edges d) = true.
Proof.
  intros W. assert (G : forall l, (forall i, (S i < length l)%nat -> (nth i l 0 <= nth (S i) l 0)%Q) -> increasing l = true).
  { induction l as [|x [|y l] IH]; intros H; [reflexivity|reflexivity|].
    assert (X := H 0%nat ltac:(cbn; lia)). cbn [nth] in X. cbn [increasing]. apply andb_true_iff. split; [now apply Qle_bool_iff|].
    apply IH. intros i Hi. apply (H (S i)). cbn [length] in *. lia. }
  apply G. intros i Hi. rewrite (wf_len _ _ W) in Hi. apply (edge_mono d w i (S i) W). lia.
Qed.
Theorem C56_range_unchanged : forall p a n d d', (2 <= n)%nat -> a <> [] -> mk_dist a n true = Ok d -> (0 <= p <= 1)%Q ->
  fixed_percent_trim p d = Ok d' ->
  (forall x, In x (d_data d') -> (x < nth (n - 1) (d_edges d) 0)%Q) ->
  get_max d' = Ok (last (d_edges d) 0%Q).
Proof.
  intros p a n d d' Hn NE E HP H LT.
  destruct (mk_dist_wf a n true ltac:(lia)) as (d0 & E' & W & D & N & P & E0 & En & HC).
  assert (d0 = d) by congruence. subst d0. clear E'.
  unfold fixed_percent_trim in H.
  destruct (percentile (d_data d) p) as [low|] eqn:E1; [cbn [rbind] in H|discriminate].
  destruct (percentile (d_data d) (1 - p)) as [high|] eqn:E2; [cbn [rbind] in H|discriminate].
  unfold mk_dist_edges in H. rewrite (increasing_wf _ _ W) in H. cbn [negb] in H.
  assert (LE := wf_len _ _ W). rewrite N in LE.
  assert ((length (d_edges d) <? 2)%nat = false) as X by (apply Nat.ltb_ge; lia). rewrite X in H. clear X.
  set (cl := map (clip_to low high) (d_data d)) in *.
  assert (DD : d' = mkdist (sortQ cl) (d_edges d) (map (fun i => Z.of_nat (length (filter (edges_bin_has (d_edges d) i) cl))) (seq 0 (length (d_edges d) - 1))) true) by congruence.
  assert (DE : d_edges d' = d_edges d) by now subst d'.
  assert (HH : nth (n - 1) (d_hist d') 0 = 0 /\ length (d_hist d') = n).
  { subst d'. cbn [d_hist d_data] in *. rewrite map_length, seq_length. split; [|lia].
    rewrite nth_map_seq by lia. rewrite filter_none; [reflexivity|].
    intros x Hx. apply (Permutation.Permutation_in _ (sortQ_perm _)) in Hx. apply LT in Hx.
    unfold edges_bin_has. apply andb_false_iff. left. now apply Qle_bool_false. }
  destruct HH as [HH HL]. unfold get_max, get_bin. cbn [Z.ltb Z.compare]. unfold dist_len. rewrite DE, LE.
  replace (Z.of_nat (S n) - 1 + -1) with (Z.of_nat (n - 1)) by lia. replace (Z.of_nat (n - 1) + 1) with (Z.of_nat n) by lia.
  rewrite (py_index_nth (d_edges d) (n - 1) 0%Q), (py_index_nth (d_edges d) n 0%Q), (py_index_nth (d_hist d') (n - 1) 0) by lia.
  cbn [rbind]. rewrite HH. cbn. rewrite (wf_last_edge _ _ W), N. reflexivity.
Qed.

(** The histogram of the result still counts every sample exactly once: the clipped samples stay between the first and the last edge, and
    a sample on the last edge belongs to the last bin. *)
Lemma percentile_between a p r lo hi : StronglySorted Qle a -> percentile a p = Ok r -> (forall x, In x a -> lo <= x <= hi)%Q -> (lo <= r <= hi)%Q.
Proof.
  intros SS H B. unfold percentile in H. destruct (Qltb p 0 || Qltb 100 p) eqn:PP; [discriminate|].
  apply orb_false_elim in PP as [P0 P1]. apply Qltb_ge in P0. apply Qltb_ge in P1.
  destruct a as [|x0 a']; [discriminate|]. remember (x0 :: a') as a eqn:EA.
  assert (LN : (0 < length a)%nat) by (subst a; cbn; lia). clear EA. cbn zeta in H.
  set (N := (Z.of_nat (length a) - 1)%Z) in *. assert (HN : 0 <= N) by (unfold N; lia).
  set (pos := (p / 100 * inject_Z N)%Q) in *.
  assert (NQ : (0 <= inject_Z N)%Q) by (change 0%Q with (inject_Z 0); apply (proj1 (Zle_inj _ _)); exact HN).
  assert (PB : (0 <= pos <= inject_Z N)%Q).
  { assert (0 <= p / 100 <= 1)%Q by (split; [apply Qle_shift_div_l; lra|apply Qle_shift_div_r; lra]). unfold pos. split; nra. }
  set (i := Qfloor pos) in *. pose proof (Qfloor_le pos) as F1. pose proof (Qlt_floor pos) as F2. fold i in F1, F2.
  rewrite inject_Z_plus in F2. change (inject_Z 1) with 1%Q in F2.
  assert (I0 : 0 <= i) by (apply (Qfloor_resp_le 0 pos); lra).
  assert (IN : i <= N) by (apply (proj2 (Zle_inj _ _)); lra).
  set (f := (pos - inject_Z i)%Q) in *. assert (FB : (0 <= f < 1)%Q) by (unfold f; lra).
  assert (X : (lo <= nth (Z.to_nat i) a 0 <= hi)%Q) by (apply B, nth_In; lia).
  assert (Y : (lo <= nth (Nat.min (S (Z.to_nat i)) (length a - 1)) a 0 <= hi)%Q) by (apply B, nth_In; lia).
  set (x := nth (Z.to_nat i) a 0%Q) in *. set (y := nth (Nat.min (S (Z.to_nat i)) (length a - 1)) a 0%Q) in *.
  assert (r = (x + f * (y - x))%Q) as -> by congruence. split; nra.
Qed.
Lemma edges_mass edges a n : length edges = S n -> (0 < n)%nat -> (forall i, (i < n)%nat -> nth i edges 0 <= nth (S i) edges 0)%Q ->
  (forall x, In x a -> nth 0 edges 0 <= x <= nth n edges 0)%Q ->
  sumZ (map (fun i => Z.of_nat (length (filter (edges_bin_has edges i) a))) (seq 0 n)) = Z.of_nat (length a).
Proof.
  intros L Hn M R. destruct n as [|k]; [lia|]. rewrite seq_S, map_app, sumZ_app. cbn [map Nat.add].
  set (f := fun i => countb (fun x => Qltb x (nth i edges 0%Q)) a).
  assert (A : sumZ (map (fun i => Z.of_nat (length (filter (edges_bin_has edges i) a))) (seq 0 k)) = f k - f 0%nat).
  { rewrite <- sum_telescope. f_equal. apply map_ext_in. intros i Hi. apply in_seq in Hi.
    unfold f. rewrite <- countb_split by (apply M; lia). unfold countb. f_equal. f_equal. apply filter_ext. intros x.
    unfold edges_bin_has, half_open. rewrite L. assert ((S (S i) =? S (S k))%nat = false) as -> by (apply Nat.eqb_neq; lia). reflexivity. }
  rewrite A. assert (F0 : f 0%nat = 0).
  { unfold f, countb. rewrite filter_none; [reflexivity|]. intros x Hx. apply Qltb_ge. apply (R x Hx). }
  rewrite F0. unfold sumZ. cbn [fold_right]. unfold f, countb.
  assert (LEN : forall l, (forall x, In x l -> In x a) ->
    Z.of_nat (length (filter (fun x => Qltb x (nth k edges 0%Q)) l)) +
    Z.of_nat (length (filter (edges_bin_has edges k) l)) = Z.of_nat (length l)).
  { induction l as [|x l IH]; intros HI; [reflexivity|]. cbn [filter length].
    specialize (IH (fun z Hz => HI z (or_intror Hz))). unfold edges_bin_has in *. rewrite L in *. rewrite Nat.eqb_refl in *.
    assert (Qle_bool x (nth (S k) edges 0%Q) = true) as ->.
    { apply Qle_bool_iff. apply (R x). apply HI. now left. }
    rewrite andb_true_r.
    destruct (Qltb x (nth k edges 0%Q)) eqn:X.
    - apply Qltb_lt in X. assert (Qle_bool (nth k edges 0%Q) x = false) as -> by (apply Qle_bool_false; lra).
      cbn [length]. lia.
    - apply Qltb_ge in X. assert (Qle_bool (nth k edges 0%Q) x = true) as -> by (apply Qle_bool_iff; lra).
      cbn [length]. lia. }
  specialize (LEN a (fun _ H => H)). lia.
Qed.
Theorem C56_histogram_mass : forall p a n d d', a <> [] -> (0 < n)%nat -> mk_dist a n true = Ok d -> fixed_percent_trim p d = Ok d' ->
  d_edges d' = d_edges d /\ length (d_hist d') = n /\ sumZ (d_hist d') = Z.of_nat (length a).
Proof.
  intros p a n d d' NE Hn E H. destruct (mk_dist_wf a n true Hn) as (d0 & E' & W & D & N & P & E0 & En & HC).
  assert (d0 = d) by congruence. subst d0. clear E'. pose proof (wf_len _ _ W) as LE. rewrite N in LE.
  unfold fixed_percent_trim in H.
  destruct (percentile (d_data d) p) as [low|] eqn:E1; [cbn [rbind] in H|discriminate].
  destruct (percentile (d_data d) (1 - p)) as [high|] eqn:E2; [cbn [rbind] in H|discriminate].
  pose proof (percentile_between _ _ _ _ _ (wf_sorted _ _ W) E1 (wf_in _ _ W)) as B1.
  pose proof (percentile_between _ _ _ _ _ (wf_sorted _ _ W) E2 (wf_in _ _ W)) as B2.
  unfold mk_dist_edges in H. rewrite (increasing_wf _ _ W) in H. cbn [negb] in H.
  assert ((length (d_edges d) <? 2)%nat = false) as X by (apply Nat.ltb_ge; lia). rewrite X in H. clear X.
  set (cl := map (clip_to low high) (d_data d)) in *.
  assert (DD : d' = mkdist (sortQ cl) (d_edges d) (map (fun i => Z.of_nat (length (filter (edges_bin_has (d_edges d) i) cl))) (seq 0 (length (d_edges d) - 1))) true) by congruence.
  subst d'. cbn [d_edges d_hist]. split; [reflexivity|]. split; [rewrite map_length, seq_length; lia|].
  replace (length (d_edges d) - 1)%nat with n by lia. rewrite (edges_mass (d_edges d) cl n LE Hn).
  - unfold cl. rewrite map_length, D. now rewrite <- (Permutation.Permutation_length (sortQ_perm a)).
  - intros i Hi. apply (edge_mono d _ i (S i) W). lia.
  - intros x Hx. unfold cl in Hx. apply in_map_iff in Hx as (u & <- & Hu). pose proof (wf_in _ _ W u Hu) as UB. rewrite N in *.
    unfold edge in *. unfold clip_to. split.
    + apply Q.min_glb; [|lra]. pose proof (Q.le_max_l u low). lra.
    + pose proof (Q.le_min_r (Qmax u low) high). lra.
Qed.
(** Ten samples 0..9 and p = 0.01: all samples collapse below 1 and the range is still [0, 9]. *)
Example C56_example : exists d d', mk_dist [0; 1; 2; 3; 4; 5; 6; 7; 8; 9]%Q 4 true = Ok d /\
  fixed_percent_trim (1#100) d = Ok d' /\ (forall x, In x (d_data d') -> (x < 1)%Q) /\ exists hi, get_max d' = Ok hi /\ (hi == 9)%Q.
Proof.
  assert (exists d, mk_dist [0; 1; 2; 3; 4; 5; 6; 7; 8; 9]%Q 4 true = Ok d) as (d & E) by (eexists; reflexivity).
  exists d. assert (X : forall e, Ok e = Ok d -> e = d) by congruence. vm_compute in E. apply X in E. subst d.
  eexists. split; [reflexivity|]. split; [vm_compute; reflexivity|]. cbn [d_data]. split.
  - intros x H. cbn [In] in H. repeat (destruct H as [<- | H]; [reflexivity|]). destruct H.
  - eexists. split; [vm_compute; reflexivity|]. reflexivity.
Qed.
