(** C94: comparing the histograms of two distributions. *)
From Verif Require Import Base BaseProofs DtypeModel QuantModel LutModel FcModel DistModel DistProofs DistClone ScipyModel CompareModel PropDist.
From Coq Require Import Lqa Sorting.Permutation.
Open Scope Z_scope.
Open Scope list_scope.

(** ** Specification vocabulary *)
(** bin i of the edges e contains x: half open, the last one closed *)
Definition in_binb (e : list Q) (i : nat) (x : Q) : bool :=
  Qle_bool (nth i e 0%Q) x &&
  (if (S (S i) =? length e)%nat then Qle_bool x (nth (S i) e 0%Q) else negb (Qle_bool (nth (S i) e 0%Q) x)).
Definition tally (e : list Q) (i : nat) (a : list Q) : Z := Z.of_nat (length (filter (in_binb e i) a)).
(** the samples between the outer edges *)
Definition inside (e : list Q) (a : list Q) : Z := Z.of_nat (length (filter (fun x => Qle_bool (hd 0%Q e) x && Qle_bool x (last e 0%Q)) a)).
(** the fraction of the samples between the outer edges that bin i holds *)
Definition share (e : list Q) (i : nat) (a : list Q) : Q := (inject_Z (tally e i a) / inject_Z (inside e a))%Q.
(** d is the histogram of a over nondecreasing edges e *)
Definition hist_of (d : dist) (e a : list Q) : Prop :=
  d_edges d = e /\ (2 <= length e)%nat /\ nondecr e = true /\ length (d_hist d) = (length e - 1)%nat /\
  forall i, (S i < length e)%nat -> nth i (d_hist d) 0 = tally e i a.

(** ** Every sample between the outer edges is in exactly one bin *)
Definition b2z (b : bool) : Z := if b then 1 else 0.
Lemma qle_false x y : Qle_bool x y = false -> (y < x)%Q.
Proof. intros H. destruct (Qlt_le_dec y x) as [L|L]; [exact L|]. apply Qle_bool_iff in L. congruence. Qed.
Lemma in_binb_tail a b r i x : in_binb (a :: b :: r) (S i) x = in_binb (b :: r) i x.
Proof. reflexivity. Qed.
Lemma nondecr_hd e : nondecr e = true -> forall x, In x e -> (hd 0%Q e <= x)%Q.
Proof.
  induction e as [|a e IH]; intros N x Hx; [contradiction|]. cbn [hd]. destruct Hx as [->|Hx]; [apply Qle_refl|].
  destruct e as [|b r]; [contradiction|]. cbn [nondecr] in N. apply andb_true_iff in N as [N1 N2].
  apply Qle_bool_iff in N1. specialize (IH N2 x Hx). cbn [hd] in IH. eapply Qle_trans; eassumption.
Qed.
Lemma one_bin e : (2 <= length e)%nat -> nondecr e = true -> forall x,
  sumZ (map (fun i => b2z (in_binb e i x)) (seq 0 (length e - 1))) = b2z (Qle_bool (hd 0%Q e) x && Qle_bool x (last e 0%Q)).
Proof.
  induction e as [|a e IH]; intros L N x; [cbn [length] in L; lia|]. destruct e as [|b r]; [cbn [length] in L; lia|].
  replace (length (a :: b :: r) - 1)%nat with (S (length (b :: r) - 1))%nat by (cbn [length]; lia).
  cbn [seq map]. unfold sumZ at 1. cbn [fold_right]. rewrite <- seq_shift, map_map.
  change (Qle_bool a b && nondecr (b :: r) = true) in N. apply andb_true_iff in N as [N1 N2]. apply Qle_bool_iff in N1.
  rewrite (map_ext _ (fun i => b2z (in_binb (b :: r) i x))) by (intros i; now rewrite in_binb_tail).
  fold (sumZ (map (fun i => b2z (in_binb (b :: r) i x)) (seq 0 (length (b :: r) - 1)))).
  destruct r as [|c r].
  - cbn [length Nat.sub seq map]. unfold sumZ. cbn [fold_right hd last]. unfold in_binb. cbn [nth length Nat.eqb]. lia.
  - rewrite IH; [|cbn [length]; lia|exact N2]. cbn [hd]. change (last (a :: b :: c :: r) 0%Q) with (last (b :: c :: r) 0%Q).
    assert (LB : (b <= last (b :: c :: r) 0)%Q).
    { pose proof (nondecr_hd _ N2 (last (b :: c :: r) 0%Q)) as G. cbn [hd] in G. apply G.
      destruct (exists_last (l := b :: c :: r)) as (l' & z & ->); [discriminate|]. rewrite last_last. apply in_or_app. right. now left. }
    set (z := last (b :: c :: r) 0%Q) in *.
    unfold in_binb. cbn [nth length Nat.eqb].
    destruct (Qle_bool a x) eqn:A, (Qle_bool b x) eqn:B, (Qle_bool x z) eqn:Z1; cbn [andb negb b2z]; try reflexivity; exfalso.
    + apply qle_false in B, Z1. lra.
    + apply qle_false in A. apply Qle_bool_iff in B. lra.
Qed.
Lemma filter_sum {A} (f : A -> bool) l : Z.of_nat (length (filter f l)) = sumZ (map (fun x => b2z (f x)) l).
Proof.
  induction l as [|x l IH]; [reflexivity|]. cbn [filter map]. unfold sumZ. cbn [fold_right]. fold (sumZ (map (fun x => b2z (f x)) l)).
  destruct (f x); cbn [length b2z]; lia.
Qed.
Lemma sumZ_split {A} (f g : A -> Z) l : sumZ (map (fun x => f x + g x) l) = sumZ (map f l) + sumZ (map g l).
Proof. induction l as [|x l IH]; [reflexivity|]. cbn [map]. unfold sumZ in *. cbn [fold_right]. lia. Qed.
Lemma sumZ_zeros {A} (l : list A) : sumZ (map (fun _ => 0) l) = 0.
Proof. induction l as [|x l IH]; [reflexivity|]. cbn [map]. unfold sumZ in *. cbn [fold_right]. lia. Qed.
Theorem tallies_inside e a : (2 <= length e)%nat -> nondecr e = true ->
  sumZ (map (fun i => tally e i a) (seq 0 (length e - 1))) = inside e a.
Proof.
  intros L N. unfold inside. rewrite filter_sum. induction a as [|x a IH].
  - cbn [map]. unfold tally. cbn [filter length]. apply sumZ_zeros.
  - cbn [map]. unfold sumZ at 2. cbn [fold_right]. fold (sumZ (map (fun x => b2z (Qle_bool (hd 0%Q e) x && Qle_bool x (last e 0%Q))) a)).
    rewrite <- IH, <- (one_bin e L N x), <- sumZ_split. f_equal. apply map_ext. intros i. unfold tally. cbn [filter].
    destruct (in_binb e i x); cbn [length b2z]; lia.
Qed.

(** ** Both ways of building a distribution *)
Lemma map_nth_seq {A} (l : list A) d : map (fun i => nth i l d) (seq 0 (length l)) = l.
Proof.
  induction l as [|x l IH]; [reflexivity|]. cbn [length seq map nth]. rewrite <- seq_shift, map_map. f_equal. exact IH.
Qed.
Lemma nth_mseq {A} (f : nat -> A) n i d : (i < n)%nat -> nth i (map f (seq 0 n)) d = f i.
Proof.
  intros H. rewrite (nth_indep _ d (f 0%nat)) by now rewrite map_length, seq_length. rewrite map_nth, seq_nth by exact H. reflexivity.
Qed.
Lemma edge_step lo hi n i : (0 < n)%nat -> (lo < hi)%Q -> (edge_at lo hi n i <= edge_at lo hi n (S i))%Q.
Proof.
  intros Hn L. unfold edge_at. rewrite Nat2Z.inj_succ. unfold Z.succ. rewrite inject_Z_plus.
  assert (P : (0 < (hi - lo) / inject_Z (Z.of_nat n))%Q).
  { apply Qlt_shift_div_l; [change 0%Q with (inject_Z 0); apply (proj1 (Zlt_inj _ _)); lia|lra]. }
  change (inject_Z 1) with 1%Q. lra.
Qed.
Lemma nondecr_edges lo hi n k i : (0 < n)%nat -> (lo < hi)%Q -> nondecr (map (edge_at lo hi n) (seq i k)) = true.
Proof.
  intros Hn L. revert i. induction k as [|k IH]; intros i; [reflexivity|]. destruct k as [|k]; [reflexivity|].
  cbn [seq map]. change (Qle_bool (edge_at lo hi n i) (edge_at lo hi n (S i)) && nondecr (map (edge_at lo hi n) (seq (S i) (S k))) = true).
  rewrite IH. apply andb_true_iff. split; [|reflexivity]. apply Qle_bool_iff. now apply edge_step.
Qed.
Theorem C94_histogram : forall a n p d, mk_dist a n p = Ok d ->
  exists e, hist_of d e a /\ length e = S n /\ inside e a = Z.of_nat (length a).
Proof.
  intros a n p d E. pose proof (hist_range_lt a) as RL. pose proof (fresh_mass _ _ _ _ E) as M.
  destruct n as [|k]; [discriminate|]. unfold mk_dist in E. remember (S k) as n eqn:En.
  destruct (hist_range a) as [lo hi]. cbn [fst snd] in RL.
  assert (Ed : d = mkdist (sortQ a) (map (edge_at lo hi n) (seq 0 (S n))) (map (bin_count a lo hi n) (seq 0 n)) p).
  { rewrite En in *. congruence. }
  clear E. set (e := map (edge_at lo hi n) (seq 0 (S n))) in *.
  assert (Le : length e = S n) by (unfold e; now rewrite map_length, seq_length).
  assert (H : hist_of d e a).
  { rewrite Ed. unfold hist_of. cbn [d_edges d_hist]. split; [reflexivity|]. split; [lia|].
    split; [apply nondecr_edges; [lia|exact RL]|]. split; [rewrite map_length, seq_length; lia|].
    intros i Hi. rewrite nth_mseq by lia. unfold bin_count, tally. f_equal. f_equal. apply filter_ext. intros x.
    unfold bin_has, in_binb. unfold e. rewrite !nth_mseq by lia. fold e. rewrite Le.
    destruct (Nat.eqb_spec (S i) n), (Nat.eqb_spec (S (S i)) (S n)); try lia; reflexivity. }
  exists e. split; [exact H|]. split; [exact Le|]. destruct H as (_ & L2 & N & L1 & H).
  rewrite <- (tallies_inside e a L2 N), <- M. f_equal. rewrite <- (map_nth_seq (d_hist d) 0) at 1. rewrite L1. apply map_ext_in.
  intros i Hi. apply in_seq in Hi. symmetry. apply H. lia.
Qed.
Theorem C94_explicit_edges : forall a e p,
  match mk_dist_edges a e p with
  | Ok d => hist_of d e a /\ d_data d = sortQ a
  | Err x => (x = EValueError /\ nondecr e = false) \/ (x = EIndexError /\ (length e < 2)%nat)
  end.
Proof.
  intros a e p. unfold mk_dist_edges. destruct (nondecr e) eqn:N; cbn [negb]; [|now left].
  destruct (Nat.ltb_spec (length e) 2) as [L|L]; [now right|]. split; [|reflexivity].
  unfold hist_of. cbn [d_edges d_hist]. split; [reflexivity|]. split; [exact L|]. split; [exact N|].
  unfold hist_in. split; [now rewrite map_length, seq_length|].
  intros i Hi. rewrite nth_mseq by lia. unfold tally. f_equal. f_equal. apply filter_ext. intros x.
  unfold hist_bin, in_binb, Qltb. destruct (Nat.eqb_spec (S i) (length e - 1)), (Nat.eqb_spec (S (S i)) (length e)); try lia; reflexivity.
Qed.

(** ** normalize is a probability vector *)
Lemma hist_tallies d e a : hist_of d e a -> d_hist d = map (fun i => tally e i a) (seq 0 (length e - 1)) /\ sumZ (d_hist d) = inside e a.
Proof.
  intros (_ & L & N & L1 & H).
  assert (E : d_hist d = map (fun i => tally e i a) (seq 0 (length e - 1))).
  { rewrite <- (map_nth_seq (d_hist d) 0) at 1. rewrite L1. apply map_ext_in. intros i Hi. apply in_seq in Hi. apply H. lia. }
  split; [exact E|]. rewrite E. now apply tallies_inside.
Qed.
Lemma inside_nonneg e a : 0 <= inside e a. Proof. unfold inside. lia. Qed.
Lemma tally_nonneg e i a : 0 <= tally e i a. Proof. unfold tally. lia. Qed.
Lemma normalize_shares d e a : hist_of d e a -> 0 < inside e a ->
  normalize (d_hist d) = Ok (map (fun i => share e i a) (seq 0 (length e - 1))).
Proof.
  intros H P. destruct (hist_tallies d e a H) as (E & S0). unfold normalize. rewrite S0.
  destruct (Z.eqb_spec (inside e a) 0); [lia|]. f_equal. rewrite E, map_map. reflexivity.
Qed.
Lemma share_nonneg e i a : 0 < inside e a -> (0 <= share e i a)%Q.
Proof.
  intros P. unfold share. apply Qle_shift_div_l; [change 0%Q with (inject_Z 0); apply (proj1 (Zlt_inj _ _)); exact P|].
  rewrite Qmult_0_l. change 0%Q with (inject_Z 0). apply (proj1 (Zle_inj _ _)), tally_nonneg.
Qed.
Lemma sum_shares e a : (2 <= length e)%nat -> nondecr e = true -> 0 < inside e a ->
  (sumQ (map (fun i => share e i a) (seq 0 (length e - 1))) == 1)%Q.
Proof.
  intros L N P. assert (PQ : (0 < inject_Z (inside e a))%Q) by (change 0%Q with (inject_Z 0); apply (proj1 (Zlt_inj _ _)); exact P).
  assert (E : (inject_Z (sumZ (map (fun i => tally e i a) (seq 0 (length e - 1)))) == inject_Z (inside e a) * sumQ (map (fun i => share e i a) (seq 0 (length e - 1))))%Q).
  { generalize (seq 0 (length e - 1)). induction l as [|i l IH]; [cbn; ring|]. cbn [map]. unfold sumZ, sumQ in *. cbn [fold_right].
    rewrite inject_Z_plus, IH. unfold share at 2. field. lra. }
  rewrite (tallies_inside e a L N) in E.
  set (t := sumQ (map (fun i => share e i a) (seq 0 (length e - 1)))) in *.
  setoid_replace t with (inject_Z (inside e a) * t / inject_Z (inside e a))%Q by (field; lra).
  rewrite <- E. field. lra.
Qed.
Theorem C94_normalized : forall d e a, hist_of d e a -> 0 < inside e a ->
  exists p, normalize (d_hist d) = Ok p /\ length p = (length e - 1)%nat /\ (sumQ p == 1)%Q /\
    forall i, (S i < length e)%nat -> (0 <= nth i p 0)%Q /\ (nth i p 0 == share e i a)%Q.
Proof.
  intros d e a H P. eexists. split; [exact (normalize_shares d e a H P)|]. split; [now rewrite map_length, seq_length|].
  destruct H as (_ & L & N & _). split; [now apply sum_shares|].
  intros i Hi. rewrite nth_mseq by lia. split; [now apply share_nonneg|reflexivity].
Qed.
(** no sample between the outer edges: NaN *)
Theorem C94_nothing_inside : forall d e a, hist_of d e a -> inside e a = 0 -> normalize (d_hist d) = Err EZeroDivision.
Proof. intros d e a H Z0. destruct (hist_tallies d e a H) as (_ & S0). unfold normalize. now rewrite S0, Z0. Qed.

(** ** compare with the mean squared error *)
Lemma bcast_same {A B C} (f : A -> B -> C) p q : length p = length q -> bcast f p q = Ok (map2 f p q).
Proof. intros H. unfold bcast. now rewrite H, Nat.eqb_refl. Qed.
Lemma map2_seq {A B C} (f : A -> B -> C) (g : nat -> A) (h : nat -> B) l : map2 f (map g l) (map h l) = map (fun i => f (g i) (h i)) l.
Proof. induction l as [|x l IH]; [reflexivity|]. cbn [map map2]. now rewrite IH. Qed.
(** the value compare returns for two histograms with n bins each *)
Definition mse_of (n : nat) (f g : nat -> Q) : Q :=
  (sumQ (map (fun i => (f i - g i) * (f i - g i))%Q (seq 0 n)) / inject_Z (Z.of_nat n))%Q.
Theorem C94_compare_mse : forall d d' e e' a a', hist_of d e a -> hist_of d' e' a' -> 0 < inside e a -> 0 < inside e' a' -> length e' = length e ->
  compare mse_metric true d d' = Ok (mse_of (length e - 1) (fun i => share e i a) (fun i => share e' i a')).
Proof.
  intros d d' e e' a a' H H' P P' L. unfold compare. rewrite (normalize_shares d e a H P). cbn [rbind].
  rewrite (normalize_shares d' e' a' H' P'). cbn [rbind]. unfold mse_metric. cbn [vals]. rewrite L.
  rewrite bcast_same by now rewrite !map_length. cbn [rbind]. rewrite map2_seq.
  destruct H as (_ & L2 & _). unfold mse_of. destruct (length e - 1)%nat as [|n] eqn:En; [lia|].
  remember (seq 0 (S n)) as l eqn:El. destruct l as [|i l]; [discriminate|]. cbn [map length]. rewrite map_length.
  assert (length l = n) as -> by (apply (f_equal (@length nat)) in El; rewrite seq_length in El; cbn [length] in El; lia). reflexivity.
Qed.
Lemma sq_nonneg x : (0 <= x * x)%Q.
Proof.
  destruct (Qlt_le_dec x 0) as [L|L].
  - setoid_replace (x * x)%Q with ((- x) * (- x))%Q by ring. apply Qmult_le_0_compat; lra.
  - now apply Qmult_le_0_compat.
Qed.
Lemma sumQ_nonneg_map {A} (f : A -> Q) l : (forall x, In x l -> (0 <= f x)%Q) -> (0 <= sumQ (map f l))%Q.
Proof.
  induction l as [|x l IH]; intros H; [apply Qle_refl|]. cbn [map]. unfold sumQ in *. cbn [fold_right].
  pose proof (H x (or_introl eq_refl)). specialize (IH (fun y Hy => H y (or_intror Hy))). lra.
Qed.
Lemma sumQ_zero_map {A} (f : A -> Q) l : (forall x, In x l -> (0 <= f x)%Q) -> (sumQ (map f l) == 0)%Q -> forall x, In x l -> (f x == 0)%Q.
Proof.
  induction l as [|y l IH]; intros H Z0 x Hx; [contradiction|]. cbn [map] in Z0. unfold sumQ in Z0. cbn [fold_right] in Z0.
  fold (sumQ (map f l)) in Z0. pose proof (H y (or_introl eq_refl)) as Hy.
  pose proof (sumQ_nonneg_map f l (fun z Hz => H z (or_intror Hz))) as Hl.
  destruct Hx as [->|Hx]; [lra|]. apply IH; [intros z Hz; apply H; now right|lra|exact Hx].
Qed.
(** a metric: never negative, symmetric, zero exactly when every bin holds the same fraction *)
Theorem C94_mse : forall d d' e e' a a', hist_of d e a -> hist_of d' e' a' -> 0 < inside e a -> 0 < inside e' a' -> length e' = length e ->
  exists v v', compare mse_metric true d d' = Ok v /\ compare mse_metric true d' d = Ok v' /\ (v == v')%Q /\ (0 <= v)%Q /\
    (v * inject_Z (Z.of_nat (length e - 1)) <= 2)%Q /\
    ((v == 0)%Q <-> forall i, (S i < length e)%nat -> (share e i a == share e' i a')%Q).
Proof.
  intros d d' e e' a a' H H' P P' L. do 2 eexists. split; [exact (C94_compare_mse _ _ _ _ _ _ H H' P P' L)|].
  split; [exact (C94_compare_mse _ _ _ _ _ _ H' H P' P (eq_sym L))|]. rewrite L. set (n := (length e - 1)%nat).
  assert (Hn : (1 <= n)%nat) by (destruct H as (_ & L2 & _); unfold n; lia).
  assert (PN : (0 < inject_Z (Z.of_nat n))%Q) by (change 0%Q with (inject_Z 0); apply (proj1 (Zlt_inj _ _)); lia).
  set (f := fun i => share e i a). set (g := fun i => share e' i a').
  set (s := sumQ (map (fun i => (f i - g i) * (f i - g i))%Q (seq 0 n))).
  assert (S0 : (0 <= s)%Q) by (apply sumQ_nonneg_map; intros; apply sq_nonneg).
  assert (V : mse_of n f g = (s / inject_Z (Z.of_nat n))%Q) by reflexivity.
  split; [|split; [|split; [|split]]].
  - unfold mse_of. apply Qmult_comp; [|reflexivity]. apply sumQ_map_ext. intros i _. ring.
  - rewrite V. apply Qle_shift_div_l; [exact PN|]. lra.
  - rewrite V. setoid_replace (s / inject_Z (Z.of_nat n) * inject_Z (Z.of_nat n))%Q with s by (field; lra).
    destruct H as (_ & L2 & N & _). destruct H' as (_ & L2' & N' & _).
    pose proof (sum_shares e a L2 N P) as SA. pose proof (sum_shares e' a' L2' N' P') as SB. rewrite L in SB. fold n in SA, SB.
    assert (U : forall h : nat -> Q, (forall i, (0 <= h i)%Q) -> (sumQ (map h (seq 0 n)) == 1)%Q -> forall i, In i (seq 0 n) -> (h i <= 1)%Q).
    { intros h H0 H1 i Hi. rewrite <- H1. clear - H0 Hi. induction (seq 0 n) as [|j l IH]; [contradiction|]. cbn [map]. unfold sumQ. cbn [fold_right].
      fold (sumQ (map h l)). pose proof (sumQ_nonneg_map h l (fun x _ => H0 x)). pose proof (H0 j). destruct Hi as [->|Hi]; [lra|specialize (IH Hi); lra]. }
    assert (B : (s <= sumQ (map (fun i => f i + g i) (seq 0 n)))%Q).
    { apply sumQ_le. intros i Hi. pose proof (share_nonneg e i a P) as F0. pose proof (share_nonneg e' i a' P') as G0. fold (f i) in F0. fold (g i) in G0.
      pose proof (U f (fun i => share_nonneg e i a P) SA i Hi) as F1. pose proof (U g (fun i => share_nonneg e' i a' P') SB i Hi) as G1.
      pose proof (Qmult_le_0_compat _ _ F0 G0) as FG. pose proof (Qmult_le_compat_r _ _ _ F1 F0) as FF. pose proof (Qmult_le_compat_r _ _ _ G1 G0) as GG.
      setoid_replace ((f i - g i) * (f i - g i))%Q with (f i * f i + g i * g i - 2 * (f i * g i))%Q by ring. lra. }
    rewrite sumQ_map_plus in B. unfold f, g in B. rewrite SA, SB in B. lra.
  - intros Z0 i Hi. rewrite V in Z0.
    assert (SZ : (s == 0)%Q).
    { setoid_replace s with (s / inject_Z (Z.of_nat n) * inject_Z (Z.of_nat n))%Q by (field; lra). rewrite Z0. ring. }
    pose proof (sumQ_zero_map _ _ (fun x _ => sq_nonneg (f x - g x)) SZ i ltac:(apply in_seq; unfold n; lia)) as Q0. cbv beta in Q0.
    apply Qmult_integral in Q0. fold (f i) (g i). destruct Q0; lra.
  - intros Q0. rewrite V. assert (SZ : (s == 0)%Q).
    { unfold s. apply sumQ_map_zero. intros i Hi. apply in_seq in Hi. specialize (Q0 i ltac:(unfold n in Hi; lia)). fold (f i) (g i) in Q0. rewrite Q0. ring. }
    rewrite SZ. unfold Qdiv. ring.
Qed.

(** The order of the samples, and repeating all of them k times, do not matter. *)
Fixpoint copies {A} (k : nat) (a : list A) : list A := match k with O => [] | S k' => a ++ copies k' a end.
Lemma count_perm {A} (f : A -> bool) a b : Permutation a b -> length (filter f a) = length (filter f b).
Proof. induction 1; cbn [filter]; repeat match goal with |- context [if ?c then _ else _] => destruct c end; cbn [length]; lia. Qed.
Lemma count_copies {A} (f : A -> bool) k a : length (filter f (copies k a)) = (k * length (filter f a))%nat.
Proof. induction k as [|k IH]; [reflexivity|]. cbn [copies]. rewrite filter_app, app_length, IH. lia. Qed.
Theorem C94_order_and_repetition : forall d d' e a b k, hist_of d e a -> hist_of d' e b -> Permutation b (copies k a) -> (0 < k)%nat ->
  0 < inside e a -> exists v, compare mse_metric true d d' = Ok v /\ (v == 0)%Q.
Proof.
  intros d d' e a b k H H' Pm Hk P.
  assert (I0 : inside e b = Z.of_nat k * inside e a).
  { unfold inside. rewrite (count_perm _ _ _ Pm), count_copies. lia. }
  assert (P' : 0 < inside e b) by nia.
  destruct (C94_mse d d' e e a b H H' P P' eq_refl) as (v & v' & E & _ & _ & _ & _ & Z0). exists v. split; [exact E|]. apply Z0.
  intros i Hi. unfold share. rewrite I0.
  assert (T : tally e i b = Z.of_nat k * tally e i a).
  { unfold tally. rewrite (count_perm _ _ _ Pm), count_copies. lia. }
  rewrite T, !inject_Z_mult.
  assert ((0 < inject_Z (inside e a))%Q) by (change 0%Q with (inject_Z 0); apply (proj1 (Zlt_inj _ _)); exact P).
  assert ((0 < inject_Z (Z.of_nat k))%Q) by (change 0%Q with (inject_Z 0); apply (proj1 (Zlt_inj _ _)); lia).
  field. split; lra.
Qed.
(** Samples outside explicit edges change nothing. *)
Theorem C94_outside_ignored : forall a b e p d d', mk_dist_edges (a ++ b) e p = Ok d -> mk_dist_edges a e p = Ok d' ->
  (forall x, In x b -> (x < hd 0%Q e \/ last e 0%Q < x)%Q) -> d_hist d = d_hist d'.
Proof.
  intros a b e p d d' E E' O.
  pose proof (C94_explicit_edges (a ++ b) e p) as X. rewrite E in X. destruct X as (H & _).
  pose proof (C94_explicit_edges a e p) as Y. rewrite E' in Y. destruct Y as (H' & _).
  destruct (hist_tallies _ _ _ H) as (-> & _). destruct (hist_tallies _ _ _ H') as (-> & _). apply map_ext_in. intros i Hi. apply in_seq in Hi.
  destruct H as (_ & L & N & _). unfold tally. rewrite filter_app, app_length.
  assert (Z0 : sumZ (map (fun i => tally e i b) (seq 0 (length e - 1))) = 0).
  { rewrite (tallies_inside e b L N). unfold inside. replace (filter _ b) with (@nil Q); [reflexivity|]. symmetry.
    clear - O. induction b as [|x b IH]; [reflexivity|]. cbn [filter]. destruct (O x (or_introl eq_refl)) as [A|A].
    - destruct (Qle_bool (hd 0%Q e) x) eqn:B; [apply Qle_bool_iff in B; lra|]. cbn [andb].
      apply IH. exact (fun y Hy => O y (or_intror Hy)).
    - destruct (Qle_bool x (last e 0%Q)) eqn:B; [apply Qle_bool_iff in B; lra|]. rewrite andb_false_r. apply IH. exact (fun y Hy => O y (or_intror Hy)). }
  assert (G : forall l, In i l -> sumZ (map (fun i => tally e i b) l) = 0 -> tally e i b = 0).
  { induction l as [|j l IH]; intros Hl S0; [contradiction|]. cbn [map] in S0. unfold sumZ in S0. cbn [fold_right] in S0.
    fold (sumZ (map (fun i => tally e i b) l)) in S0. pose proof (tally_nonneg e j b).
    assert (0 <= sumZ (map (fun i => tally e i b) l)).
    { clear. induction l as [|j l IH]; [cbn; lia|]. cbn [map]. unfold sumZ in *. cbn [fold_right]. pose proof (tally_nonneg e j b). lia. }
    destruct Hl as [->|Hl]; [lia|]. apply IH; [exact Hl|lia]. }
  specialize (G (seq 0 (length e - 1)) ltac:(apply in_seq; lia) Z0). unfold tally in G. lia.
Qed.

(** ** Different numbers of bins *)
Theorem C94_bins_mismatch : forall d d' e e' a a', hist_of d e a -> hist_of d' e' a' -> 0 < inside e a -> 0 < inside e' a' ->
  length e <> length e' -> length e <> 2%nat -> length e' <> 2%nat -> compare mse_metric true d d' = Err EValueError.
Proof.
  intros d d' e e' a a' H H' P P' N N2 N2'. unfold compare. rewrite (normalize_shares d e a H P). cbn [rbind].
  rewrite (normalize_shares d' e' a' H' P'). cbn [rbind]. unfold mse_metric, bcast. cbn [vals]. rewrite !map_length, !seq_length.
  destruct H as (_ & L & _). destruct H' as (_ & L' & _).
  destruct (Nat.eqb_spec (length e - 1) (length e' - 1)); [lia|].
  destruct (length e - 1)%nat as [|[|n']] eqn:E1; [lia|lia|]. destruct (length e' - 1)%nat as [|[|m']] eqn:E2; [lia|lia|]. reflexivity.
Qed.
(** A one-bin distribution is compared with every bin as if each held everything. *)
Theorem C94_one_bin_broadcast : forall d d' e e' a a', hist_of d e a -> hist_of d' e' a' -> 0 < inside e a -> 0 < inside e' a' ->
  length e <> 2%nat -> length e' = 2%nat ->
  exists v, compare mse_metric true d d' = Ok v /\ (v == mse_of (length e - 1) (fun i => share e i a) (fun _ => 1))%Q.
Proof.
  intros d d' e e' a a' H H' P P' N2 N2'. unfold compare. rewrite (normalize_shares d e a H P). cbn [rbind].
  rewrite (normalize_shares d' e' a' H' P'). cbn [rbind]. rewrite N2'. cbn [Nat.sub seq map].
  pose proof (sum_shares e' a' ltac:(lia) (proj1 (proj2 (proj2 H'))) P') as S1. rewrite N2' in S1. cbn [Nat.sub seq map] in S1. unfold sumQ in S1. cbn [fold_right] in S1.
  assert (O : (share e' 0 a' == 1)%Q) by lra.
  destruct H as (_ & L & _). unfold mse_metric, bcast. cbn [vals]. rewrite map_length, seq_length. cbn [length].
  destruct (Nat.eqb_spec (length e - 1) 1); [lia|]. destruct (length e - 1)%nat as [|[|n']] eqn:En; [lia|lia|].
  remember (S (S n')) as m eqn:Em.
  assert (X : exists q0 q1 r, map (fun i => share e i a) (seq 0 m) = q0 :: q1 :: r) by (rewrite Em; cbn [seq map]; eauto).
  destruct X as (q0 & q1 & r & X). 
  assert (Y : mse_of m (fun i => share e i a) (fun _ => 1%Q) = (sumQ (map (fun q => (q - 1) * (q - 1))%Q (q0 :: q1 :: r)) / inject_Z (Z.of_nat m))%Q).
  { unfold mse_of. rewrite <- X, map_map. reflexivity. }
  assert (Lr : length (q0 :: q1 :: r) = m) by (rewrite <- X, map_length, seq_length; reflexivity).
  rewrite X. cbn [rbind map]. eexists. split; [reflexivity|]. rewrite Y. cbn [length] in *. rewrite map_length, Lr.
  apply Qmult_comp; [|reflexivity]. cbn [map]. unfold sumQ. cbn [fold_right].
  fold (sumQ (map (fun q => (q - 1) * (q - 1))%Q r)). 
  assert (Z0 : forall l, (sumQ (map (fun q => (q - share e' 0 a') * (q - share e' 0 a')) l) == sumQ (map (fun q => (q - 1) * (q - 1)) l))%Q).
  { intros l. apply sumQ_map_ext. intros q _. rewrite O. reflexivity. }
  fold (sumQ (map (fun a0 => (a0 - share e' 0 a') * (a0 - share e' 0 a'))%Q r)). rewrite Z0, O. reflexivity.
Qed.

(** and whichever of the two is given first *)
Theorem C94_one_bin_broadcast_first : forall d d' e e' a a', hist_of d e a -> hist_of d' e' a' -> 0 < inside e a -> 0 < inside e' a' ->
  length e <> 2%nat -> length e' = 2%nat ->
  exists v, compare mse_metric true d' d = Ok v /\ (v == mse_of (length e - 1) (fun _ => 1) (fun i => share e i a))%Q.
Proof.
  intros d d' e e' a a' H H' P P' N2 N2'. unfold compare. rewrite (normalize_shares d' e' a' H' P'). cbn [rbind].
  rewrite (normalize_shares d e a H P). cbn [rbind]. rewrite N2'. cbn [Nat.sub seq map].
  pose proof (sum_shares e' a' ltac:(lia) (proj1 (proj2 (proj2 H'))) P') as S1. rewrite N2' in S1. cbn [Nat.sub seq map] in S1. unfold sumQ in S1. cbn [fold_right] in S1.
  assert (O : (share e' 0 a' == 1)%Q) by lra.
  destruct H as (_ & L & _). unfold mse_metric, bcast. cbn [vals]. rewrite map_length, seq_length. cbn [length].
  destruct (Nat.eqb_spec 1 (length e - 1)); [lia|]. destruct (length e - 1)%nat as [|[|n']] eqn:En; [lia|lia|].
  remember (S (S n')) as m eqn:Em.
  assert (X : exists q0 q1 r, map (fun i => share e i a) (seq 0 m) = q0 :: q1 :: r) by (rewrite Em; cbn [seq map]; eauto).
  destruct X as (q0 & q1 & r & X). 
  assert (Y : mse_of m (fun _ => 1%Q) (fun i => share e i a) = (sumQ (map (fun q => (1 - q) * (1 - q))%Q (q0 :: q1 :: r)) / inject_Z (Z.of_nat m))%Q).
  { unfold mse_of. rewrite <- X, map_map. reflexivity. }
  assert (Lr : length (q0 :: q1 :: r) = m) by (rewrite <- X, map_length, seq_length; reflexivity).
  rewrite X. cbn [rbind map]. eexists. split; [reflexivity|]. rewrite Y. cbn [length] in *. rewrite map_length, Lr.
  apply Qmult_comp; [|reflexivity]. cbn [map]. unfold sumQ. cbn [fold_right].
  fold (sumQ (map (fun q => (1 - q) * (1 - q))%Q r)). 
  assert (Z0 : forall l, (sumQ (map (fun q => (share e' 0 a' - q) * (share e' 0 a' - q)) l) == sumQ (map (fun q => (1 - q) * (1 - q)) l))%Q).
  { intros l. apply sumQ_map_ext. intros q _. rewrite O. reflexivity. }
  fold (sumQ (map (fun a0 => (share e' 0 a' - a0) * (share e' 0 a' - a0))%Q r)). rewrite Z0, O. reflexivity.
Qed.

(** ** compare with the KL divergence.  [lf x y] is x*log(x/y) - x + y, of which only these facts about positive arguments are used. *)
Definition kl_term (lf : Q -> Q -> Q) : Prop :=
  (forall x y, 0 < x -> 0 < y -> 0 <= lf x y)%Q /\ (forall x y, 0 < x -> x == y -> lf x y == 0)%Q.
(** an empty bin counts as 1e-10 *)
Definition smoothed (x : Q) : Q := if Qeq_bool x 0 then (1 # 10000000000)%Q else x.
Lemma smoothed_pos x : (0 <= x)%Q -> (0 < smoothed x)%Q.
Proof.
  intros H. unfold smoothed. destruct (Qeq_bool x 0) eqn:E; [reflexivity|]. apply Qeq_bool_neq in E.
  destruct (Qlt_le_dec 0 x) as [L|L]; [exact L|]. exfalso. apply E. lra.
Qed.
Lemma smoothed_comp x y : (x == y)%Q -> (smoothed x == smoothed y)%Q.
Proof.
  intros H. unfold smoothed. destruct (Qeq_bool x 0) eqn:E, (Qeq_bool y 0) eqn:F; try reflexivity; try exact H.
  - apply Qeq_bool_iff in E. apply Qeq_bool_neq in F. exfalso. apply F. now rewrite <- H.
  - apply Qeq_bool_iff in F. apply Qeq_bool_neq in E. exfalso. apply E. now rewrite H.
Qed.
Lemma osum_some (f : nat -> Q) l : osum (map (fun i => Some (f i)) l) = Some (sumQ (map f l)).
Proof. induction l as [|i l IH]; [reflexivity|]. cbn [map osum]. now rewrite IH. Qed.
Theorem C94_kl : forall lf d d' e e' a a', kl_term lf -> hist_of d e a -> hist_of d' e' a' -> 0 < inside e a -> 0 < inside e' a' -> length e' = length e ->
  exists v, compare (kl_metric lf) true d d' = Ok (Some v) /\
    v = sumQ (map (fun i => lf (smoothed (share e i a)) (smoothed (share e' i a'))) (seq 0 (length e - 1))) /\ (0 <= v)%Q /\
    ((forall i, (S i < length e)%nat -> (share e i a == share e' i a')%Q) -> (v == 0)%Q).
Proof.
  intros lf d d' e e' a a' (K1 & K2) H H' P P' L. eexists. split; [|split; [reflexivity|split]].
  - unfold compare. rewrite (normalize_shares d e a H P). cbn [rbind]. rewrite (normalize_shares d' e' a' H' P'). cbn [rbind].
    unfold kl_metric. cbn [smooth vals]. rewrite L, !map_map. fold smoothed.
    rewrite bcast_same by now rewrite !map_length. cbn [rbind]. rewrite map2_seq. f_equal.
    rewrite <- osum_some. f_equal. apply map_ext. intros i. unfold kl_div1.
    change (if Qeq_bool (share e i a) 0 then (1 # 10000000000)%Q else share e i a) with (smoothed (share e i a)).
    change (if Qeq_bool (share e' i a') 0 then (1 # 10000000000)%Q else share e' i a') with (smoothed (share e' i a')).
    pose proof (proj2 (Qltb_lt _ _) (smoothed_pos _ (share_nonneg e i a P))) as ->.
    pose proof (proj2 (Qltb_lt _ _) (smoothed_pos _ (share_nonneg e' i a' P'))) as ->. reflexivity.
  - apply sumQ_nonneg_map. intros i _. apply K1; apply smoothed_pos; now apply share_nonneg.
  - intros S0. apply sumQ_map_zero. intros i Hi. apply in_seq in Hi. apply K2; [apply smoothed_pos; now apply share_nonneg|].
    apply smoothed_comp, S0. lia.
Qed.
(** Without normalization the counts are integers, the smoothing is lost: a bin that is empty in the second histogram only gives infinity, and the
    result is finite otherwise. *)
Lemma osum_none l : In None l -> osum l = None.
Proof.
  induction l as [|x l IH]; intros H; [contradiction|]. cbn [osum]. destruct H as [->|H]; [reflexivity|]. rewrite (IH H). now destruct x.
Qed.
Lemma osum_all l : (forall x, In x l -> x <> None) -> exists v, osum l = Some v.
Proof.
  induction l as [|x l IH]; intros H; [eexists; reflexivity|]. destruct x as [x|]; [|exfalso; exact (H None (or_introl eq_refl) eq_refl)].
  destruct IH as (v & E); [intros y Hy; apply H; now right|]. cbn [osum]. rewrite E. eexists; reflexivity.
Qed.
Lemma inj_pos z : Qltb 0 (inject_Z z) = (0 <? z).
Proof.
  destruct (Z.ltb_spec 0 z) as [L|L].
  - apply Qltb_lt. change 0%Q with (inject_Z 0). apply (proj1 (Zlt_inj _ _)). exact L.
  - apply Qltb_ge. change 0%Q with (inject_Z 0). apply (proj1 (Zle_inj _ _)). exact L.
Qed.
(** what one bin adds: an empty first bin adds the other's count *)
Definition count_term (lf : Q -> Q -> Q) (x y : Z) : Q := if x =? 0 then inject_Z y else lf (inject_Z x) (inject_Z y).
Lemma osum_somes l : osum (map Some l) = Some (sumQ l).
Proof. induction l as [|x l IH]; [reflexivity|]. cbn [map osum]. rewrite IH. reflexivity. Qed.
Theorem C94_kl_counts : forall lf d d' e e' a a', hist_of d e a -> hist_of d' e' a' -> length e' = length e ->
  ((exists i, (S i < length e)%nat /\ 0 < tally e i a /\ tally e' i a' = 0) -> compare (kl_metric lf) false d d' = Ok None) /\
  ((forall i, (S i < length e)%nat -> 0 < tally e i a -> 0 < tally e' i a') ->
     compare (kl_metric lf) false d d' = Ok (Some (sumQ (map (fun i => count_term lf (tally e i a) (tally e' i a')) (seq 0 (length e - 1)))))).
Proof.
  intros lf d d' e e' a a' H H' L. destruct (hist_tallies _ _ _ H) as (E & _). destruct (hist_tallies _ _ _ H') as (E' & _).
  unfold compare, kl_metric. cbn [smooth vals]. rewrite E, E', L, !map_map. rewrite bcast_same by now rewrite !map_length. cbn [rbind]. rewrite map2_seq.
  assert (X : forall x y, 0 <= x -> 0 <= y -> (0 < x -> y = 0 -> kl_div1 lf (inject_Z x) (inject_Z y) = None) /\
    ((0 < x -> 0 < y) -> kl_div1 lf (inject_Z x) (inject_Z y) = Some (count_term lf x y))).
  { intros x y Px Py. unfold kl_div1, count_term. rewrite !inj_pos. split.
    - intros Qx ->. destruct (Z.ltb_spec 0 x); [|lia]. cbn [Z.ltb Z.compare andb].
      destruct (Qeq_bool (inject_Z x) 0) eqn:B; [|reflexivity]. apply Qeq_bool_iff in B. unfold Qeq in B. cbn in B. lia.
    - intros F. destruct (Z.ltb_spec 0 x) as [Qx|Qx].
      + specialize (F Qx). destruct (Z.ltb_spec 0 y); [|lia]. cbn [andb]. destruct (Z.eqb_spec x 0); [lia|reflexivity].
      + cbn [andb]. assert (x = 0) by lia. subst x. change (Qeq_bool (inject_Z 0) 0) with true. cbn [andb].
        assert (Qle_bool 0 (inject_Z y) = true) as ->; [|reflexivity]. apply Qle_bool_iff. change 0%Q with (inject_Z 0). apply (proj1 (Zle_inj _ _)). exact Py. }
  split.
  - intros (i & Hi & T & T'). rewrite osum_none; [reflexivity|]. apply in_map_iff. exists i. split; [|apply in_seq; lia].
    apply (X _ _ (tally_nonneg e i a) (tally_nonneg e' i a')); assumption.
  - intros F. rewrite <- osum_somes, map_map. do 2 f_equal. apply map_ext_in. intros i Hi. apply in_seq in Hi.
    apply (X _ _ (tally_nonneg e i a) (tally_nonneg e' i a')). apply F. lia.
Qed.

(** ** Concrete cases *)
Definition ex_edges : list Q := [0; 1; 2; 4]%Q.
Definition ex_a : list Q := [1#2; 1; 3#2; 4; 7]%Q.
Definition ex_b : list Q := [1#4; 1#3; 3; -1]%Q.
Example C94_example : exists d d', mk_dist_edges ex_a ex_edges true = Ok d /\ mk_dist_edges ex_b ex_edges true = Ok d' /\
  d_hist d = [1; 2; 1] /\ d_hist d' = [2; 0; 1] /\ inside ex_edges ex_a = 4 /\ inside ex_edges ex_b = 3 /\
  (exists v, compare mse_metric true d d' = Ok v /\ (v == 31 # 216)%Q) /\
  (exists v, compare mse_metric false d d' = Ok v /\ (v == 5 # 3)%Q) /\
  (forall lf, compare (kl_metric lf) false d d' = Ok None) /\
  (forall lf, compare (kl_metric lf) false d' d = Ok (Some (lf 2 1 + (2 + (lf 1 1 + 0))))%Q) /\
  (exists d1 v, dist_slice d (Some 0%Q) (Some (1#2)%Q) = Ok d1 /\ compare mse_metric true d d1 = Ok v /\ ~ (v == 0)%Q).
Proof.
  eexists; eexists. split; [vm_compute; reflexivity|]. split; [vm_compute; reflexivity|]. split; [reflexivity|]. split; [reflexivity|].
  split; [reflexivity|]. split; [reflexivity|].
  split; [eexists; split; [vm_compute; reflexivity|reflexivity]|]. split; [eexists; split; [vm_compute; reflexivity|reflexivity]|].
  split; [reflexivity|]. split; [reflexivity|]. eexists; eexists. split; [vm_compute; reflexivity|]. split; [vm_compute; reflexivity|discriminate].
Qed.
Lemma kl_term_inhabited : kl_term (fun x y => (x - y) * (x - y))%Q.
Proof. split; [intros; apply sq_nonneg|]. intros x y _ ->. ring. Qed.
