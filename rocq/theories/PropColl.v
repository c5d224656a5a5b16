(** C43: the collision metric. *)
From Verif Require Import Base BaseProofs CollModel.
From Coq Require Import Lqa Permutation.
Open Scope Z_scope.
Open Scope list_scope.

(** ** Specification *)
(** position k holds a value that some other position also holds *)
Definition sharedb {A} (dec : forall x y : A, {x = y} + {x <> y}) (l : list A) (k : nat) : bool :=
  match nth_error l k with
  | None => false
  | Some x => existsb (fun j => negb (j =? k)%nat && match nth_error l j with Some y => if dec x y then true else false | None => false end) (seq 0 (length l))
  end.
Definition n_shared {A} dec (l : list A) : Z := Z.of_nat (length (filter (sharedb dec l) (seq 0 (length l)))).
(** [d] lists the different values of [l] *)
Definition values_of {A} (l d : list A) : Prop := NoDup d /\ forall x, In x d <-> In x l.
Definition pairwise_different {A} (l : list A) : Prop := NoDup l.

(** ** Lemmas *)
Section Lem.
Context {A : Type} (dec : forall x y : A, {x = y} + {x <> y}).

Lemma sharedb_iff l k : sharedb dec l k = true <-> exists x j, nth_error l k = Some x /\ j <> k /\ nth_error l j = Some x.
Proof.
  unfold sharedb. destruct (nth_error l k) as [x|] eqn:E.
  - rewrite existsb_exists. split.
    + intros (j & _ & H). apply andb_true_iff in H. destruct H as [N H]. apply negb_true_iff, Nat.eqb_neq in N.
      exists x, j. split; [reflexivity|]. split; [exact N|]. destruct (nth_error l j) as [y|]; [|discriminate]. destruct (dec x y); [now subst|discriminate].
    + intros (x' & j & E1 & N & E2). assert (x' = x) by congruence. subst x'. exists j. split.
      * apply in_seq. split; [lia|]. cbn. apply nth_error_Some. congruence.
      * apply Nat.eqb_neq in N. rewrite N, E2. cbn. now destruct (dec x x).
  - split; [discriminate|]. intros (x & j & E1 & _). discriminate.
Qed.

Lemma sumZ_map_split (f g : A -> Z) l : sumZ (map (fun x => f x + g x) l) = sumZ (map f l) + sumZ (map g l).
Proof. induction l as [|x l IH]; [reflexivity|]. cbn [map]. unfold sumZ in *. cbn [fold_right]. lia. Qed.
Lemma sumZ_indicator (g : A -> Z) y d : NoDup d -> In y d -> sumZ (map (fun x => (if dec y x then 1 else 0) * g x) d) = g y.
Proof.
  induction 1 as [|x d N ND IH]; intros I; [destruct I|]. cbn [map]. unfold sumZ in *. cbn [fold_right]. destruct I as [-> | I].
  - destruct (dec y y) as [_|]; [|congruence]. assert (Z0 : fold_right Z.add 0 (map (fun x => (if dec y x then 1 else 0) * g x) d) = 0).
    { clear - N. induction d as [|z d IH]; [reflexivity|]. cbn. destruct (dec y z) as [-> |]; [destruct N; now left|]. rewrite IH; [lia|]. intros I. apply N. now right. }
    lia.
  - destruct (dec y x) as [-> |]; [contradiction|]. rewrite IH by exact I. lia.
Qed.
(** weighing every value by its number of occurrences is summing over positions *)
Lemma weighted (g : A -> Z) d : NoDup d -> forall l, (forall x, In x l -> In x d) ->
  sumZ (map (fun x => Z.of_nat (count_occ dec l x) * g x) d) = sumZ (map g l).
Proof.
  intros ND. induction l as [|y l IH]; intros H.
  - cbn. induction d as [|x d IHd]; [reflexivity|]. cbn. unfold sumZ in *. rewrite IHd; [reflexivity|now inversion ND|intros x0 []].
  - cbn [map]. unfold sumZ at 2. cbn [fold_right]. fold (sumZ (map g l)). rewrite <- IH by (intros x Hx; apply H; now right).
    rewrite <- (sumZ_indicator g y d ND) by (apply H; now left). rewrite <- sumZ_map_split. f_equal. apply map_ext. intros x. cbn [count_occ].
    destruct (dec y x) as [-> |]; [rewrite Nat2Z.inj_succ; lia|lia].
Qed.
Lemma values_nodup (l : list A) : values_of l (nodup dec l).
Proof. split; [apply NoDup_nodup|]. intros x. apply nodup_In. Qed.
Lemma values_length (l d d' : list A) : values_of l d -> values_of l d' -> length d = length d'.
Proof.
  intros [N H] [N' H']. apply Nat.le_antisymm; apply NoDup_incl_length; auto; intros x I.
  - apply H', H, I.
  - apply H, H', I.
Qed.
Lemma sumZ_const (l : list A) : sumZ (map (fun _ : A => 1) l) = Z.of_nat (length l).
Proof. induction l as [|x l IH]; [reflexivity|]. cbn [map length]. unfold sumZ in *. cbn [fold_right]. rewrite IH. lia. Qed.

(** the two sums of the code *)
Lemma sum_minus_one (l d : list A) : values_of l d -> sumZ (map (fun c => c - 1) (counts dec l)) = Z.of_nat (length l) - Z.of_nat (length d).
Proof.
  intros V. rewrite (values_length l d (nodup dec l) V (values_nodup l)). unfold counts. rewrite map_map.
  transitivity (sumZ (map (fun x => Z.of_nat (count_occ dec l x) * 1 + -1) (nodup dec l))).
  - f_equal. apply map_ext. intros x. lia.
  - rewrite sumZ_map_split. rewrite (weighted (fun _ => 1) (nodup dec l)); [|apply NoDup_nodup|intros x; apply nodup_In]. rewrite sumZ_const.
    assert (X : sumZ (map (fun _ : A => -1) (nodup dec l)) = - Z.of_nat (length (nodup dec l))).
    { generalize (nodup dec l). induction l0 as [|x l0 IH]; [reflexivity|]. cbn [map length]. unfold sumZ in *. cbn [fold_right]. rewrite IH. lia. }
    rewrite X. lia.
Qed.
Lemma sumZ_map_nth (g : A -> Z) l : sumZ (map g l) = sumZ (map (fun k => match nth_error l k with Some x => g x | None => 0 end) (seq 0 (length l))).
Proof.
  f_equal. induction l as [|x l IH]; [reflexivity|]. cbn [map length seq]. f_equal. rewrite IH, <- seq_shift, map_map. reflexivity.
Qed.
Lemma count_nth l : forall k x, nth_error l k = Some x -> (1 <= count_occ dec l x)%nat.
Proof. intros k x E. apply nth_error_In in E. apply (count_occ_In dec) in E. lia. Qed.
Lemma count_shared l : forall k x, nth_error l k = Some x -> (count_occ dec l x <> 1%nat <-> exists j, j <> k /\ nth_error l j = Some x).
Proof.
  induction l as [|y l IH]; intros [|k] x E; try discriminate; cbn [nth_error] in E.
  - assert (y = x) by congruence. subst y. rewrite count_occ_cons_eq by reflexivity. split.
    + intros H. assert (I : In x l) by (apply (count_occ_In dec); lia). apply In_nth_error in I. destruct I as (j & E1). exists (S j). split; [lia|exact E1].
    + intros (j & N & E1). destruct j as [|j]; [congruence|]. assert (X := count_nth l j x E1). cbn in X. lia.
  - destruct (dec y x) as [-> | N].
    + rewrite count_occ_cons_eq by reflexivity. assert (X := count_nth _ _ _ E). split; [|intros _; lia]. intros _. exists 0%nat. split; [lia|reflexivity].
    + rewrite count_occ_cons_neq by exact N. rewrite (IH k x E). split.
      * intros (j & H & E1). exists (S j). split; [lia|exact E1].
      * intros (j & H & E1). destruct j as [|j]; [cbn in E1; congruence|]. exists j. split; [lia|exact E1].
Qed.
Lemma sum_shared l : sumZ (map (fun c => c * (if c =? 1 then 0 else 1)) (counts dec l)) = n_shared dec l.
Proof.
  unfold counts. rewrite map_map. rewrite (weighted (fun x => if Z.of_nat (count_occ dec l x) =? 1 then 0 else 1) (nodup dec l)); [|apply NoDup_nodup|intros x; apply nodup_In].
  rewrite sumZ_map_nth. unfold n_shared. generalize (seq 0 (length l)). induction l0 as [|k ks IH]; [reflexivity|]. cbn [map filter]. unfold sumZ in *. cbn [fold_right]. rewrite IH.
  destruct (sharedb dec l k) eqn:S1.
  - apply sharedb_iff in S1. destruct S1 as (x & j & E & N & E1). rewrite E. assert (C : count_occ dec l x <> 1%nat) by (apply (count_shared l k x E); eauto).
    destruct (Z.eqb_spec (Z.of_nat (count_occ dec l x)) 1); cbn [length]; lia.
  - destruct (nth_error l k) as [x|] eqn:E; [|reflexivity]. destruct (Z.eqb_spec (Z.of_nat (count_occ dec l x)) 1) as [|N]; [reflexivity|].
    exfalso. assert (C : exists j, j <> k /\ nth_error l j = Some x) by (apply (count_shared l k x E); lia). destruct C as (j & N1 & E1).
    assert (sharedb dec l k = true) by (apply sharedb_iff; eauto). congruence.
Qed.
Lemma n_shared_range l : 0 <= n_shared dec l <= Z.of_nat (length l).
Proof.
  unfold n_shared. assert (length (filter (sharedb dec l) (seq 0 (length l))) <= length (seq 0 (length l)))%nat.
  { generalize (seq 0 (length l)). induction l0 as [|x l0 IH]; cbn; [lia|]. destruct (sharedb dec l x); cbn; lia. }
  rewrite seq_length in H. lia.
Qed.
Lemma n_shared_0 l : n_shared dec l = 0 <-> NoDup l.
Proof.
  unfold n_shared. rewrite NoDup_nth_error. split.
  - intros H i j L E. destruct (Nat.eq_dec i j) as [|N]; [assumption|exfalso].
    assert (F : filter (sharedb dec l) (seq 0 (length l)) = []) by (destruct (filter _ _); [reflexivity|cbn in H; lia]).
    destruct (nth_error l i) as [x|] eqn:EI; [|apply nth_error_Some in L; congruence].
    assert (I : In i (filter (sharedb dec l) (seq 0 (length l)))).
    { apply filter_In. split; [apply in_seq; cbn; lia|]. apply sharedb_iff. exists x, j. repeat split; congruence. }
    rewrite F in I. destruct I.
  - intros H. assert (F : filter (sharedb dec l) (seq 0 (length l)) = []); [|now rewrite F].
    destruct (filter (sharedb dec l) (seq 0 (length l))) as [|k ks] eqn:F; [reflexivity|exfalso].
    assert (I : In k (filter (sharedb dec l) (seq 0 (length l)))) by (rewrite F; now left). apply filter_In in I. destruct I as [I S1].
    apply sharedb_iff in S1. destruct S1 as (x & j & E & N & E1). apply N. symmetry. apply H; [apply in_seq in I; cbn in I; lia|congruence].
Qed.
End Lem.
Lemma n_shared_mono {A B} (da : forall x y : A, _) (db : forall x y : B, _) l l' : length l = length l' ->
  (forall i j x, nth_error l i = Some x -> nth_error l j = Some x -> nth_error l' i = nth_error l' j) -> n_shared da l <= n_shared db l'.
Proof.
  intros L H. unfold n_shared. rewrite <- L. apply inj_le. generalize (seq 0 (length l)). induction l0 as [|k ks IH]; [apply le_n|]. cbn [filter].
  destruct (sharedb da l k) eqn:S1; [|destruct (sharedb db l' k); cbn; lia].
  assert (sharedb db l' k = true) as ->; [|cbn; lia]. apply sharedb_iff in S1. destruct S1 as (x & j & E & N & E1). apply sharedb_iff.
  destruct (nth_error l' k) as [y|] eqn:EK; [|exfalso; apply nth_error_None in EK; rewrite <- L in EK; apply nth_error_None in EK; congruence].
  exists y, j. split; [reflexivity|]. split; [exact N|]. rewrite <- EK. symmetry. eapply H; eassumption.
Qed.

(** ** C43 *)

(** The tolerance: with [eps] > 0 decimals a float counts as the nearest multiple of 10^-eps, so values more than
    10^-eps apart always count as different and equal numbers (however written) as the same; otherwise only equal
    numbers are the same. *)
Theorem C43_rounded_to_nearest : forall eps x, 0 < eps ->
  (exists n, around eps x == inject_Z n / inject_Z (10 ^ eps)) /\
  (Qabs (x - around eps x) <= (1#2) / inject_Z (10 ^ eps))%Q.
Proof.
  intros eps x H. assert (T : (0 < inject_Z (10 ^ eps))%Q).
  { change 0%Q with (inject_Z 0). rewrite <- Zlt_Qlt. apply Z.pow_pos_nonneg; lia. }
  assert (E : (around eps x == inject_Z (Qround_even (x * inject_Z (10 ^ eps))) / inject_Z (10 ^ eps))%Q).
  { unfold around. rewrite Qred_correct. destruct (Z.ltb_spec 0 eps); [reflexivity|lia]. }
  split; [exists (Qround_even (x * inject_Z (10 ^ eps))); exact E|].
  rewrite E. set (t := inject_Z (10 ^ eps)) in *. pose proof (Qround_even_near (x * t)) as N.
  set (n := inject_Z (Qround_even (x * t))) in *.
  setoid_replace (x - n / t)%Q with (- (n - x * t) / t)%Q by (field; lra).
  unfold Qdiv. rewrite Qabs_Qmult, Qabs_opp, (Qabs_pos (/ t)) by (apply Qlt_le_weak, Qinv_lt_0_compat, T).
  apply Qmult_le_compat_r; [exact N|apply Qlt_le_weak, Qinv_lt_0_compat, T].
Qed.
Theorem C43_no_tolerance : forall eps x y, eps <= 0 -> (around eps x = around eps y <-> (x == y)%Q).
Proof.
  intros eps x y H. unfold around. destruct (Z.ltb_spec 0 eps); [lia|]. split; intros E.
  - rewrite <- (Qred_correct x), <- (Qred_correct y), E. reflexivity.
  - apply Qred_complete, E.
Qed.
Theorem C43_far_apart_differ : forall eps x y, 0 < eps -> (1 / inject_Z (10 ^ eps) < Qabs (x - y))%Q ->
  around eps x <> around eps y.
Proof.
  intros eps x y H D E. destruct (C43_rounded_to_nearest eps x H) as [_ A]. destruct (C43_rounded_to_nearest eps y H) as [_ B].
  rewrite E in A. apply Qabs_Qle_condition in A. apply Qabs_Qle_condition in B.
  setoid_replace ((1 # 2) / inject_Z (10 ^ eps))%Q with ((1 # 2) * (1 / inject_Z (10 ^ eps)))%Q in A by (unfold Qdiv; ring).
  setoid_replace ((1 # 2) / inject_Z (10 ^ eps))%Q with ((1 # 2) * (1 / inject_Z (10 ^ eps)))%Q in B by (unfold Qdiv; ring).
  assert (Qabs (x - y) <= 1 / inject_Z (10 ^ eps))%Q; [|lra]. apply Qabs_Qle_condition. split; lra.
Qed.
Theorem C43_equal_merge : forall eps x y, (x == y)%Q -> around eps x = around eps y.
Proof.
  intros eps x y H. destruct (Z_le_gt_dec eps 0) as [L|L]; [now apply C43_no_tolerance|].
  unfold around. apply Qred_complete. destruct (Z.ltb_spec 0 eps); [|lia].
  assert (E : Qround_even (x * inject_Z (10 ^ eps)) = Qround_even (y * inject_Z (10 ^ eps))) by (apply Qround_even_comp; now rewrite H).
  now rewrite E.
Qed.
(** The value: positions whose code is shared, minus the number of repeated floats. *)
Theorem C43_value : forall fp q eps d, values_of (map (around eps) fp) d ->
  calc_collisions fp q eps = n_shared Z.eq_dec q - (Z.of_nat (length fp) - Z.of_nat (length d)).
Proof. intros fp q eps d V. unfold calc_collisions. rewrite sum_shared, (sum_minus_one _ _ d V), map_length. reflexivity. Qed.
(** With pairwise different (rounded) floats it is the documented count, between 0 and the size, and 0 exactly
    when the codes are pairwise different too. *)
Theorem C43_distinct_floats : forall fp q eps, pairwise_different (map (around eps) fp) ->
  calc_collisions fp q eps = n_shared Z.eq_dec q /\ 0 <= calc_collisions fp q eps <= Z.of_nat (length q) /\
  (calc_collisions fp q eps = 0 <-> pairwise_different q).
Proof.
  intros fp q eps ND. assert (E : calc_collisions fp q eps = n_shared Z.eq_dec q).
  { rewrite (C43_value fp q eps (map (around eps) fp)); [rewrite map_length; lia|]. split; [exact ND|]. reflexivity. }
  rewrite E. split; [reflexivity|]. split; [apply n_shared_range|]. apply n_shared_0.
Qed.
(** When equal floats have equal codes (quantization without a per-entry rounding policy) it is between 0 and the
    size, and floats with repeats but no loss of distinctness still score at least one per repeated value. *)
Theorem C43_function_of_floats : forall fp q eps, length fp = length q ->
  (forall i j, nth_error (map (around eps) fp) i = nth_error (map (around eps) fp) j -> nth_error q i = nth_error q j) ->
  0 <= calc_collisions fp q eps <= Z.of_nat (length q) /\
  (n_shared Q_same_dec (map (around eps) fp) <> 0 -> 0 < calc_collisions fp q eps).
Proof.
  intros fp q eps L H. set (f := map (around eps) fp) in *. assert (LF : length f = length q) by (unfold f; now rewrite map_length).
  rewrite (C43_value fp q eps (nodup Q_same_dec f)) by apply values_nodup. fold f. rewrite L.
  assert (M : n_shared Q_same_dec f <= n_shared Z.eq_dec q). { apply n_shared_mono; [exact LF|]. intros i j x E E1. apply H. congruence. }
  assert (R := n_shared_range Z.eq_dec q).
  assert (D : (length (nodup Q_same_dec f) <= length f)%nat) by (apply NoDup_incl_length; [apply NoDup_nodup|intros x; apply nodup_In]).
  assert (K : Z.of_nat (length f) - Z.of_nat (length (nodup Q_same_dec f)) <= n_shared Q_same_dec f /\
    (n_shared Q_same_dec f <> 0 -> Z.of_nat (length f) - Z.of_nat (length (nodup Q_same_dec f)) < n_shared Q_same_dec f)).
  { rewrite <- sum_shared. rewrite <- (sum_minus_one Q_same_dec f (nodup Q_same_dec f)) by apply values_nodup.
    assert (P : Forall (fun c => 1 <= c) (counts Q_same_dec f)).
    { unfold counts. apply Forall_forall. intros c I. apply in_map_iff in I. destruct I as (x & <- & I). apply nodup_In in I. apply (count_occ_In Q_same_dec) in I. lia. }
    clear - P. induction P as [|c l H P IH]; [cbn; lia|]. cbn [map]. unfold sumZ in *. cbn [fold_right]. destruct (Z.eqb_spec c 1); lia. }
  lia.
Qed.
(** The order of the entries does not matter, on either side. *)
Theorem C43_order_irrelevant : forall fp fp' q q' eps, Permutation fp fp' -> Permutation q q' -> calc_collisions fp q eps = calc_collisions fp' q' eps.
Proof.
  intros fp fp' q q' eps P P'. assert (G : forall A (dec : forall x y : A, {x = y} + {x <> y}) (f : Z -> Z) l l', Permutation l l' -> sumZ (map f (counts dec l)) = sumZ (map f (counts dec l'))).
  { clear. intros A dec f l l' P. unfold counts. rewrite !map_map.
    assert (N : Permutation (nodup dec l) (nodup dec l')).
    { apply NoDup_Permutation; try apply NoDup_nodup. intros x. rewrite !nodup_In. split; apply Permutation_in; [exact P|now symmetry]. }
    transitivity (sumZ (map (fun x => f (Z.of_nat (count_occ dec l' x))) (nodup dec l))).
    - f_equal. apply map_ext. intros x. rewrite (proj1 (Permutation_count_occ dec l l') P x). reflexivity.
    - generalize (fun x => f (Z.of_nat (count_occ dec l' x))). intros g. revert N. generalize (nodup dec l) (nodup dec l'). intros a b N.
      induction N; cbn; unfold sumZ in *; cbn; try lia. }
  unfold calc_collisions. rewrite (G _ Z.eq_dec _ q q' P'). f_equal. apply G. now apply Permutation_map.
Qed.
(** The documented meaning ("equal elements in the Q tensor that are not equal in the FP tensor") fails: one float
    repeated scores 1 although no two different floats share a code; and codes that split equal floats score below 0. *)
Theorem C43_documented_meaning_refuted : calc_collisions [1%Q; 1%Q; 1%Q] [5; 5; 5] 0 = 1 /\ calc_collisions [1%Q; 1%Q] [5; 6] 0 = -1 /\
  calc_collisions [1%Q; 1%Q; 2%Q; 2%Q] [5; 5; 6; 6] 0 = 2.
Proof. repeat split; vm_compute; reflexivity. Qed.
(** The repository's own test values. *)
Definition ex_fp : list Q := [12#10; 56#10; 9#10; -29#10; 124#100; 78#10; 7#10; -47#10; 36#10].
Definition ex_q : list Z := [67; 128; 67; -12; 67; 128; 32; -89; 111].
Example C43_example : pairwise_different (map (around 0) ex_fp) /\ calc_collisions ex_fp ex_q 0 = 5 /\ calc_collisions ex_fp ex_q 1 = 4.
Proof.
  split; [|split; vm_compute; reflexivity]. unfold pairwise_different.
  assert (E : nodup Q_same_dec (map (around 0) ex_fp) = map (around 0) ex_fp) by (vm_compute; reflexivity). rewrite <- E. apply NoDup_nodup.
Qed.
(** The layer report: activations are averaged over the calibration rows, rounded up; the layer total is between
    the kernel's count and the kernel's count plus the per-row ceilings, and an empty batch is a ZeroDivisionError. *)
Theorem C43_layer_total : forall policy k b a, 0 < ct_rows b -> 0 < ct_rows a -> exists t cb ca,
  layer_collisions policy k b (Some a) = Ok t /\ t = policy (ct_fp k) (ct_q k) + cb + ca /\
  policy (ct_fp b) (ct_q b) <= cb * ct_rows b < policy (ct_fp b) (ct_q b) + ct_rows b /\
  policy (ct_fp a) (ct_q a) <= ca * ct_rows a < policy (ct_fp a) (ct_q a) + ct_rows a.
Proof.
  intros policy k b a HB HA. unfold layer_collisions, ceil_div. destruct (Z.eqb_spec (ct_rows b) 0); [lia|]. destruct (Z.eqb_spec (ct_rows a) 0); [lia|].
  cbn [rbind]. eexists _, _, _. split; [reflexivity|]. split; [reflexivity|].
  assert (G : forall c n, 0 < n -> c <= - (- c / n) * n < c + n). { intros c m Hm. assert (D := Z.div_mod (- c) m ltac:(lia)). assert (M := Z.mod_pos_bound (- c) m Hm). nia. }
  split; apply G; assumption.
Qed.
Theorem C43_layer_empty_batch : forall policy k b a, ct_rows b = 0 -> layer_collisions policy k b a = Err EZeroDivision.
Proof. intros policy k b a H. unfold layer_collisions, ceil_div. rewrite H. reflexivity. Qed.
