(** C05: rounding policies of another shape (numpy broadcasting). *)
From Verif Require Import Base BaseProofs DtypeModel QuantModel QuantProofs PropCore.
Open Scope Z_scope.
Open Scope list_scope.

(** ** Broadcasting, counted from the last axis *)
(** Two arrays fit when every pair of aligned extents is equal or has a 1. *)
Definition shapes_fit (a b : list nat) : Prop :=
  forall k x y, nth_error (rev a) k = Some x -> nth_error (rev b) k = Some y -> x = y \/ x = 1%nat \/ y = 1%nat.
(** the extent of the result at one axis *)
Definition fitted (x y : option nat) : option nat :=
  match x, y with
  | Some x, Some y => Some (if (x =? 1)%nat then y else x)
  | Some x, None => Some x
  | None, y => y
  end.
Definition fitted_shape (a b r : list nat) : Prop := forall k, nth_error (rev r) k = fitted (nth_error (rev a) k) (nth_error (rev b) k).
(** [j] is the place in an array of shape [s] that position [i] of the result reads: the same place on the axes the array has, 0 on axes of extent 1 *)
Definition reads (s i j : list nat) : Prop :=
  valid_idx s j = true /\
  forall k n, nth_error (rev s) k = Some n -> nth_error (rev j) k = if (n =? 1)%nat then Some 0%nat else nth_error (rev i) k.

Lemma bshape_rev_fit : forall a b, (forall k x y, nth_error a k = Some x -> nth_error b k = Some y -> x = y \/ x = 1%nat \/ y = 1%nat) ->
  exists r, bshape_rev a b = Some r /\ forall k, nth_error r k = fitted (nth_error a k) (nth_error b k).
Proof.
  induction a as [|x a IH]; intros [|y b] H; cbn [bshape_rev].
  - exists []. split; [reflexivity|]. intros [|k]; reflexivity.
  - exists (y :: b). split; [reflexivity|]. intros [|k]; [reflexivity|]. cbn [nth_error fitted]. reflexivity.
  - exists (x :: a). split; [reflexivity|]. intros [|k]; [reflexivity|]. cbn [nth_error]. destruct (nth_error a k); reflexivity.
  - destruct (IH b) as (r & E & F). { intros k. exact (H (S k)). }
    rewrite E. pose proof (H 0%nat x y eq_refl eq_refl) as H0.
    exists ((if (x =? 1)%nat then y else x) :: r). split.
    + destruct (Nat.eqb_spec x y) as [->|N]; [destruct (Nat.eqb_spec y 1); subst; reflexivity|].
      destruct (Nat.eqb_spec x 1); [reflexivity|]. destruct (Nat.eqb_spec y 1); [reflexivity|]. intuition congruence.
    + intros [|k]; [reflexivity|]. cbn [nth_error]. apply F.
Qed.

Lemma valid_idx_nth : forall s i, valid_idx s i = true <->
  length i = length s /\ forall k n m, nth_error s k = Some n -> nth_error i k = Some m -> (m < n)%nat.
Proof.
  induction s as [|n s IH]; intros [|m i]; cbn [valid_idx length].
  - split; [intros _; split; [reflexivity|intros [|k] ? ? E; discriminate]|reflexivity].
  - split; [discriminate|intros [E _]; discriminate].
  - split; [discriminate|intros [E _]; discriminate].
  - rewrite andb_true_iff, IH, Nat.ltb_lt. split.
    + intros (A & L & B). split; [lia|]. intros [|k] n' m' E F; cbn [nth_error] in E, F; [congruence|exact (B k n' m' E F)].
    + intros (L & B). split; [exact (B 0%nat n m eq_refl eq_refl)|]. split; [lia|]. intros k. exact (B (S k)).
Qed.
Lemma nth_error_rev {A} (l : list A) k : (k < length l)%nat -> nth_error (rev l) k = nth_error l (length l - S k).
Proof.
  intros H. destruct l as [|d l]; [cbn in H; lia|]. set (L := d :: l) in *.
  rewrite (nth_error_nth' (rev L) d) by (now rewrite rev_length). rewrite (nth_error_nth' L d) by lia. f_equal. now apply rev_nth.
Qed.
Lemma valid_idx_rev s i : valid_idx s i = true <->
  length i = length s /\ forall k n m, nth_error (rev s) k = Some n -> nth_error (rev i) k = Some m -> (m < n)%nat.
Proof.
  rewrite valid_idx_nth. split; intros (L & B); split; auto; intros k n m E F.
  - assert (K : (k < length s)%nat) by (rewrite <- (rev_length s); apply nth_error_Some; congruence).
    rewrite nth_error_rev in E, F by lia. rewrite L in F. exact (B _ _ _ E F).
  - assert (K : (k < length s)%nat) by (apply nth_error_Some; congruence).
    apply (B (length s - S k)%nat n m); rewrite nth_error_rev by lia.
    + rewrite <- E. f_equal. lia.
    + rewrite <- F. f_equal. lia.
Qed.
Lemma rev_combine {A B} : forall (a : list A) (b : list B), length a = length b -> rev (combine a b) = combine (rev a) (rev b).
Proof.
  induction a as [|x a IH]; intros [|y b] H; cbn in H; try discriminate; [reflexivity|]. cbn [combine rev].
  rewrite IH by lia. assert (L : length (rev a) = length (rev b)) by (rewrite !rev_length; lia). clear - L.
  revert L. generalize (rev b). induction (rev a) as [|u l IHl]; intros [|v m] L; cbn in L; try discriminate; [reflexivity|].
  cbn [app combine]. rewrite IHl by lia. reflexivity.
Qed.
Lemma nth_error_combine {A B} : forall (a : list A) (b : list B) k x y, nth_error a k = Some x -> nth_error b k = Some y -> nth_error (combine a b) k = Some (x, y).
Proof.
  induction a as [|u a IH]; intros [|v b] [|k] x y E F; cbn in *; try discriminate; [congruence|now apply IH].
Qed.
Lemma nth_error_firstn {A} : forall n (l : list A) k, (k < n)%nat -> nth_error (firstn n l) k = nth_error l k.
Proof. induction n as [|n IH]; intros [|x l] [|k] H; cbn; try lia; try reflexivity. apply IH. lia. Qed.

(** A position of a result whose shape covers [s] is read in [s] at [bidx s i]. *)
Lemma bidx_reads s r i :
  (length s <= length r)%nat ->
  (forall k n m, nth_error (rev s) k = Some n -> nth_error (rev r) k = Some m -> n = 1%nat \/ n = m) ->
  valid_idx r i = true -> reads s i (bidx s i).
Proof.
  intros L C V. apply valid_idx_rev in V as [Li V].
  assert (E : rev (bidx s i) = map (fun p => if (fst p =? 1)%nat then 0%nat else snd p) (combine (rev s) (firstn (length s) (rev i)))).
  { unfold bidx. rewrite <- map_rev, rev_combine by (rewrite skipn_length; lia). now rewrite firstn_rev. }
  assert (R : forall k n, nth_error (rev s) k = Some n -> nth_error (rev (bidx s i)) k = if (n =? 1)%nat then Some 0%nat else nth_error (rev i) k).
  { intros k n Hn. assert (K : (k < length s)%nat) by (rewrite <- (rev_length s); apply nth_error_Some; congruence).
    destruct (nth_error (rev i) k) as [m|] eqn:Em; [|apply nth_error_None in Em; rewrite rev_length in Em; lia].
    rewrite E. rewrite (map_nth_error _ k (combine (rev s) (firstn (length s) (rev i))) (d := (n, m))).
    - cbn [fst snd]. destruct (n =? 1)%nat; reflexivity.
    - apply nth_error_combine; [exact Hn|]. now rewrite nth_error_firstn. }
  split; [|exact R]. apply valid_idx_rev. split.
  - unfold bidx. rewrite map_length, combine_length, skipn_length. lia.
  - intros k n m En Em. rewrite (R k n En) in Em. destruct (Nat.eqb_spec n 1) as [->|N]; [injection Em as <-; lia|].
    assert (K : (k < length s)%nat) by (rewrite <- (rev_length s); apply nth_error_Some; congruence).
    destruct (nth_error (rev r) k) as [q|] eqn:Eq; [|apply nth_error_None in Eq; rewrite rev_length in Eq; lia].
    destruct (C k n q En Eq) as [->| ->]; [lia|]. exact (V k q m Eq Em).
Qed.

Lemma reads_unique s i j j' : reads s i j -> reads s i j' -> j = j'.
Proof.
  intros [V R] [V' R']. apply valid_idx_rev in V as [L _]. apply valid_idx_rev in V' as [L' _].
  rewrite <- (rev_involutive j), <- (rev_involutive j'). f_equal.
  assert (G : forall k, nth_error (rev j) k = nth_error (rev j') k).
  { intros k. destruct (nth_error (rev s) k) as [n|] eqn:E; [now rewrite (R k n E), (R' k n E)|].
    apply nth_error_None in E. rewrite rev_length in E.
    rewrite (proj2 (nth_error_None (rev j) k)), (proj2 (nth_error_None (rev j') k)); [reflexivity|rewrite rev_length; lia|rewrite rev_length; lia]. }
  clear - G. revert G. generalize (rev j'). induction (rev j) as [|x l IH]; intros [|y m] G; [reflexivity|pose proof (G 0%nat); discriminate|pose proof (G 0%nat); discriminate|].
  pose proof (G 0%nat) as G0. injection G0 as ->. f_equal. apply IH. intros k. exact (G (S k)).
Qed.

(** ** C05 *)
(** A policy whose shape fits the data's is broadcast against it: the codes have the common shape, and each is the floor or the ceiling (by the
    policy's value there) of the data's value there. *)
Theorem C05_policy_broadcasts : forall d data zp s p, within_int32 d -> shapes_fit (nd_shape data) (nd_shape p) ->
  let r := quantize d data zp s (Some p) in
  fitted_shape (nd_shape data) (nd_shape p) (nd_shape r) /\
  (forall i jd jp, valid_idx (nd_shape r) i = true -> reads (nd_shape data) i jd -> reads (nd_shape p) i jp ->
     let f := Qfloor (real_code (nd_get data jd) s zp) in
     (nd_get p jp = 0%Q -> nd_get r i = clamp (gmin d) (gmax d) f) /\
     (nd_get p jp = 1%Q -> nd_get r i = clamp (gmin d) (gmax d) (f + 1))) /\
  (forall i, valid_idx (nd_shape r) i = true -> exists jd jp, reads (nd_shape data) i jd /\ reads (nd_shape p) i jp).
Proof.
  intros d data zp s p Hd Hf r.
  destruct (bshape_rev_fit (rev (nd_shape data)) (rev (nd_shape p)) Hf) as (q & E & F).
  assert (Eb : bshape (nd_shape data) (nd_shape p) = Some (rev q)) by (unfold bshape; now rewrite E).
  assert (Sr : nd_shape r = rev q). { unfold r, quantize, nd_bin. cbn [nd_shape nd_map]. rewrite Eb. reflexivity. }
  assert (Gr : forall i, nd_get r i = quant1p d zp s (nd_get data (bidx (nd_shape data) i)) (nd_get p (bidx (nd_shape p) i))).
  { intros i. unfold r, quantize, nd_bin. cbn [nd_shape nd_map]. rewrite Eb. reflexivity. }
  assert (FS : fitted_shape (nd_shape data) (nd_shape p) (nd_shape r)) by (intros k; rewrite Sr, rev_involutive; apply F).
  assert (RD : forall i, valid_idx (nd_shape r) i = true -> reads (nd_shape data) i (bidx (nd_shape data) i)).
  { intros i V. apply (bidx_reads _ (nd_shape r)); [| |exact V].
    - destruct (le_lt_dec (length (nd_shape data)) (length (nd_shape r))) as [L|L]; [exact L|]. exfalso.
      specialize (FS (length (nd_shape r))). rewrite (proj2 (nth_error_None (rev (nd_shape r)) _)) in FS by (rewrite rev_length; lia).
      destruct (nth_error (rev (nd_shape data)) (length (nd_shape r))) eqn:En; [destruct (nth_error (rev (nd_shape p)) (length (nd_shape r))); discriminate|].
      apply nth_error_None in En. rewrite rev_length in En. lia.
    - intros k n m En Em. rewrite (FS k), En in Em. destruct (nth_error (rev (nd_shape p)) k) as [y|] eqn:Ey; cbn [fitted] in Em.
      + destruct (Nat.eqb_spec n 1); [now left|right; congruence].
      + right; congruence. }
  assert (RP : forall i, valid_idx (nd_shape r) i = true -> reads (nd_shape p) i (bidx (nd_shape p) i)).
  { intros i V. apply (bidx_reads _ (nd_shape r)); [| |exact V].
    - destruct (le_lt_dec (length (nd_shape p)) (length (nd_shape r))) as [L|L]; [exact L|]. exfalso.
      specialize (FS (length (nd_shape r))). rewrite (proj2 (nth_error_None (rev (nd_shape r)) _)) in FS by (rewrite rev_length; lia).
      destruct (nth_error (rev (nd_shape data)) (length (nd_shape r))); cbn [fitted] in FS;
        [destruct (nth_error (rev (nd_shape p)) (length (nd_shape r))); discriminate|].
      symmetry in FS. apply nth_error_None in FS. rewrite rev_length in FS. lia.
    - intros k n m En Em. rewrite (FS k), En in Em. destruct (nth_error (rev (nd_shape data)) k) as [x|] eqn:Ex; cbn [fitted] in Em; [|right; congruence].
      destruct (Hf k x n Ex En) as [->|[-> |H1]]; [right|right|left; exact H1].
      + destruct (Nat.eqb_spec n 1); congruence.
      + cbn in Em. congruence. }
  split; [exact FS|]. split; [|intros i V; exists (bidx (nd_shape data) i), (bidx (nd_shape p) i); split; [exact (RD i V)|exact (RP i V)]].
  intros i jd jp V Rd Rp f. rewrite Gr. rewrite (reads_unique _ _ _ _ (RD i V) Rd), (reads_unique _ _ _ _ (RP i V) Rp).
  assert (Hfl : f = Qfloor (nd_get data jd / s) + zp) by (unfold f, real_code; apply Qfloor_plus_Z).
  rewrite !clamp_clip by apply Hd. split; intros ->.
  - change 0%Q with (if false then 1%Q else 0%Q). rewrite (quant1p_binary d zp s _ false) by exact Hd. f_equal. lia.
  - change 1%Q with (if true then 1%Q else 0%Q) at 1. rewrite (quant1p_binary d zp s _ true) by exact Hd. f_equal. lia.
Qed.

(** A column of two rounding bits over a row of three values gives two rows of codes. *)
Definition ex_row : nd Q := nd_of_list 0%Q [3#10; -3#10; 1#2]%Q.
Definition ex_bits : nd Q := mknd [2; 1]%nat (fun i => if (hd 0 i =? 0)%nat then 0%Q else 1%Q).
Example C05_broadcast_example :
  shapes_fit (nd_shape ex_row) (nd_shape ex_bits) /\ nd_shape (quantize int8 ex_row 0 1 (Some ex_bits)) = [2; 3]%nat /\
  map (fun i => nd_get (quantize int8 ex_row 0 1 (Some ex_bits)) i) [[0; 0]; [0; 1]; [0; 2]; [1; 0]; [1; 1]; [1; 2]]%nat = [0; -1; 0; 1; 0; 1] /\
  reads (nd_shape ex_row) [1; 2]%nat [2]%nat /\ reads (nd_shape ex_bits) [1; 2]%nat [1; 0]%nat.
Proof.
  split; [|split; [reflexivity|split; [vm_compute; reflexivity|split]]].
  - intros [|[|k]] x y E F; cbn in E, F; [injection F as <-; auto|discriminate|destruct k; discriminate].
  - split; [reflexivity|]. intros [|[|k]] n E; cbn in E; [injection E as <-; reflexivity|discriminate|destruct k; discriminate].
  - split; [reflexivity|]. intros [|[|[|k]]] n E; cbn in E; [injection E as <-; reflexivity|injection E as <-; reflexivity|discriminate|destruct k; discriminate].
Qed.
