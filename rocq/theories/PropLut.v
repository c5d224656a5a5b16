(** Properties C10-C13: ReducedLUT.  [py_index l i] is Python's [l[i]]. *)
From Verif Require Import Base BaseProofs LutModel LutProofs.
Open Scope Z_scope.
Open Scope list_scope.

(** ** C10: lossless for every table, depth and min_reduce. *)
Theorem C10_index_lossless : forall lut depth min_reduce i v,
  nth_error lut i = Some v ->
  getitem (mk_rlut lut depth min_reduce false) (Z.of_nat i) = Ok v.
Proof.
  intros lut d m i v H.
  assert (Hne : lut <> []) by (destruct lut; [destruct i; discriminate|congruence]).
  assert (Hi : (i < length lut)%nat) by (apply nth_error_Some; congruence).
  rewrite getitem_spec by exact Hne. rewrite clipZ_id by lia.
  destruct (py_index_nonneg lut (Z.of_nat i)) as (a & Ha & ->); [lia|].
  rewrite Nat2Z.id in Ha. congruence.
Qed.
Theorem C10_iter_lossless : forall lut depth min_reduce,
  iter (mk_rlut lut depth min_reduce false) = Ok lut.
Proof. exact iter_spec. Qed.

(** ** C11: serialization. *)
Theorem C11_lookup_preserved : forall lut depth min_reduce asym i,
  getitem (deserialize (serialize (mk_rlut lut depth min_reduce asym))) i =
  getitem (mk_rlut lut depth min_reduce asym) i.
Proof. intros. apply deserialize_getitem. Qed.
Theorem C11_lookup_lossless : forall lut depth min_reduce i v,
  nth_error lut i = Some v ->
  getitem (deserialize (serialize (mk_rlut lut depth min_reduce false))) (Z.of_nat i) = Ok v.
Proof. intros. rewrite C11_lookup_preserved. now apply C10_index_lossless. Qed.
Theorem C11_serialize_stable : forall lut depth min_reduce asym,
  let j := serialize (mk_rlut lut depth min_reduce asym) in
  serialize (deserialize j) = j.
Proof.
  intros. unfold j, deserialize, mk_rlut.
  destruct (reduce_lut depth lut false) as [ls lt].
  destruct (reduce_lut depth (if asym then py_slice lut (Some ls) None else lut) true) as [rs rt].
  destruct asym; reflexivity.
Qed.
Theorem C11_iter_lost_refuted : forall lut depth min_reduce asym, lut <> [] ->
  iter (deserialize (serialize (mk_rlut lut depth min_reduce asym))) = Ok [] /\
  iter (deserialize (serialize (mk_rlut lut depth min_reduce false))) <> iter (mk_rlut lut depth min_reduce false).
Proof.
  intros lut d m a H. rewrite !deserialize_iter, iter_spec. split; [reflexivity|congruence].
Qed.

(** ** C12: out of range indices saturate instead of raising. *)
Theorem C12_saturates : forall lut depth min_reduce i first last,
  nth_error lut 0 = Some first -> nth_error lut (length lut - 1) = Some last ->
  (i < 0 -> getitem (mk_rlut lut depth min_reduce false) i = Ok first) /\
  (Z.of_nat (length lut) <= i -> getitem (mk_rlut lut depth min_reduce false) i = Ok last).
Proof.
  intros lut d m i f l Hf Hl.
  assert (Hne : lut <> []) by (destruct lut; [discriminate|congruence]).
  assert (Hn : (0 < length lut)%nat) by (destruct lut; [congruence|simpl; lia]).
  rewrite getitem_spec by exact Hne. split; intros Hi.
  - replace (clipZ 0 (Z.of_nat (length lut) - 1) i) with 0 by (unfold clipZ; lia).
    destruct (py_index_nonneg lut 0) as (a & Ha & ->); [lia|]. simpl in Ha, Hf. congruence.
  - replace (clipZ 0 (Z.of_nat (length lut) - 1) i) with (Z.of_nat (length lut) - 1) by (unfold clipZ; lia).
    destruct (py_index_nonneg lut (Z.of_nat (length lut) - 1)) as (a & Ha & ->); [lia|].
    replace (Z.to_nat (Z.of_nat (length lut) - 1)) with (length lut - 1)%nat in Ha by lia. congruence.
Qed.
Theorem C12_never_raises : forall lut depth min_reduce i, lut <> [] ->
  exists v, getitem (mk_rlut lut depth min_reduce false) i = Ok v /\ In v lut.
Proof.
  intros lut d m i H. rewrite getitem_spec by exact H.
  assert (Hn : (0 < length lut)%nat) by (destruct lut; [congruence|simpl; lia]).
  destruct (py_index_nonneg lut (clipZ 0 (Z.of_nat (length lut) - 1) i)) as (a & Ha & ->).
  { unfold clipZ. lia. }
  exists a. split; [reflexivity|]. eapply nth_error_In; eauto.
Qed.
Theorem C12_empty_raises : forall depth min_reduce asym i,
  getitem (mk_rlut [] depth min_reduce asym) i = Err EIndexError.
Proof. exact getitem_empty. Qed.
Theorem C12_asymmetric_refuted : exists lut depth i v w,
  nth_error lut i = Some v /\ getitem (mk_rlut lut depth 1 true) (Z.of_nat i) = Ok w /\ w <> v.
Proof.
  exists [0;0;0;1;1;1;5;2;3;3], 2, 7%nat, 2, 3. vm_compute. intuition congruence.
Qed.

(** ** C13: size accounting.  An interval is (end, value). *)
Theorem C13_sizes : forall lut depth min_reduce, lut <> [] -> 1 <= depth ->
  let r := mk_rlut lut depth min_reduce false in
  let n := Z.of_nat (length lut) in
  1 <= Z.of_nat (length (r_lt r)) <= depth /\
  1 <= Z.of_nat (length (r_rt r)) <= depth /\
  (forall i a b, nth_error (r_lt r) i = Some a -> nth_error (r_lt r) (S i) = Some b ->
     fst a < fst b /\ snd a <> snd b) /\
  (forall i a b, nth_error (r_rt r) i = Some a -> nth_error (r_rt r) (S i) = Some b ->
     fst b < fst a /\ snd a <> snd b) /\
  1 <= r_ls r <= n /\ 1 <= r_rs r <= n /\
  Z.of_nat (length (r_red r)) = Z.max 0 (n - r_ls r - r_rs r).
Proof. exact size_spec. Qed.

Example C13_example :
  let r := mk_rlut [0;0;0;1;1;5;2;3;3] 2 1 false in
  r_lt r = [(3, 0); (5, 1)] /\ r_rt r = [(7, 3); (6, 2)] /\ r_red r = [5] /\
  getitem r 5 = Ok 5 /\ getitem r 100 = Ok 3 /\ iter r = Ok [0;0;0;1;1;5;2;3;3].
Proof. vm_compute. intuition. Qed.
