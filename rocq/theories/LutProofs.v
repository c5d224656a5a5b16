From Verif Require Import Base BaseProofs LutModel.
Open Scope Z_scope.
Open Scope list_scope.

(** Specification: run-length encoding of a list, and its inverse. *)
Fixpoint rle (l : list Z) : list (Z * Z) :=
  match l with
  | [] => []
  | x :: r =>
      match rle r with
      | (y, c) :: t => if x =? y then (y, c + 1) :: t else (x, 1) :: (y, c) :: t
      | [] => [(x, 1)]
      end
  end.
Fixpoint expand (c : list (Z * Z)) : list Z :=
  match c with [] => [] | (v, n) :: r => repeat v (Z.to_nat n) ++ expand r end.

(** The runs a side of depth [d] prunes: the first [d] runs, or all of them for d <= 0. *)
Definition pruned (d : Z) (l : list Z) : list (Z * Z) :=
  if 1 <=? d then firstn (Z.to_nat d) (rle l) else rle l.

Definition push (cv cc : Z) (l : list Z) : list (Z * Z) :=
  match rle l with
  | (y, c) :: t => if y =? cv then (cv, cc + c) :: t else (cv, cc) :: (y, c) :: t
  | [] => [(cv, cc)]
  end.
Definition takeruns (d : Z) (k : nat) (c : list (Z * Z)) : list (Z * Z) :=
  if 1 <=? d then firstn (Z.to_nat d - k) c else c.

Lemma rle_pos l : Forall (fun p => 1 <= snd p) (rle l).
Proof.
  induction l as [|x r IH]; simpl; [constructor|].
  destruct (rle r) as [|[y c] t]; [constructor; simpl; [lia|constructor]|].
  inversion_clear IH as [|? ? H1 H2]. simpl in H1.
  destruct (x =? y); repeat constructor; simpl; auto; lia.
Qed.
Lemma rle_nonempty x r : rle (x :: r) <> [].
Proof. simpl. destruct (rle r) as [|[y c] t]; [congruence|]. destruct (x =? y); congruence. Qed.
Lemma rle_head x r : exists c t, rle (x :: r) = (x, c) :: t.
Proof.
  simpl. destruct (rle r) as [|[y c] t]; [eauto|]. destruct (x =? y) eqn:E; [|eauto].
  apply Z.eqb_eq in E. subst. eauto.
Qed.
Lemma expand_rle l : expand (rle l) = l.
Proof.
  induction l as [|x r IH]; simpl; [reflexivity|].
  pose proof (rle_pos r) as P.
  destruct (rle r) as [|[y c] t] eqn:E.
  - simpl in *. now rewrite <- IH.
  - inversion_clear P as [|? ? P1 P2]. simpl in P1.
    destruct (x =? y) eqn:Exy.
    + apply Z.eqb_eq in Exy. subst y. simpl in *.
      replace (Z.to_nat (c + 1)) with (S (Z.to_nat c)) by lia. simpl. now rewrite IH.
    + simpl in *. now rewrite IH.
Qed.
Lemma rle_adjacent l : forall i a b, nth_error (rle l) i = Some a -> nth_error (rle l) (S i) = Some b -> fst a <> fst b.
Proof.
  induction l as [|x r IH]; simpl; intros i a b.
  - destruct i; discriminate.
  - destruct (rle r) as [|[y c] t] eqn:E.
    + destruct i; simpl; [discriminate|]. destruct i; discriminate.
    + destruct (x =? y) eqn:Exy.
      * intros A B. destruct i as [|i].
        -- simpl in A, B. injection A as <-. simpl.
           specialize (IH 0%nat (y, c) b eq_refl B). exact IH.
        -- simpl in A, B. eapply (IH (S i)); eauto.
      * destruct i as [|i].
        -- simpl. intros A B. injection A as <-. injection B as <-. simpl. lia.
        -- intros A B. simpl in A. apply (IH i); assumption.
Qed.

Lemma push_cons_same cv cc r : push cv cc (cv :: r) = push cv (cc + 1) r.
Proof.
  unfold push. simpl. destruct (rle r) as [|[y c] t].
  - rewrite Z.eqb_refl. reflexivity.
  - destruct (cv =? y) eqn:E.
    + apply Z.eqb_eq in E. subst. rewrite Z.eqb_refl. f_equal. f_equal. lia.
    + rewrite Z.eqb_refl. rewrite Z.eqb_sym in E. rewrite E. reflexivity.
Qed.
Lemma push_cons_diff cv cc e r : e <> cv -> push cv cc (e :: r) = (cv, cc) :: push e 1 r.
Proof.
  intros H. unfold push. cbn [rle]. destruct (rle r) as [|[y c] t].
  - destruct (e =? cv) eqn:E; [lia|reflexivity].
  - destruct (e =? y) eqn:E.
    + apply Z.eqb_eq in E. subst y. rewrite Z.eqb_refl.
      destruct (e =? cv) eqn:E2; [lia|]. replace (1 + c) with (c + 1) by lia. reflexivity.
    + destruct (e =? cv) eqn:E2; [lia|]. rewrite Z.eqb_sym in E. rewrite E. reflexivity.
Qed.

Lemma count_loop_spec d l : forall cv cc acc,
  (d <= 0 \/ Z.of_nat (length acc) < d) ->
  rev (count_loop d ((cv, cc) :: acc) l) = rev acc ++ takeruns d (length acc) (push cv cc l).
Proof.
  induction l as [|e r IH]; intros cv cc acc Hd.
  - simpl. unfold push, takeruns. simpl. destruct (1 <=? d) eqn:E; [|reflexivity].
    destruct (Z.to_nat d - length acc)%nat eqn:F; [lia|]. now rewrite firstn_cons, firstn_nil.
  - cbn [count_loop]. destruct (e =? cv) eqn:E.
    + apply Z.eqb_eq in E. subst e. rewrite IH by exact Hd. now rewrite push_cons_same.
    + rewrite push_cons_diff by lia.
      destruct (Z.of_nat (length ((cv, cc) :: acc)) =? d) eqn:D.
      * cbn [length] in D. simpl. unfold takeruns. destruct (1 <=? d) eqn:F; [|lia].
        replace (Z.to_nat d - length acc)%nat with 1%nat by lia. reflexivity.
      * cbn [length] in D. rewrite IH by (simpl; lia). simpl. rewrite <- app_assoc. f_equal. simpl.
        unfold takeruns. destruct (1 <=? d) eqn:F; [|reflexivity].
        replace (Z.to_nat d - length acc)%nat with (S (Z.to_nat d - S (length acc)))%nat by lia.
        reflexivity.
Qed.

Lemma counter_spec d x r : rev (count_loop d [(x, 0)] (x :: r)) = pruned d (x :: r).
Proof.
  rewrite count_loop_spec by (simpl; lia). simpl.
  rewrite push_cons_same. replace (0 + 1) with 1 by lia.
  replace (push x 1 r) with (rle (x :: r)).
  - unfold takeruns, pruned. destruct (1 <=? d); [|reflexivity]. now rewrite Nat.sub_0_r.
  - unfold push. cbn [rle]. destruct (rle r) as [|[y c] t]; [reflexivity|].
    rewrite (Z.eqb_sym y x). destruct (x =? y) eqn:E; [|reflexivity].
    apply Z.eqb_eq in E. subst. rewrite (Z.add_comm 1 c). reflexivity.
Qed.

(** A side, described by the specification *)
Definition total (c : list (Z * Z)) : Z := sumZ (map snd c).
Lemma reduce_spec d l rv : l <> [] ->
  reduce_lut d l rv =
  (total (pruned d (if rv then rev l else l)),
   let ints := intervals_from 0 (pruned d (if rv then rev l else l)) in
   if rv then map (fun p => (Z.of_nat (length l) - fst p, snd p)) ints else ints).
Proof.
  intros H. unfold reduce_lut. destruct l as [|x0 r]; [congruence|].
  destruct rv.
  - destruct (rev (x0 :: r)) as [|y t] eqn:E.
    { apply (f_equal (@rev Z)) in E. rewrite rev_involutive in E. discriminate. }
    rewrite counter_spec. cbv zeta. unfold total.
    replace (length (x0 :: r)) with (length (y :: t)); [reflexivity|].
    rewrite <- E. apply rev_length.
  - rewrite counter_spec. reflexivity.
Qed.

Lemma pruned_pos d l : Forall (fun p => 1 <= snd p) (pruned d l).
Proof.
  unfold pruned. destruct (1 <=? d); [|apply rle_pos].
  apply Forall_forall. intros p Hp. pose proof (rle_pos l) as A. rewrite Forall_forall in A.
  apply A. rewrite <- (firstn_skipn (Z.to_nat d) (rle l)). apply in_or_app. now left.
Qed.
Lemma expand_app a b : expand (a ++ b) = expand a ++ expand b.
Proof. induction a as [|[v n] a IH]; simpl; [reflexivity|]. now rewrite IH, app_assoc. Qed.
Lemma expand_length c : Forall (fun p => 1 <= snd p) c -> Z.of_nat (length (expand c)) = total c.
Proof.
  induction 1 as [|[v n] c H1 H2 IH]; [reflexivity|].
  simpl. rewrite app_length, repeat_length. unfold total in *. simpl in *. lia.
Qed.
Lemma pruned_prefix d l : exists rest, l = expand (pruned d l) ++ rest.
Proof.
  unfold pruned. destruct (1 <=? d).
  - exists (expand (skipn (Z.to_nat d) (rle l))). rewrite <- expand_app, firstn_skipn. now rewrite expand_rle.
  - exists []. now rewrite app_nil_r, expand_rle.
Qed.
Lemma pruned_cons d x r : exists c t, pruned d (x :: r) = (x, c) :: t.
Proof.
  destruct (rle_head x r) as (c & t & E). unfold pruned. rewrite E. destruct (1 <=? d) eqn:D; [|eauto].
  destruct (Z.to_nat d) eqn:F; [lia|]. simpl. eauto.
Qed.

Lemma total_nonneg c : Forall (fun p => 1 <= snd p) c -> 0 <= total c.
Proof. intros H. rewrite <- expand_length by exact H. lia. Qed.

Lemma total_cons v n c : total ((v, n) :: c) = n + total c.
Proof. reflexivity. Qed.

Lemma find_left_spec c : Forall (fun p => 1 <= snd p) c -> forall off i,
  off <= i < off + total c ->
  find_left (intervals_from off c) i = nth_error (expand c) (Z.to_nat (i - off)).
Proof.
  induction 1 as [|[v n] c H1 H2 IH]; intros off i Hi.
  - unfold total in Hi. simpl in Hi. lia.
  - rewrite total_cons in Hi. simpl in *. destruct (i <? off + n) eqn:E.
    + rewrite nth_error_app1 by (rewrite repeat_length; lia).
      symmetry. rewrite nth_error_repeat by lia. reflexivity.
    + rewrite IH by lia. rewrite nth_error_app2 by (rewrite repeat_length; lia).
      rewrite repeat_length. f_equal. lia.
Qed.
Lemma find_left_below c v n off i : 1 <= n -> i < off + n -> find_left (intervals_from off ((v, n) :: c)) i = Some v.
Proof. intros Hn H. simpl. destruct (i <? off + n) eqn:E; [reflexivity|lia]. Qed.

Lemma find_right_mirror n ts i :
  find_right (map (fun p => (n - fst p, snd p)) ts) i = find_left ts (n - 1 - i).
Proof.
  induction ts as [|[e v] ts IH]; simpl; [reflexivity|].
  rewrite IH. destruct (n - e <=? i) eqn:A, (n - 1 - i <? e) eqn:B; try reflexivity; lia.
Qed.

(** facts about a side's shift *)
Lemma shift_bounds d l : l <> [] -> 1 <= total (pruned d l) <= Z.of_nat (length l).
Proof.
  intros H. destruct (pruned_prefix d l) as [rest E].
  apply (f_equal (@length Z)) in E. rewrite app_length in E.
  pose proof (expand_length _ (pruned_pos d l)) as L.
  destruct l as [|x r]; [congruence|].
  destruct (pruned_cons d x r) as (c & t & P).
  pose proof (pruned_pos d (x :: r)) as Q. rewrite P in Q. inversion_clear Q as [|? ? Q1 Q2]. simpl in Q1.
  pose proof (total_nonneg t Q2). rewrite P in *. rewrite total_cons in *. simpl in Q1. lia.
Qed.
Lemma pruned_nth d l k : (Z.of_nat k < total (pruned d l)) ->
  nth_error (expand (pruned d l)) k = nth_error l k.
Proof.
  intros H. destruct (pruned_prefix d l) as [rest E].
  rewrite E at 2. rewrite nth_error_app1; [reflexivity|].
  rewrite <- (expand_length _ (pruned_pos d l)) in H. lia.
Qed.

Lemma mk_rlut_sym lut d m : lut <> [] ->
  let n := Z.of_nat (length lut) in
  let ls := total (pruned d lut) in
  let rs := total (pruned d (rev lut)) in
  mk_rlut lut d m false =
  {| r_lut := lut; r_depth := d; r_asym := false; r_min := m;
     r_ls := ls; r_lt := intervals_from 0 (pruned d lut);
     r_rs := rs;
     r_rt := map (fun p => (n - fst p, snd p)) (intervals_from 0 (pruned d (rev lut)));
     r_red := firstn (Z.to_nat (n - rs - ls)) (skipn (Z.to_nat ls) lut) |}.
Proof.
  intros H n ls rs. unfold mk_rlut. rewrite !reduce_spec by exact H. fold ls rs n.
  assert (Hrev : rev lut <> []).
  { intros E. apply (f_equal (@rev Z)) in E. rewrite rev_involutive in E. now apply H. }
  pose proof (shift_bounds d lut H) as B1. pose proof (shift_bounds d (rev lut) Hrev) as B2.
  rewrite rev_length in B2. fold n ls rs in B1, B2.
  f_equal. unfold py_slice. fold n.
  destruct (rs =? 0) eqn:E; [lia|]. unfold py_norm.
  destruct (ls <? 0) eqn:E1; [lia|]. destruct (- rs <? 0) eqn:E2; [|lia].
  rewrite Z.min_l by lia. rewrite Z.max_r by lia. f_equal. lia.
Qed.

Lemma nth_error_rev {A} (l : list A) k : (k < length l)%nat ->
  nth_error (rev l) k = nth_error l (length l - 1 - k).
Proof.
  intros H. destruct l as [|a l']; [simpl in H; lia|]. set (l := a :: l') in *.
  rewrite (nth_error_nth' (rev l) a) by (rewrite rev_length; exact H).
  rewrite (nth_error_nth' l a) by lia. f_equal.
  rewrite rev_nth by exact H. f_equal. lia.
Qed.

(** The main lookup characterisation: every integer index saturates into the table. *)
Lemma getitem_spec lut d m i : lut <> [] ->
  getitem (mk_rlut lut d m false) i = py_index lut (clipZ 0 (Z.of_nat (length lut) - 1) i).
Proof.
  intros H. rewrite (mk_rlut_sym lut d m H). set (n := Z.of_nat (length lut)).
  assert (Hrev : rev lut <> []).
  { intros E. apply (f_equal (@rev Z)) in E. rewrite rev_involutive in E. now apply H. }
  pose proof (shift_bounds d lut H) as B1. pose proof (shift_bounds d (rev lut) Hrev) as B2.
  rewrite rev_length in B2. fold n in B1, B2.
  set (ls := total (pruned d lut)) in *. set (rs := total (pruned d (rev lut))) in *.
  assert (Hn : 1 <= n) by (unfold n; destruct lut; [congruence|simpl; lia]).
  set (j := clipZ 0 (n-1) i).
  assert (Hj : 0 <= j < n) by (unfold j, clipZ; lia).
  destruct (py_index_nonneg lut j Hj) as (a & Ha & ->).
  unfold getitem. cbn [r_ls r_lt r_rt r_red].
  destruct (i <? ls) eqn:E.
  - (* head *)
    destruct (Z_lt_le_dec i 0) as [L|L].
    + destruct lut as [|x r]; [congruence|]. destruct (pruned_cons d x r) as (c & t & P).
      rewrite P. pose proof (pruned_pos d (x :: r)) as Q. rewrite P in Q. inversion_clear Q as [|? ? Q1 Q2].
      simpl in Q1. rewrite find_left_below by lia. f_equal.
      replace j with 0 in Ha by (unfold j, clipZ; lia). simpl in Ha. congruence.
    + rewrite find_left_spec; [|apply pruned_pos|fold ls; lia].
      rewrite Z.sub_0_r. rewrite pruned_nth by (fold ls; lia).
      replace j with i in Ha by (unfold j, clipZ; lia). now rewrite Ha.
  - destruct (i - ls <? Z.of_nat (length (firstn (Z.to_nat (n - rs - ls)) (skipn (Z.to_nat ls) lut)))) eqn:E2.
    + (* middle *)
      assert (Hm : 0 <= i - ls < Z.of_nat (length (firstn (Z.to_nat (n - rs - ls)) (skipn (Z.to_nat ls) lut)))) by lia.
      destruct (py_index_nonneg _ _ Hm) as (b & Hb & ->). f_equal.
      rewrite firstn_length in Hm.
      assert (Hlt : (Z.to_nat (i - ls) < Z.to_nat (n - rs - ls))%nat) by lia.
      assert (X : nth_error (firstn (Z.to_nat (n - rs - ls)) (skipn (Z.to_nat ls) lut)) (Z.to_nat (i - ls))
                  = nth_error lut (Z.to_nat i)).
      { rewrite <- (firstn_skipn (Z.to_nat ls) lut) at 2.
        rewrite nth_error_app2 by (rewrite firstn_length; lia).
        rewrite firstn_length. replace (Nat.min (Z.to_nat ls) (length lut)) with (Z.to_nat ls) by lia.
        replace (Z.to_nat i - Z.to_nat ls)%nat with (Z.to_nat (i - ls)) by lia.
        set (q := skipn (Z.to_nat ls) lut). set (k := Z.to_nat (i - ls)) in *. set (w := Z.to_nat (n - rs - ls)) in *.
        rewrite <- (firstn_skipn w q) at 2.
        destruct (le_lt_dec (length q) k).
        - rewrite (proj2 (nth_error_None (firstn w q) k)) by (rewrite firstn_length; lia).
          symmetry. apply nth_error_None. rewrite firstn_skipn. exact l.
        - rewrite nth_error_app1; [reflexivity|]. rewrite firstn_length. lia. }
      rewrite X in Hb.
      replace j with i in Ha by (unfold j, clipZ; lia). congruence.
    + (* tail *)
      rewrite firstn_length, skipn_length in E2.
      rewrite find_right_mirror.
      destruct (Z_lt_le_dec i n) as [L|L].
      * rewrite find_left_spec; [|apply pruned_pos|fold rs; lia].
        rewrite Z.sub_0_r. rewrite pruned_nth by (fold rs; lia).
        rewrite nth_error_rev by lia.
        replace (length lut - 1 - Z.to_nat (n - 1 - i))%nat with (Z.to_nat i) by lia.
        replace j with i in Ha by (unfold j, clipZ; lia). now rewrite Ha.
      * destruct (rev lut) as [|x r] eqn:R; [congruence|].
        destruct (pruned_cons d x r) as (c & t & P). rewrite P.
        pose proof (pruned_pos d (x :: r)) as Q. rewrite P in Q. inversion_clear Q as [|? ? Q1 Q2]. simpl in Q1.
        rewrite find_left_below by lia. f_equal.
        replace j with (n-1) in Ha by (unfold j, clipZ; lia).
        assert (nth_error (rev lut) 0 = Some x) by (rewrite R; reflexivity).
        rewrite nth_error_rev in H0 by lia.
        replace (length lut - 1 - 0)%nat with (Z.to_nat (n-1)) in H0 by lia. congruence.
Qed.

Lemma getitem_empty d m a i : getitem (mk_rlut [] d m a) i = Err EIndexError.
Proof.
  unfold getitem, mk_rlut. destruct a; simpl; unfold py_slice; simpl;
  destruct (i <? 0) eqn:E; simpl;
  (destruct (i - 0 <? 0) eqn:E2; [|reflexivity]);
  unfold py_index; simpl; rewrite ?E2;
  match goal with |- (if ?b then _ else _) = _ => destruct b eqn:?; [reflexivity|lia] end.
Qed.

Lemma iter_spec lut d m : iter (mk_rlut lut d m false) = Ok lut.
Proof.
  destruct lut as [|x r] eqn:El; [reflexivity|]. rewrite <- El in *.
  assert (H : lut <> []) by (subst; congruence).
  assert (E : r_lut (mk_rlut lut d m false) = lut) by (rewrite (mk_rlut_sym lut d m H); reflexivity).
  unfold iter. rewrite E.
  rewrite (mapM_ok_map _ (fun i => nth (Z.to_nat i) lut 0)).
  - f_equal. rewrite map_map.
    transitivity (map (fun k => nth k lut 0) (seq 0 (length lut))).
    + apply map_ext. intros k. now rewrite Nat2Z.id.
    + clear. induction lut as [|y l IH]; simpl; [reflexivity|]. f_equal.
      rewrite <- seq_shift, map_map. exact IH.
  - intros i Hi. apply in_map_iff in Hi as (k & <- & Hk). apply in_seq in Hk.
    rewrite getitem_spec by exact H. rewrite clipZ_id by lia.
    destruct (py_index_nonneg lut (Z.of_nat k)) as (a & Ha & ->); [lia|].
    f_equal. symmetry. now apply nth_error_nth.
Qed.

Lemma deserialize_getitem r i : getitem (deserialize (serialize r)) i = getitem r i.
Proof. reflexivity. Qed.
Lemma deserialize_iter r : iter (deserialize (serialize r)) = Ok [].
Proof. unfold iter, deserialize, mk_rlut. simpl. destruct (r_asym r); reflexivity. Qed.

(** Size accounting *)
Lemma intervals_length off c : length (intervals_from off c) = length c.
Proof. revert off; induction c as [|[v n] c IH]; intros off; simpl; [reflexivity|]. now rewrite IH. Qed.
Lemma intervals_snd off c : map snd (intervals_from off c) = map fst c.
Proof. revert off; induction c as [|[v n] c IH]; intros off; simpl; [reflexivity|]. now rewrite IH. Qed.
Lemma intervals_nth_ends off c : Forall (fun p => 1 <= snd p) c -> forall i a b,
  nth_error (intervals_from off c) i = Some a -> nth_error (intervals_from off c) (S i) = Some b -> fst a < fst b.
Proof.
  intros H; revert off. induction H as [|[v n] c H1 H2 IH]; intros off i a b.
  - destruct i; discriminate.
  - destruct i as [|i].
    + cbn [intervals_from nth_error]. intros A B. injection A as <-.
      destruct c as [|[v' n'] c]; [discriminate|]. cbn [intervals_from nth_error] in B. injection B as <-.
      inversion_clear H2. cbn [fst snd] in *. lia.
    + cbn [intervals_from]. intros A B. cbn [nth_error] in A. eapply IH; [exact A|]. exact B.
Qed.
Lemma pruned_length d l : 1 <= d -> l <> [] -> 1 <= Z.of_nat (length (pruned d l)) <= d.
Proof.
  intros Hd H. destruct l as [|x r]; [congruence|].
  destruct (pruned_cons d x r) as (c & t & E). split.
  - rewrite E. simpl length. lia.
  - unfold pruned. destruct (1 <=? d) eqn:F; [|lia]. rewrite firstn_length. lia.
Qed.
Lemma nth_error_firstn_some {A} n (l : list A) i a : nth_error (firstn n l) i = Some a -> nth_error l i = Some a.
Proof.
  revert l i; induction n as [|n IH]; intros [|x l] [|i] H; simpl in *; try discriminate; auto.
Qed.
Lemma pruned_adjacent d l i a b :
  nth_error (pruned d l) i = Some a -> nth_error (pruned d l) (S i) = Some b -> fst a <> fst b.
Proof.
  unfold pruned. destruct (1 <=? d); [|apply rle_adjacent].
  intros A B. eapply rle_adjacent; eapply nth_error_firstn_some; eauto.
Qed.
Lemma intervals_adjacent off c : 
  (forall i a b, nth_error c i = Some a -> nth_error c (S i) = Some b -> fst a <> fst b) ->
  forall i a b, nth_error (intervals_from off c) i = Some a -> nth_error (intervals_from off c) (S i) = Some b -> snd a <> snd b.
Proof.
  intros H i a b A B.
  pose proof (f_equal (fun l => nth_error l i) (intervals_snd off c)) as X.
  pose proof (f_equal (fun l => nth_error l (S i)) (intervals_snd off c)) as Y.
  cbv beta in X, Y. rewrite !nth_error_map in X, Y. rewrite A in X. rewrite B in Y. simpl in X, Y.
  destruct (nth_error c i) as [p|] eqn:P; [|discriminate].
  change (match c with [] => None | _ :: l => nth_error l i end) with (nth_error c (S i)) in Y.
  destruct (nth_error c (S i)) as [q|] eqn:Q; [|discriminate]. simpl in X, Y.
  specialize (H i p q P Q). congruence.
Qed.

Lemma size_spec lut d m : lut <> [] -> 1 <= d ->
  let r := mk_rlut lut d m false in
  let n := Z.of_nat (length lut) in
  1 <= Z.of_nat (length (r_lt r)) <= d /\
  1 <= Z.of_nat (length (r_rt r)) <= d /\
  (forall i a b, nth_error (r_lt r) i = Some a -> nth_error (r_lt r) (S i) = Some b ->
     fst a < fst b /\ snd a <> snd b) /\
  (forall i a b, nth_error (r_rt r) i = Some a -> nth_error (r_rt r) (S i) = Some b ->
     fst b < fst a /\ snd a <> snd b) /\
  1 <= r_ls r <= n /\ 1 <= r_rs r <= n /\
  Z.of_nat (length (r_red r)) = Z.max 0 (n - r_ls r - r_rs r).
Proof.
  intros H Hd r n. subst r. rewrite (mk_rlut_sym lut d m H). fold n.
  cbn [r_lt r_rt r_ls r_rs r_red].
  assert (Hrev : rev lut <> []).
  { intros E. apply (f_equal (@rev Z)) in E. rewrite rev_involutive in E. now apply H. }
  pose proof (shift_bounds d lut H) as B1. pose proof (shift_bounds d (rev lut) Hrev) as B2.
  rewrite rev_length in B2. fold n in B1, B2.
  repeat split; try (rewrite ?map_length, ?intervals_length; now apply pruned_length); try lia.
  - eapply intervals_nth_ends; [apply pruned_pos| |]; eassumption.
  - eapply intervals_adjacent; [|eassumption|eassumption]. intros; eapply pruned_adjacent; eauto.
  - rewrite nth_error_map in H0, H1.
    destruct (nth_error (intervals_from _ _) i) as [p|] eqn:P; [|discriminate].
    destruct (nth_error (intervals_from _ _) (S i)) as [q|] eqn:Q; [|discriminate].
    simpl in H0, H1. injection H0 as <-. injection H1 as <-. simpl.
    assert (fst p < fst q); [|lia]. eapply intervals_nth_ends; [apply pruned_pos| |]; eassumption.
  - rewrite nth_error_map in H0, H1.
    destruct (nth_error (intervals_from _ _) i) as [p|] eqn:P; [|discriminate].
    destruct (nth_error (intervals_from _ _) (S i)) as [q|] eqn:Q; [|discriminate].
    simpl in H0, H1. injection H0 as <-. injection H1 as <-. simpl.
    eapply intervals_adjacent; [|eassumption|eassumption]. intros; eapply pruned_adjacent; eauto.
  - rewrite firstn_length, skipn_length. unfold n in *. lia.
Qed.
