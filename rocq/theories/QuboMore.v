From Verif Require Import Base BaseProofs QuboModel QuboProofs SpecQubo QuboEnergy.
Open Scope Q_scope.
Open Scope list_scope.

(** * Variable order *)
Lemma add_vars_app A B vs : add_vars (A ++ B) vs = add_vars B (add_vars A vs).
Proof. revert vs; induction A as [|[[u v] q] A IH]; intros vs; simpl; [reflexivity|]. apply IH. Qed.
Lemma existsb_eqb_in u vs : existsb (Nat.eqb u) vs = true <-> In u vs.
Proof.
  rewrite existsb_exists. split.
  - intros (y & H & E). apply Nat.eqb_eq in E. now subst.
  - intros H. exists u. split; [exact H|apply Nat.eqb_refl].
Qed.
Lemma add_vars_noop D vs : (forall p, In p D -> In (fst (fst p)) vs /\ In (snd (fst p)) vs) -> add_vars D vs = vs.
Proof.
  induction D as [|[[u v] q] D IH]; intros H; simpl; [reflexivity|].
  destruct (H _ (or_introl eq_refl)) as [A B]. simpl in A, B.
  apply existsb_eqb_in in A, B. rewrite A, B. apply IH. intros; apply H; now right.
Qed.
Section V.
Context (I : inst).
Let n := iIn I. Let m := iOut I.

Lemma add_vars_e1 l L vs : 
  (forall i, In i L -> ~ In (kvar I l i) vs) -> NoDup L ->
  add_vars (flat_map (fun i => [((kvar I l i, kvar I l i), suma1 I l i)]) L) vs = vs ++ map (kvar I l) L.
Proof.
  revert vs; induction L as [|i L IH]; intros vs H ND; simpl; [now rewrite app_nil_r|].
  inversion_clear ND as [|? ? Hi Hn].
  destruct (existsb (Nat.eqb (kvar I l i)) vs) eqn:E.
  { exfalso. apply existsb_eqb_in in E. apply (H i); [now left|exact E]. }
  assert (X : existsb (Nat.eqb (kvar I l i)) (vs ++ [kvar I l i]) = true).
  { apply existsb_eqb_in. apply in_or_app. right. now left. }
  rewrite X, IH; auto.
  - rewrite <- app_assoc. reflexivity.
  - intros j Hj X'. apply in_app_or in X' as [X'|[X'|[]]].
    + eapply H; [right; exact Hj|exact X'].
    + unfold kvar in X'. assert (i = j) by lia. subst. contradiction.
Qed.

Lemma variables_canon l : (l < m)%nat ->
  variables (canon I l) = map (kvar I l) (seq 0 n) ++ [bvar I l].
Proof.
  intros Hl. unfold variables, canon. rewrite !add_vars_app.
  change (e1 I l) with (flat_map (fun i => [((kvar I l i, kvar I l i), suma1 I l i)]) (seq 0 n)).
  rewrite add_vars_e1; [|intros i _ []|apply seq_NoDup]. rewrite app_nil_l.
  assert (K : forall i, (i < n)%nat -> In (kvar I l i) (map (kvar I l) (seq 0 n))).
  { intros i Hi. apply in_map, in_seq. lia. }
  rewrite (add_vars_noop (e2 I _ l)).
  2:{ intros p Hp. apply in_e2 in Hp as (i & j & Hi & Hj & _ & ->). simpl.
      split; apply K; assumption. }
  simpl (add_vars (e3 I l) _). fold n m. 
  change (n * m + 1 + l)%nat with (bvar I l).
  destruct (existsb (Nat.eqb (bvar I l)) (map (kvar I l) (seq 0 n))) eqn:E.
  { exfalso. apply existsb_eqb_in, in_map_iff in E as (i & E & Hi). apply in_seq in Hi.
    pose proof (kv_lt I l i Hl ltac:(fold n; lia)) as X. unfold kvar, bvar in E, X. lia. }
  assert (X : existsb (Nat.eqb (bvar I l)) (map (kvar I l) (seq 0 n) ++ [bvar I l]) = true).
  { apply existsb_eqb_in, in_or_app. right. now left. }
  change (n * m + 1 + l)%nat with (bvar I l) in *.
  rewrite X. apply add_vars_noop. intros p Hp.
  apply in_e4 in Hp as (i & Hi & [-> | ->]); simpl; split; apply in_or_app;
  try (left; apply K; assumption); right; now left.
Qed.

Lemma py_slice_prefix {A} (a b : list A) : py_slice (a ++ b) (Some 0%Z) (Some (Z.of_nat (length a))) = a.
Proof.
  unfold py_slice, py_norm. rewrite app_length.
  destruct (0 <? 0)%Z eqn:E; [lia|]. destruct (Z.of_nat (length a) <? 0)%Z eqn:E2; [lia|].
  rewrite Z.min_l by lia. rewrite Z.min_l by lia. rewrite Z.sub_0_r, Nat2Z.id. simpl skipn.
  rewrite firstn_app, Nat.sub_diag, firstn_all, firstn_O. apply app_nil_r.
Qed.
Lemma decode_canon l x : (l < m)%nat ->
  decode n (sample_row (canon I l) x) = Ok (map (fun i => x (kvar I l i)) (seq 0 n), x (bvar I l)).
Proof.
  intros Hl. unfold decode, sample_row. rewrite (variables_canon l Hl), map_app, map_map.
  set (a := map (fun i => x (kvar I l i)) (seq 0 n)). simpl (map x [_]).
  assert (La : length a = n) by (unfold a; now rewrite map_length, seq_length).
  assert (P : py_index (a ++ [x (bvar I l)]) (Z.of_nat n) = Ok (x (bvar I l))).
  { destruct (py_index_nonneg (a ++ [x (bvar I l)]) (Z.of_nat n)) as (y & Hy & ->).
    - rewrite app_length. simpl. lia.
    - f_equal. rewrite Nat2Z.id, nth_error_app2, La, Nat.sub_diag in Hy by lia. simpl in Hy. congruence. }
  rewrite P. cbn [rbind]. rewrite <- La at 1. now rewrite py_slice_prefix.
Qed.

(** * Total dictionary *)
Lemma energy_total x L : energy (total_upto I L) x == sumQ (map (fun l => energy (canon I l) x) (seq 0 L)).
Proof. unfold total_upto. apply energy_flat_map. Qed.

(** * Matrix *)
Definition upd_from (D : dict) (i j : nat) (q : Q) : Q :=
  match dget (i + 1, j + 1)%nat D with Some v => v | None => q end.
Lemma dget_app k A B : dget k (A ++ B) = match dget k A with Some v => Some v | None => dget k B end.
Proof. induction A as [|[k' v] A IH]; simpl; [reflexivity|]. destruct (keqb k k'); auto. Qed.

Definition terms_of (l : nat) : terms :=
  {| t1 := e1 I l; t2 := e2 I (bt2_calc I) l; t3 := e3 I l; t4 := e4 I (bt4_calc I) l |}.
Lemma mat_cell_eq l i j M a b : (l < m)%nat ->
  mat_cell (terms_of l) i j M a b =
  if (a =? i)%nat && (b =? j)%nat then upd_from (canon I l) i j (M i j) else M a b.
Proof.
  intros Hl. pose proof (nodup_canon I l Hl) as ND. unfold canon in ND. rewrite !keys_app in ND.
  unfold mat_cell, upd_from, terms_of, canon. cbn [t1 t2 t3 t4]. rewrite !dget_app.
  set (k := (i + 1, j + 1)%nat).
  assert (Dg : forall D v, dget k D = Some v -> In k (keys D)).
  { intros D v H. apply dget_some_in in H. apply (in_map fst) in H. exact H. }
  assert (G1 : forall v, dget k (e1 I l) = Some v -> (i =? j)%nat = true).
  { intros v H. apply dget_some_in, in_e1 in H as (z & _ & E). unfold k in E. injection E as E1 E2 _.
    apply Nat.eqb_eq. lia. }
  assert (G3 : forall v, dget k (e3 I l) = Some v -> (i =? j)%nat = true).
  { intros v H. apply dget_some_in in H as [E|[]]. unfold k in E. injection E as E1 E2 _.
    apply Nat.eqb_eq. lia. }
  destruct (dget k (e1 I l)) as [v1|] eqn:E1;
  [rewrite (G1 _ eq_refl)|];
  (destruct (dget k (e2 I (bt2_calc I) l)) as [v2|] eqn:E2;
  [try (exfalso; apply (NoDup_app_disj _ _ k ND (Dg _ _ E1)); apply in_or_app; left; exact (Dg _ _ E2))|]);
  (destruct (dget k (e3 I l)) as [v3|] eqn:E3; 
  [try (exfalso; apply (NoDup_app_disj _ _ k ND (Dg _ _ E1)); apply in_or_app; right; apply in_or_app; left; exact (Dg _ _ E3));
   try (exfalso; apply NoDup_app_r in ND; apply (NoDup_app_disj _ _ k ND (Dg _ _ E2)); apply in_or_app; left; exact (Dg _ _ E3));
   rewrite (G3 _ eq_refl)|]);
  (destruct (dget k (e4 I (bt4_calc I) l)) as [v4|] eqn:E4;
  [try (exfalso; apply (NoDup_app_disj _ _ k ND (Dg _ _ E1)); apply in_or_app; right; apply in_or_app; right; exact (Dg _ _ E4));
   try (exfalso; apply NoDup_app_r in ND; apply (NoDup_app_disj _ _ k ND (Dg _ _ E2)); apply in_or_app; right; exact (Dg _ _ E4));
   try (exfalso; apply NoDup_app_r, NoDup_app_r in ND; apply (NoDup_app_disj _ _ k ND (Dg _ _ E3)); exact (Dg _ _ E4))|]);
  unfold mset; destruct (i =? j)%nat; 
  destruct ((a =? i)%nat && (b =? j)%nat) eqn:Eab; try reflexivity;
  apply andb_true_iff in Eab as [X Y]; apply Nat.eqb_eq in X, Y; now subst.
Qed.

Lemma for_range_S {S} k (body : nat -> S -> S) s : for_range (Datatypes.S k) body s = body k (for_range k body s).
Proof. unfold for_range. rewrite seq_S, fold_left_app. reflexivity. Qed.

Lemma row_loop (cell : nat -> nat -> mat -> mat) (U : nat -> nat -> Q -> Q) :
  (forall i j M a b, cell i j M a b = if (a =? i)%nat && (b =? j)%nat then U i j (M i j) else M a b) ->
  forall T i M a b, for_range T (fun j M => cell i j M) M a b =
    if (a =? i)%nat && (b <? T)%nat then U a b (M a b) else M a b.
Proof.
  intros H T i M a b. induction T as [|T IH].
  - simpl. rewrite andb_false_r. reflexivity.
  - rewrite for_range_S, H.
    destruct (Nat.eqb_spec a i) as [->|Ha]; simpl in *; [|exact IH].
    destruct (Nat.eqb_spec b T) as [->|Hb].
    + rewrite Nat.ltb_irrefl in IH. rewrite IH.
      destruct (Nat.ltb_spec T (S T)); [reflexivity|lia].
    + rewrite IH. destruct (Nat.ltb_spec b T), (Nat.ltb_spec b (S T)); try reflexivity; lia.
Qed.
Lemma mat_loop (cell : nat -> nat -> mat -> mat) (U : nat -> nat -> Q -> Q) :
  (forall i j M a b, cell i j M a b = if (a =? i)%nat && (b =? j)%nat then U i j (M i j) else M a b) ->
  forall T L M a b, for_range L (fun i M => for_range T (fun j M => cell i j M) M) M a b =
    if (a <? L)%nat && (b <? T)%nat then U a b (M a b) else M a b.
Proof.
  intros H T L M a b. induction L as [|L IH]; [reflexivity|].
  rewrite for_range_S, (row_loop cell U H).
  destruct (Nat.eqb_spec a L) as [->|Ha]; simpl.
  - rewrite Nat.ltb_irrefl in IH. simpl in IH. rewrite IH.
    destruct (Nat.ltb_spec L (S L)); [reflexivity|lia].
  - rewrite IH. destruct (Nat.ltb_spec a L), (Nat.ltb_spec a (S L)); try reflexivity; lia.
Qed.

(** The matrix after processing neurons 0..L-1 *)
Definition final_matrix (L : nat) : mat :=
  for_range L (fun l M => matrix_calculation I (terms_class I l) M) (fun _ _ => 0).
Let T := (m * n + m)%nat.
Lemma terms_class_of l : (l < m)%nat -> terms_class I l = terms_of l.
Proof. apply terms_class_eq. Qed.
Lemma matrix_calculation_at l M a b : (l < m)%nat -> (a < T)%nat -> (b < T)%nat ->
  matrix_calculation I (terms_class I l) M a b = upd_from (canon I l) a b (M a b).
Proof.
  intros Hl Ha Hb. rewrite terms_class_of by exact Hl. unfold matrix_calculation. fold n m. fold T.
  rewrite (mat_loop (mat_cell (terms_of l)) (upd_from (canon I l)) (fun i j M a b => mat_cell_eq l i j M a b Hl)).
  destruct (Nat.ltb_spec a T), (Nat.ltb_spec b T); try lia. reflexivity.
Qed.
Lemma final_matrix_at L a b : (L <= m)%nat -> (a < T)%nat -> (b < T)%nat ->
  final_matrix L a b = upd_from (total_upto I L) a b 0.
Proof.
  induction L as [|L IH]; intros HL Ha Hb; [reflexivity|].
  unfold final_matrix. rewrite for_range_S. fold (final_matrix L).
  rewrite matrix_calculation_at by lia. rewrite IH by lia.
  unfold upd_from, total_upto. rewrite seq_S, flat_map_app, dget_app. simpl. rewrite app_nil_r.
  fold (total_upto I L). set (k := (a + 1, b + 1)%nat).
  destruct (dget k (canon I L)) as [v|] eqn:E; [|destruct (dget k (total_upto I L)); reflexivity].
  rewrite (dget_none k (total_upto I L)); [reflexivity|].
  intros X. unfold total_upto in X. rewrite keys_flat_map in X by exact I. apply in_flat_map in X as (l' & Hl' & X).
  apply in_seq in Hl'. apply dget_some_in in E. apply (in_map fst) in E. simpl in E.
  assert (l' = L) by (eapply (canon_disjoint I); eauto; fold m; lia). lia.
Qed.

Lemma sum_n_single k f i : (i < k)%nat -> (forall j, (j < k)%nat -> j <> i -> f j == 0) -> sum_n k f == f i.
Proof.
  intros Hi H. unfold sum_n. induction k as [|k IH]; [lia|].
  rewrite seq_S, map_app, sumQ_app. simpl.
  destruct (Nat.eq_dec i k) as [->|Hne].
  - rewrite sumQ_map_zero; [lra|]. intros j Hj. apply in_seq in Hj. apply H; lia.
  - rewrite IH; [|lia|intros; apply H; lia]. rewrite (H k) by lia. lra.
Qed.
Lemma quad_form_energy D x : NoDup (keys D) ->
  (forall k, In k (keys D) -> (1 <= fst k <= T)%nat /\ (1 <= snd k <= T)%nat) ->
  sum_n T (fun a => sum_n T (fun b => upd_from D a b 0 * (bit (x (a + 1)%nat) * bit (x (b + 1)%nat)))) == energy D x.
Proof.
  induction D as [|[[u v] q] D IH]; intros ND H.
  - unfold energy. simpl. apply (sum_n_zero I). intros. apply (sum_n_zero I). intros. unfold upd_from. simpl. ring.
  - inversion_clear ND as [|? ? Hk ND'].
    destruct (H _ (or_introl eq_refl)) as [Hu Hv]. simpl in Hu, Hv.
    assert (E : energy (((u, v), q) :: D) x == q * (bit (x u) * bit (x v)) + energy D x) by reflexivity.
    rewrite E, <- IH; [|exact ND'|intros k' Hk'; apply H; now right].
    set (g a b := if ((a + 1 =? u)%nat && (b + 1 =? v)%nat) then q * (bit (x u) * bit (x v)) else 0).
    rewrite (sum_n_ext T _ (fun a => sum_n T (g a) + sum_n T (fun b => upd_from D a b 0 * (bit (x (a + 1)%nat) * bit (x (b + 1)%nat))))).
    + rewrite sum_n_plus. apply Qplus_comp; [|reflexivity].
      rewrite (sum_n_single T _ (u - 1)%nat); [|lia|].
      * rewrite (sum_n_single T _ (v - 1)%nat); [|lia|].
        -- unfold g. replace (u - 1 + 1)%nat with u by lia. replace (v - 1 + 1)%nat with v by lia.
           now rewrite !Nat.eqb_refl.
        -- intros j Hj Hne. unfold g. destruct (Nat.eqb_spec (j + 1) v); [lia|]. now rewrite andb_false_r.
      * intros j Hj Hne. apply (sum_n_zero I). intros b _. unfold g.
        destruct (Nat.eqb_spec (j + 1) u); [lia|]. reflexivity.
    + intros a Ha. rewrite <- sum_n_plus. apply sum_n_ext. intros b Hb.
      unfold upd_from, g. cbn [dget]. unfold keqb at 1. cbn [fst snd].
      destruct (Nat.eqb_spec (a + 1) u) as [<-|N1]; [destruct (Nat.eqb_spec (b + 1) v) as [<-|N2]|]; simpl; try ring.
      rewrite dget_none by exact Hk. ring.
Qed.
Lemma total_keys_range k : In k (keys (total_upto I m)) -> (1 <= fst k <= T)%nat /\ (1 <= snd k <= T)%nat.
Proof.
  intros H. unfold total_upto in H. rewrite keys_flat_map in H by exact I. apply in_flat_map in H as (l & Hl & H).
  apply in_seq in Hl.
  assert (B : (1 <= bvar I l <= T)%nat) by (unfold bvar, T; fold n m; nia).
  assert (K : forall i, (i < n)%nat -> (1 <= kvar I l i <= T)%nat).
  { intros i Hi. pose proof (kv_lt I l i ltac:(fold m; lia) Hi) as X. fold n m in X. unfold T. lia. }
  apply (in_canon_key I) in H; [|fold m; lia]. 
  destruct H as [(i & Hi & ->)|[(i & j & Hi & Hj & _ & ->)|[->|(i & Hi & [-> | ->])]]]; simpl; auto.
Qed.
Lemma matrix_energy x :
  sum_n T (fun a => sum_n T (fun b => final_matrix m a b * (bit (x (a + 1)%nat) * bit (x (b + 1)%nat))))
  == energy (total_upto I m) x.
Proof.
  rewrite <- quad_form_energy.
  - apply sum_n_ext. intros a Ha. apply sum_n_ext. intros b Hb. rewrite final_matrix_at by (lia || assumption). reflexivity.
  - apply nodup_total. fold m. lia.
  - apply total_keys_range.
Qed.
End V.

(** * Minimisers exist *)
Fixpoint all_bits (k : nat) : list (list bool) :=
  match k with
  | O => [[]]
  | S k => map (cons false) (all_bits k) ++ map (cons true) (all_bits k)
  end.
Lemma all_bits_in l : In l (all_bits (length l)).
Proof.
  induction l as [|[] l IH]; simpl; [now left| |]; apply in_or_app; [right|left]; now apply in_map.
Qed.
Lemma all_bits_nonempty k : all_bits k <> [].
Proof. induction k; simpl; [congruence|]. destruct (all_bits k); [congruence|discriminate]. Qed.
Lemma argmin {A} (f : A -> Q) l : l <> [] -> exists a, In a l /\ forall b, In b l -> f a <= f b.
Proof.
  induction l as [|x l IH]; intros H; [congruence|].
  destruct l as [|y l'].
  - exists x. split; [now left|]. intros b [<-|[]]. lra.
  - destruct IH as (a & Ha & Hm); [congruence|].
    destruct (Qlt_le_dec (f a) (f x)).
    + exists a. split; [now right|]. intros b [<-|Hb]; [lra|auto].
    + exists x. split; [now left|]. intros b [<-|Hb]; [lra|]. specialize (Hm b Hb). lra.
Qed.
Definition assign (vs : list nat) (bits : list bool) (u : nat) : bool :=
  match find (fun p => (fst p =? u)%nat) (combine vs bits) with Some p => snd p | None => false end.
Lemma assign_map vs (y : nat -> bool) u : In u vs -> assign vs (map y vs) u = y u.
Proof.
  unfold assign. induction vs as [|v vs IH]; simpl; intros H; [contradiction|].
  destruct (Nat.eqb_spec v u) as [->|Hne]; simpl; [reflexivity|]. apply IH. intuition.
Qed.
Lemma energy_ext D x y : (forall u, In u (variables D) -> x u = y u) -> energy D x == energy D y.
Proof.
  intros H.
  assert (K : forall D vs p, In p D \/ False -> In (fst (fst p)) (add_vars D vs) /\ In (snd (fst p)) (add_vars D vs)).
  { assert (Mono : forall D vs u, In u vs -> In u (add_vars D vs)).
    { induction D0 as [|[[a b] q] D0 IH]; intros vs u Hu; simpl; [exact Hu|]. apply IH.
      destruct (existsb (Nat.eqb a) vs); destruct (existsb (Nat.eqb b) _); try apply in_or_app; auto;
      left; try apply in_or_app; auto. }
    induction D0 as [|[[a b] q] D0 IH]; intros vs p [Hp|[]]; [destruct Hp|].
    destruct Hp as [<-|Hp]; [|cbn [add_vars]; apply IH; auto].
    cbn [add_vars fst snd].
    set (vs1 := if existsb (Nat.eqb a) vs then vs else vs ++ [a]).
    set (vs2 := if existsb (Nat.eqb b) vs1 then vs1 else vs1 ++ [b]).
    assert (A1 : In a vs1).
    { unfold vs1. destruct (existsb (Nat.eqb a) vs) eqn:E; [now apply existsb_eqb_in|]. apply in_or_app. right. now left. }
    assert (A2 : In b vs2).
    { unfold vs2. destruct (existsb (Nat.eqb b) vs1) eqn:E; [now apply existsb_eqb_in|]. apply in_or_app. right. now left. }
    assert (A3 : In a vs2).
    { unfold vs2. destruct (existsb (Nat.eqb b) vs1); [exact A1|]. apply in_or_app. now left. }
    split; apply Mono; assumption. }
  unfold energy. apply sumQ_map_ext. intros p Hp.
  destruct (K D [] p (or_introl Hp)) as [A B]. rewrite (H _ A), (H _ B). reflexivity.
Qed.
Lemma minimiser_exists D : exists x, forall y, energy D x <= energy D y.
Proof.
  set (vs := variables D).
  destruct (argmin (fun bits => energy D (assign vs bits)) (all_bits (length vs)) (all_bits_nonempty _)) as (a & _ & H).
  exists (assign vs a). intros y.
  rewrite (energy_ext D y (assign vs (map y vs))).
  - apply H. rewrite <- (map_length y vs). apply all_bits_in.
  - intros u Hu. symmetry. now apply assign_map.
Qed.
