From Verif Require Import Base BaseProofs QuboModel SpecQubo.
Open Scope Q_scope.
Open Scope list_scope.

(** * Dictionaries *)
Lemma keqb_eq a b : keqb a b = true <-> a = b.
Proof.
  unfold keqb. destruct a as [a1 a2], b as [b1 b2]; simpl.
  rewrite andb_true_iff, !Nat.eqb_eq. split; [intros []; congruence|]. intros H; injection H; auto.
Qed.
Lemma keqb_refl a : keqb a a = true. Proof. now apply keqb_eq. Qed.
Lemma keqb_neq a b : a <> b -> keqb a b = false.
Proof. intros H. destruct (keqb a b) eqn:E; [|reflexivity]. apply keqb_eq in E. congruence. Qed.
Definition keys (D : dict) : list key := map fst D.
Definition dvalsq (D : dict) : list Q := map snd D.

Lemma dset_fresh k v D : ~ In k (keys D) -> dset k v D = D ++ [(k, v)].
Proof.
  induction D as [|[k' v'] D IH]; simpl; intros H; [reflexivity|].
  rewrite keqb_neq by intuition. f_equal. apply IH. intuition.
Qed.
Lemma dset_same k v D : dget k D = Some v -> dset k v D = D.
Proof.
  induction D as [|[k' v'] D IH]; simpl; [discriminate|].
  destruct (keqb k k') eqn:E; intros H.
  - injection H as ->. reflexivity.
  - f_equal. auto.
Qed.
Lemma dget_in k v D : NoDup (keys D) -> In (k, v) D -> dget k D = Some v.
Proof.
  induction D as [|[k' v'] D IH]; simpl; [intuition|]. intros ND [H|H].
  - injection H as -> ->. now rewrite keqb_refl.
  - inversion_clear ND as [|? ? A B]. rewrite keqb_neq; [auto|].
    intros ->. apply A. apply (in_map fst) in H. exact H.
Qed.
Lemma dget_none k D : ~ In k (keys D) -> dget k D = None.
Proof.
  induction D as [|[k' v'] D IH]; simpl; intros H; [reflexivity|]. rewrite keqb_neq; intuition.
Qed.
Lemma dget_some_in k v D : dget k D = Some v -> In (k, v) D.
Proof.
  induction D as [|[k' v'] D IH]; simpl; [discriminate|].
  destruct (keqb k k') eqn:E; intros H; [|auto].
  apply keqb_eq in E. injection H as ->. subst. now left.
Qed.
Lemma keys_app A B : keys (A ++ B) = keys A ++ keys B. Proof. apply map_app. Qed.

Lemma NoDup_app_l {A} (a b : list A) : NoDup (a ++ b) -> NoDup a.
Proof. induction a; simpl; intros H; [constructor|]. inversion_clear H. constructor; auto. intros X; apply H0, in_or_app; auto. Qed.
Lemma NoDup_app_r {A} (a b : list A) : NoDup (a ++ b) -> NoDup b.
Proof. induction a; simpl; intros H; [exact H|]. inversion_clear H. auto. Qed.
Lemma NoDup_app_disj {A} (a b : list A) x : NoDup (a ++ b) -> In x a -> In x b -> False.
Proof.
  induction a; simpl; intros H Ha Hb; [exact Ha|]. inversion_clear H as [|? ? X Y].
  destruct Ha as [->|Ha]; [apply X, in_or_app; auto|eauto].
Qed.
Lemma NoDup_app_intro {A} (a b : list A) : NoDup a -> NoDup b -> (forall x, In x a -> In x b -> False) -> NoDup (a ++ b).
Proof.
  induction a as [|y a IH]; simpl; intros Ha Hb H; [exact Hb|]. inversion_clear Ha. constructor.
  - intros X. apply in_app_or in X as [X|X]; [auto|]. eapply H; eauto.
  - apply IH; auto. intros x X Y. eapply H; eauto.
Qed.

Lemma dupdate_fresh E : forall D, NoDup (keys D ++ keys E) -> dupdate D E = D ++ E.
Proof.
  unfold dupdate. induction E as [|[k v] E IH]; intros D H; simpl; [now rewrite app_nil_r|].
  simpl in H. rewrite dset_fresh.
  - rewrite IH.
    + rewrite <- app_assoc. reflexivity.
    + rewrite keys_app, <- app_assoc. simpl. exact H.
  - intros X. apply (NoDup_app_disj _ _ k H X). now left.
Qed.
Lemma dupdate_same E : forall D, NoDup (keys D) -> (forall p, In p E -> In p D) -> dupdate D E = D.
Proof.
  unfold dupdate. induction E as [|[k v] E IH]; intros D ND H; simpl; [reflexivity|].
  rewrite dset_same; [|apply dget_in; auto; apply H; now left].
  apply IH; auto. intros p Hp. apply H. now right.
Qed.
Lemma dupdate_app E F D : dupdate D (E ++ F) = dupdate (dupdate D E) F.
Proof. unfold dupdate. apply fold_left_app. Qed.

(** * Loops as dictionary updates *)
Lemma for_range_dict n (f : nat -> dict -> dict) (g : nat -> dict) :
  (forall i D, f i D = dupdate D (g i)) ->
  forall D, for_range n f D = dupdate D (flat_map g (seq 0 n)).
Proof.
  intros H. unfold for_range. generalize (seq 0 n) as l.
  induction l as [|i l IH]; intros D; simpl; [reflexivity|].
  rewrite dupdate_app, <- H. apply IH.
Qed.

Section P.
Context (I : inst).
Let N := iN I. Let n := iIn I. Let m := iOut I.
Let si := i_si I. Let sk := i_sk I. Let sb := i_sb I.

(** Entries written by each pass *)
Definition e1 (l : nat) : dict := flat_map (fun i => [((kvar I l i, kvar I l i), suma1 I l i)]) (seq 0 n).
Definition e2 (Bt2 : nat -> Q) (l : nat) : dict :=
  flat_map (fun i => flat_map (fun j =>
    if Qeq_bool (Bt2 (j + i * n)%nat) 0 then [] else [((kvar I l i, kvar I l j), Bt2 (j + i * n)%nat)]) (seq 0 n)) (seq 0 n).
Definition e3 (l : nat) : dict := [((bvar I l, bvar I l), bt3 I l)].
Definition e4 (Bt4 : nat -> Q) (l : nat) : dict :=
  flat_map (fun i => if Qeq_bool (Bt4 i) 0 then [] else
      [((kvar I l i, bvar I l), Bt4 i); ((bvar I l, kvar I l i), Bt4 i)]) (seq 0 n).

Lemma bterm1_eq D l : bterm1 I D l = dupdate D (e1 l).
Proof. unfold bterm1, e1. apply for_range_dict. reflexivity. Qed.
Lemma write2_eq B D l : write2 I B D l = dupdate D (e2 B l).
Proof.
  unfold write2, e2. apply for_range_dict. intros i D'. apply for_range_dict. intros j D''.
  fold n. unfold kvar. rewrite (Nat.mul_comm n l). destruct (Qeq_bool _ 0); reflexivity.
Qed.
Lemma bterm3_eq D l : bterm3 I D l = dupdate D (e3 l).
Proof. reflexivity. Qed.
Lemma write4_eq B D l : write4 I B D l = dupdate D (e4 B l).
Proof.
  unfold write4, e4. apply for_range_dict. intros i D'. fold n m. destruct (Qeq_bool _ 0); reflexivity.
Qed.

(** * Key structure *)
Lemma kv_inj l i j : kvar I l i = kvar I l j -> i = j. Proof. unfold kvar. lia. Qed.
Lemma kv_lt l i : (l < m)%nat -> (i < n)%nat -> (1 <= kvar I l i <= n * m)%nat.
Proof. intros Hl Hi. unfold kvar. split; [lia|]. nia. Qed.
Lemma kv_inj2 l i l' i' : (i < n)%nat -> (i' < n)%nat -> kvar I l i = kvar I l' i' -> l = l' /\ i = i'.
Proof.
  intros Hi Hi' H. unfold kvar in H.
  assert (l = l') by nia. subst. split; [reflexivity|]. lia.
Qed.

Lemma in_e1 l p : In p (e1 l) -> exists i, (i < n)%nat /\ p = ((kvar I l i, kvar I l i), suma1 I l i).
Proof. intros H. apply in_flat_map in H as (i & Hi & [<-|[]]). apply in_seq in Hi. exists i. split; [lia|reflexivity]. Qed.
Lemma in_e2 B l p : In p (e2 B l) -> exists i j, (i < n)%nat /\ (j < n)%nat /\ ~ B (j + i * n)%nat == 0 /\
  p = ((kvar I l i, kvar I l j), B (j + i * n)%nat).
Proof.
  intros H. apply in_flat_map in H as (i & Hi & H). apply in_flat_map in H as (j & Hj & H).
  apply in_seq in Hi, Hj. destruct (Qeq_bool (B (j + i * n)%nat) 0) eqn:E; [destruct H|].
  destruct H as [<-|[]]. exists i, j. repeat split; try lia. now apply Qeq_bool_neq.
Qed.
Lemma in_e4 B l p : In p (e4 B l) -> exists i, (i < n)%nat /\
  (p = ((kvar I l i, bvar I l), B i) \/ p = ((bvar I l, kvar I l i), B i)).
Proof.
  intros H. apply in_flat_map in H as (i & Hi & H). apply in_seq in Hi.
  destruct (Qeq_bool _ 0); [destruct H|]. exists i. split; [lia|].
  destruct H as [<-|[<-|[]]]; auto.
Qed.

Lemma keys_flat_map {A} (f : A -> dict) l : keys (flat_map f l) = flat_map (fun a => keys (f a)) l.
Proof. induction l; simpl; [reflexivity|]. now rewrite keys_app, IHl. Qed.
Lemma NoDup_flat_map {A B} (f : A -> list B) l :
  NoDup l -> (forall a, In a l -> NoDup (f a)) ->
  (forall a b x, In a l -> In b l -> In x (f a) -> In x (f b) -> a = b) ->
  NoDup (flat_map f l).
Proof.
  induction 1 as [|a l Ha Hl IH]; simpl; intros H1 H2; [constructor|].
  apply NoDup_app_intro.
  - apply H1. now left.
  - apply IH; auto. intros; eapply H2; eauto.
  - intros x Hx Hy. apply in_flat_map in Hy as (b & Hb & Hy).
    assert (a = b) by (eapply H2; eauto). subst. contradiction.
Qed.

Lemma nodup_e1 l : NoDup (keys (e1 l)).
Proof.
  unfold e1. rewrite keys_flat_map. apply NoDup_flat_map; [apply seq_NoDup| |].
  - intros; simpl; repeat constructor; intuition.
  - simpl. intros a b x _ _ [<-|[]] [E|[]]. injection E as E _. now apply kv_inj in E.
Qed.
Lemma nodup_e2 B l : NoDup (keys (e2 B l)).
Proof.
  unfold e2. rewrite keys_flat_map. apply NoDup_flat_map; [apply seq_NoDup| |].
  - intros i _. rewrite keys_flat_map. apply NoDup_flat_map; [apply seq_NoDup| |].
    + intros j _. destruct (Qeq_bool _ 0); simpl; repeat constructor; intuition.
    + intros a b x _ _ Ha Hb.
      destruct (Qeq_bool (B (a + i * n)%nat) 0); [destruct Ha|].
      destruct (Qeq_bool (B (b + i * n)%nat) 0); [destruct Hb|].
      simpl in *. destruct Ha as [<-|[]], Hb as [E|[]]. injection E as E. now apply kv_inj in E.
  - intros a b x _ _ Ha Hb. rewrite keys_flat_map in Ha, Hb.
    apply in_flat_map in Ha as (j & _ & Ha). apply in_flat_map in Hb as (j' & _ & Hb).
    destruct (Qeq_bool (B (j + a * n)%nat) 0); [destruct Ha|].
    destruct (Qeq_bool (B (j' + b * n)%nat) 0); [destruct Hb|].
    simpl in *. destruct Ha as [<-|[]], Hb as [E|[]]. injection E as E _. now apply kv_inj in E.
Qed.
Lemma nodup_e4 B l : (l < m)%nat -> NoDup (keys (e4 B l)).
Proof.
  intros Hl. unfold e4. rewrite keys_flat_map. apply NoDup_flat_map; [apply seq_NoDup| |].
  - intros i Hi. apply in_seq in Hi. pose proof (kv_lt l i Hl ltac:(lia)).
    destruct (Qeq_bool _ 0); simpl; repeat constructor; simpl; try tauto.
    intros [E|[]]. injection E as E _. unfold bvar in E. lia.
  - intros a b x Ia Ib Ha Hb. apply in_seq in Ia, Ib.
    pose proof (kv_lt l a Hl ltac:(lia)). pose proof (kv_lt l b Hl ltac:(lia)).
    destruct (Qeq_bool (B a) 0); [destruct Ha|]. destruct (Qeq_bool (B b) 0); [destruct Hb|].
    simpl in *. unfold bvar in *.
    destruct Ha as [<-|[<-|[]]], Hb as [E|[E|[]]]; injection E; intros; try (apply (kv_inj l); congruence); lia.
Qed.

(** The off-diagonal coefficients vanish on the diagonal *)
Lemma bt2_calc_at i j : (j < n)%nat ->
  bt2_calc I (j + i * n)%nat = (sk * si) ^ 2 * (1 / inject_Z (Z.of_nat N)) * sum_n N (fun s => outer0 I s i j).
Proof.
  intros Hj. unfold bt2_calc. fold n N si sk.
  rewrite Nat.div_add by lia. rewrite Nat.div_small by lia. rewrite Nat.mod_add by lia.
  rewrite Nat.mod_small by lia. simpl (0 + i)%nat. reflexivity.
Qed.
Lemma sum_n_zero k f : (forall s, (s < k)%nat -> f s == 0) -> sum_n k f == 0.
Proof.
  unfold sum_n. intros H.
  assert (G : forall l, (forall s, In s l -> f s == 0) -> sumQ (map f l) == 0).
  { induction l as [|a l IH]; intros X; simpl; [reflexivity|]. rewrite (X a) by (now left). rewrite IH; [lra|].
    intros s Hs. apply X. now right. }
  apply G. intros s Hs. apply in_seq in Hs. apply H. lia.
Qed.
Lemma bt2_diag i : (i < n)%nat -> bt2_calc I (i + i * n)%nat == 0.
Proof.
  intros Hi. rewrite bt2_calc_at by exact Hi. rewrite sum_n_zero; [lra|].
  intros s _. unfold outer0. rewrite Nat.eqb_refl. reflexivity.
Qed.

(** * The dictionary of a neuron is the concatenation of the four passes *)
Definition canon (l : nat) : dict := e1 l ++ e2 (bt2_calc I) l ++ e3 l ++ e4 (bt4_calc I) l.

Lemma in_canon_key l k : (l < m)%nat -> In k (keys (canon l)) ->
  (exists i, (i < n)%nat /\ k = (kvar I l i, kvar I l i)) \/
  (exists i j, (i < n)%nat /\ (j < n)%nat /\ i <> j /\ k = (kvar I l i, kvar I l j)) \/
  k = (bvar I l, bvar I l) \/
  (exists i, (i < n)%nat /\ (k = (kvar I l i, bvar I l) \/ k = (bvar I l, kvar I l i))).
Proof.
  intros Hl H. unfold canon in H. rewrite !keys_app in H.
  apply in_app_or in H as [H|H]; [|apply in_app_or in H as [H|H]; [|apply in_app_or in H as [H|H]]];
  apply in_map_iff in H as (p & <- & Hp).
  - apply in_e1 in Hp as (i & Hi & ->). left. eauto.
  - apply in_e2 in Hp as (i & j & Hi & Hj & Hz & ->). right. left. exists i, j. repeat split; auto.
    intros ->. apply Hz. now apply bt2_diag.
  - destruct Hp as [<-|[]]. right. right. left. reflexivity.
  - apply in_e4 in Hp as (i & Hi & [-> | ->]); right; right; right; exists i; auto.
Qed.

Lemma nodup_canon l : (l < m)%nat -> NoDup (keys (canon l)).
Proof.
  intros Hl. unfold canon. rewrite !keys_app.
  assert (X4 : forall k, In k (keys (e4 (bt4_calc I) l)) -> exists i, (i < n)%nat /\ (k = (kvar I l i, bvar I l) \/ k = (bvar I l, kvar I l i))).
  { intros k H. apply in_map_iff in H as (p & <- & Hp). apply in_e4 in Hp as (i & Hi & [-> | ->]); eauto. }
  assert (X2 : forall k, In k (keys (e2 (bt2_calc I) l)) -> exists i j, (i < n)%nat /\ (j < n)%nat /\ i <> j /\ k = (kvar I l i, kvar I l j)).
  { intros k H. apply in_map_iff in H as (p & <- & Hp). apply in_e2 in Hp as (i & j & Hi & Hj & Hz & ->).
    exists i, j. repeat split; auto. intros ->. apply Hz. now apply bt2_diag. }
  apply NoDup_app_intro; [apply nodup_e1| |].
  - apply NoDup_app_intro; [apply nodup_e2| |].
    + apply NoDup_app_intro; [simpl; repeat constructor; intuition|now apply nodup_e4|].
      simpl. intros x [<-|[]] H. apply X4 in H as (i & Hi & [E|E]); injection E; intros;
      pose proof (kv_lt l i Hl Hi); unfold bvar in *; lia.
    + intros x H H'. apply X2 in H as (i & j & Hi & Hj & Hij & ->).
      pose proof (kv_lt l i Hl Hi). pose proof (kv_lt l j Hl Hj).
      apply in_app_or in H' as [[E|[]]|H'].
      * injection E; intros; unfold bvar in *; lia.
      * apply X4 in H' as (k & Hk & [E|E]); injection E; intros; unfold bvar in *; lia.
  - intros x H H'. apply in_map_iff in H as (p & <- & Hp). apply in_e1 in Hp as (i & Hi & ->). cbn [fst] in H'.
    pose proof (kv_lt l i Hl Hi).
    apply in_app_or in H' as [H'|H']; [|apply in_app_or in H' as [[E|[]]|H']].
    + apply X2 in H' as (a & b & Ha & Hb & Hab & E). injection E; intros E1 E2.
      apply kv_inj in E1. apply kv_inj in E2. congruence.
    + injection E; intros; unfold bvar in *; lia.
    + apply X4 in H' as (k & Hk & [E|E]); injection E; intros; unfold bvar in *; lia.
Qed.

Lemma double_write2 B l : dupdate (dupdate [] (e2 B l)) (e2 B l) = e2 B l.
Proof.
  rewrite (dupdate_fresh _ []) by apply nodup_e2. simpl. apply dupdate_same; [apply nodup_e2|auto].
Qed.
Lemma double_write4 B l : (l < m)%nat -> dupdate (dupdate [] (e4 B l)) (e4 B l) = e4 B l.
Proof.
  intros Hl. rewrite (dupdate_fresh _ []) by (now apply nodup_e4). simpl. apply dupdate_same; [now apply nodup_e4|auto].
Qed.

Lemma terms_class_eq l : (l < m)%nat ->
  terms_class I l = {| t1 := e1 l; t2 := e2 (bt2_calc I) l; t3 := e3 l; t4 := e4 (bt4_calc I) l |}.
Proof.
  intros Hl. unfold terms_class. rewrite bterm1_eq, !write2_eq, bterm3_eq, !write4_eq.
  rewrite double_write2, double_write4 by exact Hl.
  rewrite (dupdate_fresh (e1 l) []) by apply nodup_e1.
  rewrite (dupdate_fresh (e3 l) []) by (simpl; repeat constructor; intuition). reflexivity.
Qed.

Lemma unir_canon l D : (l < m)%nat -> NoDup (keys D ++ keys (canon l)) ->
  unir (e1 l) (e2 (bt2_calc I) l) (e3 l) (e4 (bt4_calc I) l) D = D ++ canon l.
Proof.
  intros Hl H. unfold unir. rewrite <- !dupdate_app. fold (canon l).
  now apply dupdate_fresh.
Qed.
Lemma dict_class_eq l : (l < m)%nat -> dict_class I l = canon l.
Proof.
  intros Hl. unfold dict_class. rewrite terms_class_eq by exact Hl. cbn [t1 t2 t3 t4].
  rewrite unir_canon; auto. simpl. now apply nodup_canon.
Qed.

(** * The free pipeline *)
Lemma Qmult_comm_L a b : a * b = b * a.
Proof. destruct a, b. unfold Qmult. simpl. now rewrite Z.mul_comm, Pos.mul_comm. Qed.
Lemma bt4_free_eq i : bt4_free I i = bt4_calc I i.
Proof. unfold bt4_free, bt4_calc. now rewrite (Qmult_comm_L (i_si I) (i_sk I)). Qed.
Lemma e4_free l : e4 (bt4_free I) l = e4 (bt4_calc I) l.
Proof. unfold e4. apply flat_map_ext. intros i. now rewrite bt4_free_eq. Qed.

Lemma canon_disjoint l l' k : (l < m)%nat -> (l' < m)%nat ->
  In k (keys (canon l)) -> In k (keys (canon l')) -> l = l'.
Proof.
  intros Hl Hl' H H'.
  assert (F : forall l, (l < m)%nat -> In k (keys (canon l)) ->
     (exists i, (i < n)%nat /\ fst k = kvar I l i) \/ fst k = bvar I l).
  { clear H H' Hl Hl' l l'. intros l Hl H.
    apply in_canon_key in H; auto.
    destruct H as [(i & Hi & ->)|[(i & j & Hi & Hj & _ & ->)|[->|(i & Hi & [-> | ->])]]]; simpl; eauto. }
  apply F in H; auto. apply F in H'; auto.
  destruct H as [(i & Hi & E)|E], H' as [(j & Hj & E')|E'].
  - rewrite E in E'. now apply kv_inj2 in E'.
  - pose proof (kv_lt l i Hl Hi). unfold bvar in *. lia.
  - pose proof (kv_lt l' j Hl' Hj). unfold bvar in *. lia.
  - unfold bvar in *. lia.
Qed.

Definition total_upto (L : nat) : dict := flat_map canon (seq 0 L).
Lemma nodup_total L : (L <= m)%nat -> NoDup (keys (total_upto L)).
Proof.
  intros HL. unfold total_upto. rewrite keys_flat_map. apply NoDup_flat_map.
  - apply seq_NoDup.
  - intros a Ha. apply in_seq in Ha. apply nodup_canon. lia.
  - intros a b x Ha Hb. apply in_seq in Ha, Hb. intros. eapply canon_disjoint; eauto; lia.
Qed.

Lemma run_free_spec L : (L <= m)%nat ->
  for_range L (free_step I) (Ok {| fs_bt2 := None; fs_bt4 := None; fs_total := []; fs_out := [] |}) =
  Ok {| fs_bt2 := if (L =? 0)%nat then None else Some (bt2_calc I);
        fs_bt4 := if (L =? 0)%nat then None else Some (bt4_free I);
        fs_total := total_upto L; fs_out := map (terms_class I) (seq 0 L) |}.
Proof.
  unfold for_range. induction L as [|L IH]; intros HL; [reflexivity|].
  rewrite seq_S, fold_left_app. rewrite IH by lia. simpl (0 + L)%nat. cbn [fold_left].
  unfold free_step. cbn [rbind fs_bt2 fs_bt4 fs_total fs_out].
  assert (E : forall t : terms, t = terms_class I L ->
    unir (t1 t) (t2 t) (t3 t) (t4 t) (total_upto L) = total_upto (S L)).
  { intros t ->. rewrite terms_class_eq by lia. cbn [t1 t2 t3 t4]. rewrite unir_canon; [|lia|].
    - unfold total_upto. rewrite seq_S, flat_map_app. simpl. now rewrite app_nil_r.
    - rewrite <- keys_app. pose proof (nodup_total (S L) HL) as X. unfold total_upto in X.
      rewrite seq_S, flat_map_app in X. simpl in X. rewrite app_nil_r in X. exact X. }
  assert (T : {| t1 := bterm1 I [] L; t2 := write2 I (bt2_calc I) [] L; t3 := bterm3 I [] L;
                 t4 := write4 I (bt4_free I) [] L |} = terms_class I L).
  { rewrite terms_class_eq by lia. rewrite bterm1_eq, write2_eq, bterm3_eq, write4_eq.
    rewrite e4_free.
    rewrite (dupdate_fresh (e1 L) []) by apply nodup_e1.
    rewrite (dupdate_fresh (e2 _ L) []) by apply nodup_e2.
    rewrite (dupdate_fresh (e3 L) []) by (simpl; repeat constructor; intuition).
    rewrite (dupdate_fresh (e4 _ L) []) by (apply nodup_e4; lia). reflexivity. }
  destruct L as [|L'].
  - cbn [Nat.eqb rbind fst snd]. rewrite T.
    rewrite E by reflexivity. reflexivity.
  - cbn [Nat.eqb rbind fst snd]. rewrite T, E by reflexivity.
    rewrite map_app. reflexivity.
Qed.
End P.
