From Verif Require Import Base.
From Coq Require Export Lqa ZifyBool.
Open Scope Z_scope.

Lemma clipZ_range lo hi x : lo <= hi -> lo <= clipZ lo hi x <= hi.
Proof. unfold clipZ; lia. Qed.
Lemma clipZ_id lo hi x : lo <= x <= hi -> clipZ lo hi x = x.
Proof. unfold clipZ; lia. Qed.
Lemma clipZ_mono lo hi x y : x <= y -> clipZ lo hi x <= clipZ lo hi y.
Proof. unfold clipZ; lia. Qed.

Lemma wrap_s_range b x : 0 < b -> - 2 ^ (b - 1) <= wrap_s b x <= 2 ^ (b - 1) - 1.
Proof.
  intros Hb. unfold wrap_s.
  assert (H2 : 2 ^ b = 2 * 2 ^ (b - 1)).
  { replace b with (Z.succ (b - 1)) at 1 by lia. rewrite Z.pow_succ_r; lia. }
  assert (0 < 2 ^ (b-1)) by (apply Z.pow_pos_nonneg; lia).
  assert (0 <= (x + 2 ^ (b - 1)) mod 2 ^ b < 2 ^ b) by (apply Z.mod_pos_bound; lia).
  lia.
Qed.
Lemma wrap_s_id b x : 0 < b -> - 2 ^ (b - 1) <= x <= 2 ^ (b - 1) - 1 -> wrap_s b x = x.
Proof.
  intros Hb Hx. unfold wrap_s.
  assert (H2 : 2 ^ b = 2 * 2 ^ (b - 1)).
  { replace b with (Z.succ (b - 1)) at 1 by lia. rewrite Z.pow_succ_r; lia. }
  rewrite Z.mod_small; lia.
Qed.
Lemma wrap_u_range b x : 0 <= b -> 0 <= wrap_u b x <= 2 ^ b - 1.
Proof.
  intros Hb. unfold wrap_u.
  assert (0 < 2 ^ b) by (apply Z.pow_pos_nonneg; lia).
  assert (0 <= x mod 2 ^ b < 2 ^ b) by (apply Z.mod_pos_bound; lia). lia.
Qed.
Lemma wrap_u_id b x : 0 <= x <= 2 ^ b - 1 -> wrap_u b x = x.
Proof. intros. unfold wrap_u. apply Z.mod_small. lia. Qed.

Lemma cast_i32_id z : - 2 ^ 31 <= z <= 2 ^ 31 - 1 -> cast_i32 z = z.
Proof. intros H. unfold cast_i32.
  destruct ((-(2^31) <=? z) && (z <=? 2^31 - 1)) eqn:E; [reflexivity|].
  apply andb_false_iff in E; destruct E as [E|E];
  apply Z.leb_gt in E; lia. Qed.

(** Qfloor characterisations *)
Lemma Qfloor_iff x n : Qfloor x = n <-> (inject_Z n <= x /\ x < inject_Z n + 1)%Q.
Proof.
  split.
  - intros <-. split; [apply Qfloor_le|].
    pose proof (Qlt_floor x) as H. rewrite inject_Z_plus in H. exact H.
  - intros [H1 H2].
    assert (Ha := Qfloor_le x). assert (Hb := Qlt_floor x). rewrite inject_Z_plus in Hb.
    assert (A : (inject_Z n < inject_Z (Qfloor x + 1))%Q).
    { eapply Qle_lt_trans; [exact H1|]. rewrite inject_Z_plus. exact Hb. }
    assert (B : (inject_Z (Qfloor x) < inject_Z (n + 1))%Q).
    { eapply Qle_lt_trans; [exact Ha|]. rewrite inject_Z_plus. exact H2. }
    rewrite <- Zlt_Qlt in A, B. lia.
Qed.
Lemma Qfloor_bounds x : (inject_Z (Qfloor x) <= x /\ x < inject_Z (Qfloor x) + 1)%Q.
Proof. apply (proj1 (Qfloor_iff x _)). reflexivity. Qed.
Lemma Qfloor_plus_Z x n : Qfloor (x + inject_Z n) = Qfloor x + n.
Proof.
  apply Qfloor_iff. rewrite inject_Z_plus. destruct (Qfloor_bounds x). split; lra.
Qed.
Lemma Qfloor_mono x y : (x <= y)%Q -> Qfloor x <= Qfloor y.
Proof. apply Qfloor_resp_le. Qed.
Lemma Qfloor_inject n : Qfloor (inject_Z n) = n.
Proof. apply Qfloor_Z. Qed.
Lemma inject_Z_minus a b : inject_Z (a - b) = (inject_Z a - inject_Z b)%Q.
Proof. unfold Z.sub. rewrite inject_Z_plus, inject_Z_opp. reflexivity. Qed.
Lemma Zle_inj a b : a <= b <-> (inject_Z a <= inject_Z b)%Q.
Proof. rewrite Zle_Qle. tauto. Qed.
Lemma Zlt_inj a b : a < b <-> (inject_Z a < inject_Z b)%Q.
Proof. rewrite Zlt_Qlt. tauto. Qed.
Lemma Qfloor_ge n x : (inject_Z n <= x)%Q -> n <= Qfloor x.
Proof. intros H. rewrite <- (Qfloor_inject n). now apply Qfloor_mono. Qed.
Lemma Qfloor_lt n x : (x < inject_Z n)%Q -> Qfloor x < n.
Proof. intros H. apply Zlt_inj. eapply Qle_lt_trans; [apply Qfloor_le|exact H]. Qed.

Lemma Qround_even_near x : (Qabs (inject_Z (Qround_even x) - x) <= 1#2)%Q.
Proof.
  unfold Qround_even. destruct (Qfloor_bounds x) as [H1 H2].
  apply Qabs_Qle_condition.
  destruct (Qcompare_spec (x - inject_Z (Qfloor x)) (1#2)) as [H|H|H].
  - destruct (Z.even (Qfloor x)); rewrite ?inject_Z_plus;
    change (inject_Z 1) with 1%Q; split; lra.
  - split; lra.
  - rewrite ?inject_Z_plus; change (inject_Z 1) with 1%Q; split; lra.
Qed.
Lemma Qround_even_inject n : Qround_even (inject_Z n) = n.
Proof.
  unfold Qround_even. rewrite Qfloor_inject.
  destruct (Qcompare_spec (inject_Z n - inject_Z n) (1#2)) as [H|H|H]; try lra. reflexivity.
Qed.
Global Instance Qround_even_comp : Proper (Qeq ==> eq) Qround_even.
Proof.
  intros x y E. unfold Qround_even. rewrite (Qfloor_comp _ _ E).
  assert (E2 : (x - inject_Z (Qfloor y) == y - inject_Z (Qfloor y))%Q) by (rewrite E; reflexivity).
  rewrite (Qcompare_comp _ _ E2 (1#2)%Q (1#2)%Q (Qeq_refl _)).
  reflexivity.
Qed.
Lemma Qround_even_mono x y : (x <= y)%Q -> Qround_even x <= Qround_even y.
Proof.
  intros H. destruct (Z.eq_dec (Qfloor x) (Qfloor y)) as [E|E].
  - unfold Qround_even. rewrite E.
    destruct (Qcompare_spec (x - inject_Z (Qfloor y)) (1#2));
    destruct (Qcompare_spec (y - inject_Z (Qfloor y)) (1#2));
    try destruct (Z.even (Qfloor y)); try lia; try lra.
  - pose proof (Qfloor_mono _ _ H).
    assert (Qround_even x <= Qfloor x + 1).
    { unfold Qround_even. destruct (Qcompare _ _); try destruct (Z.even _); lia. }
    assert (Qfloor y <= Qround_even y).
    { unfold Qround_even. destruct (Qcompare _ _); try destruct (Z.even _); lia. }
    lia.
Qed.

Lemma Qtrunc_bounds x :
  ((0 <= x)%Q -> (inject_Z (Qtrunc x) <= x /\ x < inject_Z (Qtrunc x) + 1)%Q) /\
  ((x < 0)%Q -> (x <= inject_Z (Qtrunc x) /\ inject_Z (Qtrunc x) - 1 < x)%Q).
Proof.
  unfold Qtrunc. destruct (Qle_bool 0 x) eqn:E.
  - apply Qle_bool_iff in E. split; intros H; [apply Qfloor_bounds|lra].
  - assert (~ (0 <= x)%Q) by (intros A; apply Qle_bool_iff in A; congruence).
    split; intros H'; [lra|].
    unfold Qceiling. rewrite inject_Z_opp. destruct (Qfloor_bounds (-x)). split; lra.
Qed.

(** sums *)
Lemma sumZ_app a b : sumZ (a ++ b) = sumZ a + sumZ b.
Proof. induction a as [|x a IH]; simpl; [reflexivity|]. rewrite IH. lia. Qed.
Lemma sumQ_app a b : (sumQ (a ++ b) == sumQ a + sumQ b)%Q.
Proof. induction a as [|x a IH]; simpl; [lra|]. rewrite IH. lra. Qed.
Lemma sumQ_map_plus {A} (f g : A -> Q) l :
  (sumQ (map (fun x => f x + g x)%Q l) == sumQ (map f l) + sumQ (map g l))%Q.
Proof. induction l as [|x l IH]; simpl; [lra|]. rewrite IH. lra. Qed.
Lemma sumQ_map_minus {A} (f g : A -> Q) l :
  (sumQ (map (fun x => f x - g x)%Q l) == sumQ (map f l) - sumQ (map g l))%Q.
Proof. induction l as [|x l IH]; simpl; [lra|]. rewrite IH. lra. Qed.
Lemma sumQ_map_mult {A} c (f : A -> Q) l :
  (sumQ (map (fun x => c * f x)%Q l) == c * sumQ (map f l))%Q.
Proof. induction l as [|x l IH]; simpl; [lra|]. rewrite IH. lra. Qed.
Lemma sumQ_map_mult_r {A} c (f : A -> Q) l :
  (sumQ (map (fun x => f x * c)%Q l) == sumQ (map f l) * c)%Q.
Proof. induction l as [|x l IH]; simpl; [lra|]. rewrite IH. lra. Qed.
Lemma sumQ_map_ext {A} (f g : A -> Q) l :
  (forall x, In x l -> f x == g x)%Q -> (sumQ (map f l) == sumQ (map g l))%Q.
Proof.
  induction l as [|x l IH]; intros H; simpl; [reflexivity|].
  rewrite (H x (or_introl eq_refl)), IH; [reflexivity|]. intros; apply H; now right.
Qed.
Lemma sumQ_map_zero {A} (f : A -> Q) l :
  (forall x, In x l -> f x == 0)%Q -> (sumQ (map f l) == 0)%Q.
Proof.
  induction l as [|x l IH]; intros H; simpl; [reflexivity|].
  rewrite (H x (or_introl eq_refl)), IH; [lra|]. intros; apply H; now right.
Qed.
Lemma sumQ_swap {A B} (f : A -> B -> Q) (la : list A) (lb : list B) :
  (sumQ (map (fun a => sumQ (map (fun b => f a b) lb)) la) ==
   sumQ (map (fun b => sumQ (map (fun a => f a b) la)) lb))%Q.
Proof.
  induction la as [|a la IH]; simpl.
  - symmetry. apply sumQ_map_zero. reflexivity.
  - rewrite IH. symmetry. apply (sumQ_map_plus (fun b => f a b)).
Qed.
Lemma sumQ_le {A} (f g : A -> Q) l :
  (forall x, In x l -> f x <= g x)%Q -> (sumQ (map f l) <= sumQ (map g l))%Q.
Proof.
  induction l as [|x l IH]; intros H; simpl; [lra|].
  apply Qplus_le_compat; [apply H; now left|apply IH; intros; apply H; now right].
Qed.
Lemma Qabs_sum {A} (f : A -> Q) l :
  (Qabs (sumQ (map f l)) <= sumQ (map (fun x => Qabs (f x)) l))%Q.
Proof.
  induction l as [|x l IH]; simpl; [discriminate|].
  eapply Qle_trans; [apply Qabs_triangle|]. apply Qplus_le_compat; [lra|exact IH].
Qed.

(** mapM *)
Lemma mapM_ok_map {A B} (f : A -> res B) (g : A -> B) l :
  (forall x, In x l -> f x = Ok (g x)) -> mapM f l = Ok (map g l).
Proof.
  induction l as [|x l IH]; intros H; simpl; [reflexivity|].
  rewrite H by now left. simpl. rewrite IH by (intros; apply H; now right). reflexivity.
Qed.
Lemma mapM_length {A B} (f : A -> res B) l l' : mapM f l = Ok l' -> length l' = length l.
Proof.
  revert l'; induction l as [|x l IH]; intros l' H; simpl in *; [now injection H as <-|].
  destruct (f x); simpl in H; [|discriminate].
  destruct (mapM f l) eqn:E; simpl in H; [|discriminate]. injection H as <-. simpl. now rewrite (IH _ eq_refl).
Qed.

(** Python indexing *)
Lemma py_index_nonneg {A} (l : list A) i :
  0 <= i < Z.of_nat (length l) ->
  exists a, nth_error l (Z.to_nat i) = Some a /\ py_index l i = Ok a.
Proof.
  intros H. unfold py_index.
  destruct (nth_error l (Z.to_nat i)) eqn:E.
  - exists a. split; [reflexivity|].
    destruct (i <? 0) eqn:E1; [lia|].
    destruct ((i <? 0) || (Z.of_nat (length l) <=? i)) eqn:E2; [lia|].
    now rewrite E.
  - apply nth_error_None in E. lia.
Qed.
