(** Rounding theory of [fl]: representability, nearest, monotone, error bounds. *)
From Verif Require Import Base BaseProofs DtypeModel QuantModel QuantProofs FcModel FcProofs FloatModel.
From Coq Require Import Lqa Qpower.
Open Scope Z_scope.
Open Scope list_scope.

(** ** Integers *)
Lemma Qround_even_comp x y : (x == y)%Q -> Qround_even x = Qround_even y.
Proof. intros E. apply Z.le_antisymm; apply Qround_even_mono; rewrite E; apply Qle_refl. Qed.

Lemma Qround_even_nearest x k :
  (Qabs (inject_Z (Qround_even x) - x) <= Qabs (inject_Z k - x))%Q.
Proof.
  destruct (Z.eq_dec (Qround_even x) k) as [->|N]; [apply Qle_refl|].
  pose proof (Qround_even_near x) as H. eapply Qle_trans; [exact H|].
  apply Qabs_Qle_condition in H.
  destruct (Z_lt_le_dec k (Qround_even x)) as [L|L].
  - assert (E : (inject_Z k + 1 <= inject_Z (Qround_even x))%Q).
    { change 1%Q with (inject_Z 1). rewrite <- inject_Z_plus, <- Zle_Qle. lia. }
    rewrite Qabs_neg by lra. lra.
  - assert (E : (inject_Z (Qround_even x) + 1 <= inject_Z k)%Q).
    { change 1%Q with (inject_Z 1). rewrite <- inject_Z_plus, <- Zle_Qle. lia. }
    rewrite Qabs_pos by lra. lra.
Qed.

Lemma Qabs_scale a u : (0 < u)%Q -> (Qabs (a * u) == Qabs a * u)%Q.
Proof. intros H. rewrite Qabs_Qmult, (Qabs_pos u) by lra. reflexivity. Qed.

Lemma Qabs_pos_ne x : ~ (x == 0)%Q -> (0 < Qabs x)%Q.
Proof.
  intros H. destruct (Qlt_le_dec x 0).
  - rewrite Qabs_neg by lra. lra.
  - rewrite Qabs_pos by lra. lra.
Qed.

Lemma frexp_exp_comp x y : (x == y)%Q -> ~ (x == 0)%Q -> frexp_exp x = frexp_exp y.
Proof.
  intros E N. assert (N' : ~ (y == 0)%Q) by (rewrite <- E; exact N).
  destruct (frexp_exp_spec x N) as [A B]. destruct (frexp_exp_spec y N') as [C D].
  assert (EA : (Qabs x == Qabs y)%Q) by now apply Qabs_wd. rewrite EA in A, B.
  assert (X1 : frexp_exp x - 1 < frexp_exp y).
  { apply (Qpower_lt_compat_l_inv 2); [|lra]. eapply Qle_lt_trans; [exact A|exact D]. }
  assert (X2 : frexp_exp y - 1 < frexp_exp x).
  { apply (Qpower_lt_compat_l_inv 2); [|lra]. eapply Qle_lt_trans; [exact C|exact B]. }
  lia.
Qed.

Lemma frexp_exp_le x k : ~ (x == 0)%Q -> (Qabs x < pow2 k)%Q -> frexp_exp x <= k.
Proof.
  intros N H. destruct (frexp_exp_spec x N) as [A B].
  assert (frexp_exp x - 1 < k); [|lia].
  apply (Qpower_lt_compat_l_inv 2); [|lra]. eapply Qle_lt_trans; [exact A|exact H].
Qed.

Section Round.
Variables (p emin : Z).
Hypothesis p1 : 1 <= p.

(** The floating-point numbers of the format (no upper exponent bound): m * 2^e with |m| <= 2^p. *)
Definition rep (y : Q) : Prop := exists m e, Z.abs m <= 2 ^ p /\ emin <= e /\ (y == inject_Z m * pow2 e)%Q.

Definition ulp_exp (x : Q) : Z := Z.max (frexp_exp x - p) emin.

Lemma fl_eq x : ~ (x == 0)%Q ->
  (fl p emin x == inject_Z (Qround_even (x / pow2 (ulp_exp x))) * pow2 (ulp_exp x))%Q.
Proof.
  intros N. unfold fl. destruct (Qeq_bool x 0) eqn:E.
  - apply Qeq_bool_iff in E. contradiction.
  - apply Qred_correct.
Qed.
Lemma fl_0' x : (x == 0)%Q -> fl p emin x = 0%Q.
Proof. intros H. unfold fl. apply Qeq_bool_iff in H. now rewrite H. Qed.

Lemma fl_comp x y : (x == y)%Q -> fl p emin x = fl p emin y.
Proof.
  intros E. unfold fl. destruct (Qeq_bool x 0) eqn:A, (Qeq_bool y 0) eqn:B.
  - reflexivity.
  - apply Qeq_bool_iff in A. rewrite E in A. apply Qeq_bool_iff in A. congruence.
  - apply Qeq_bool_iff in B. rewrite <- E in B. apply Qeq_bool_iff in B. congruence.
  - apply Qeq_bool_neq in A. cbv zeta. rewrite (frexp_exp_comp x y E A).
    apply Qred_complete. rewrite (Qround_even_comp _ (y / pow2 (Z.max (frexp_exp y - p) emin))); [reflexivity|].
    now rewrite E.
Qed.

Lemma rep_comp x y : (x == y)%Q -> rep x -> rep y.
Proof. intros E (m & e & A & B & C). exists m, e. rewrite <- E. auto. Qed.

Lemma rep_0 : rep 0.
Proof. exists 0, emin. pose proof (Z.pow_pos_nonneg 2 p). split; [simpl; lia|]. split; [lia|]. field. Qed.

Lemma rep_fl x : rep (fl p emin x).
Proof.
  destruct (Qeq_dec x 0) as [Z0|N].
  - rewrite fl_0' by exact Z0. exact rep_0.
  - exists (Qround_even (x / pow2 (ulp_exp x))), (ulp_exp x). split; [|split; [unfold ulp_exp; lia|apply fl_eq, N]].
    set (u := pow2 (ulp_exp x)). pose proof (pow2_pos (ulp_exp x)) as U. fold u in U.
    destruct (frexp_exp_spec x N) as [_ B].
    assert (B' : (Qabs x <= pow2 p * u)%Q).
    { unfold u. rewrite <- pow2_plus. eapply Qle_trans; [apply Qlt_le_weak, B|]. apply pow2_mono. unfold ulp_exp; lia. }
    rewrite pow2_Z in B' by lia. apply Qabs_Qle_condition in B' as [B1 B2].
    assert (H1 : (x / u <= inject_Z (2 ^ p))%Q) by (apply Qle_shift_div_r; [exact U|exact B2]).
    assert (H2 : (inject_Z (- 2 ^ p) <= x / u)%Q).
    { apply Qle_shift_div_l; [exact U|]. rewrite inject_Z_opp.
      setoid_replace (- inject_Z (2 ^ p) * u)%Q with (- (inject_Z (2 ^ p) * u))%Q by ring. exact B1. }
    apply Qround_even_mono in H1. apply Qround_even_mono in H2. rewrite Qround_even_inject in H1, H2. lia.
Qed.

Lemma fl_ulp x : ~ (x == 0)%Q -> (Qabs (fl p emin x - x) <= pow2 (ulp_exp x - 1))%Q.
Proof.
  intros N. rewrite fl_eq by exact N. set (u := pow2 (ulp_exp x)).
  pose proof (pow2_pos (ulp_exp x)) as U. fold u in U.
  setoid_replace (inject_Z (Qround_even (x / u)) * u - x)%Q with ((inject_Z (Qround_even (x / u)) - x / u) * u)%Q by (field; lra).
  rewrite Qabs_scale by exact U. rewrite pow2_pred. fold u. rewrite (Qmult_comm u).
  apply Qmult_le_compat_r; [apply Qround_even_near|lra].
Qed.

(** [fl x] is as close to x as any number multiple of its ulp ... *)
Lemma fl_nearest_grid x k : ~ (x == 0)%Q ->
  (Qabs (fl p emin x - x) <= Qabs (inject_Z k * pow2 (ulp_exp x) - x))%Q.
Proof.
  intros N. rewrite fl_eq by exact N. set (u := pow2 (ulp_exp x)).
  pose proof (pow2_pos (ulp_exp x)) as U. fold u in U.
  setoid_replace (inject_Z (Qround_even (x / u)) * u - x)%Q with ((inject_Z (Qround_even (x / u)) - x / u) * u)%Q by (field; lra).
  setoid_replace (inject_Z k * u - x)%Q with ((inject_Z k - x / u) * u)%Q by (field; lra).
  rewrite !Qabs_scale by exact U. apply Qmult_le_compat_r; [apply Qround_even_nearest|lra].
Qed.

(** ... hence as any number of the format. *)
Lemma fl_nearest x y : rep y -> (Qabs (fl p emin x - x) <= Qabs (y - x))%Q.
Proof.
  intros (n & e & Hn & He & Ey).
  destruct (Qeq_dec x 0) as [Z0|N].
  { rewrite fl_0' by exact Z0. rewrite Z0. change (Qabs (0 - 0)) with 0%Q. apply Qabs_nonneg. }
  destruct (Z_le_gt_dec (ulp_exp x) e) as [L|G].
  - rewrite Ey. replace e with ((e - ulp_exp x) + ulp_exp x) by lia.
    rewrite pow2_plus, pow2_Z by lia. rewrite Qmult_assoc, <- inject_Z_mult.
    apply fl_nearest_grid, N.
  - assert (EU : ulp_exp x = frexp_exp x - p) by (unfold ulp_exp in *; lia).
    destruct (frexp_exp_spec x N) as [A B].
    assert (Y : (Qabs y <= pow2 (frexp_exp x - 1))%Q).
    { rewrite Ey, Qabs_scale by apply pow2_pos. replace (frexp_exp x - 1) with (p + (ulp_exp x - 1)) by lia.
      rewrite pow2_plus, (pow2_Z p) by lia.
      eapply Qle_trans with (inject_Z (2^p) * pow2 e)%Q.
      - apply Qmult_le_compat_r; [|apply Qlt_le_weak, pow2_pos]. apply Qabs_Qle_condition.
        rewrite <- inject_Z_opp, <- !Zle_Qle. lia.
      - rewrite !(Qmult_comm (inject_Z _)). apply Qmult_le_compat_r; [apply pow2_mono; lia|].
        change 0%Q with (inject_Z 0). rewrite <- Zle_Qle. apply Z.pow_nonneg; lia. }
    set (g := pow2 (frexp_exp x - 1)) in *.
    assert (G2 : (g == inject_Z (2 ^ (p - 1)) * pow2 (ulp_exp x))%Q).
    { unfold g. rewrite <- pow2_Z by lia. rewrite <- pow2_plus. replace (p - 1 + ulp_exp x) with (frexp_exp x - 1) by lia. reflexivity. }
    destruct (Qlt_le_dec x 0) as [S0|S0].
    + pose proof (fl_nearest_grid x (- 2 ^ (p - 1)) N) as F.
      rewrite inject_Z_opp in F. rewrite (Qabs_neg x) in A by lra.
      setoid_replace (- inject_Z (2 ^ (p - 1)) * pow2 (ulp_exp x) - x)%Q with (- g - x)%Q in F by (rewrite G2; ring).
      eapply Qle_trans; [exact F|]. apply Qabs_Qle_condition in Y.
      rewrite !Qabs_pos by lra. lra.
    + pose proof (fl_nearest_grid x (2 ^ (p - 1)) N) as F.
      rewrite (Qabs_pos x) in A by lra. rewrite <- G2 in F.
      eapply Qle_trans; [exact F|]. apply Qabs_Qle_condition in Y.
      rewrite !Qabs_neg by lra. lra.
Qed.

Lemma fl_exact x : rep x -> (fl p emin x == x)%Q.
Proof.
  intros R. pose proof (fl_nearest x x R) as H. setoid_replace (x - x)%Q with 0%Q in H by ring.
  change (Qabs 0) with 0%Q in H. apply Qabs_Qle_condition in H. lra.
Qed.

Lemma fl_mono x y : (x <= y)%Q -> (fl p emin x <= fl p emin y)%Q.
Proof.
  intros H. destruct (Qeq_dec x y) as [E|N]; [rewrite (fl_comp x y E); apply Qle_refl|].
  destruct (Qlt_le_dec (fl p emin y) (fl p emin x)) as [L|L]; [|exact L]. exfalso.
  pose proof (fl_nearest x _ (rep_fl y)) as A. pose proof (fl_nearest y _ (rep_fl x)) as B.
  set (a := fl p emin x) in *. set (b := fl p emin y) in *. clearbody a b.
  assert (H' : (x < y)%Q) by lra. clear H N.
  destruct (Qlt_le_dec b x) as [X|X].
  - destruct (Qlt_le_dec y a) as [Y|Y].
    + rewrite (Qabs_pos (a - x)), (Qabs_neg (b - x)) in A by lra.
      rewrite (Qabs_neg (b - y)), (Qabs_pos (a - y)) in B by lra. lra.
    + rewrite (Qabs_neg (b - y)), (Qabs_neg (a - y)) in B by lra. lra.
  - rewrite (Qabs_pos (a - x)), (Qabs_pos (b - x)) in A by lra. lra.
Qed.

Lemma fl_le x y : rep y -> (x <= y)%Q -> (fl p emin x <= y)%Q.
Proof. intros R H. rewrite <- (fl_exact y R). now apply fl_mono. Qed.
Lemma fl_ge x y : rep y -> (y <= x)%Q -> (y <= fl p emin x)%Q.
Proof. intros R H. rewrite <- (fl_exact y R) at 1. now apply fl_mono. Qed.

(** Round to nearest, ties to even: when x lies exactly half way, the significand is even. *)
Lemma fl_tie_even x : ~ (x == 0)%Q -> (Qabs (fl p emin x - x) == pow2 (ulp_exp x - 1))%Q ->
  exists m, Z.even m = true /\ (fl p emin x == inject_Z m * pow2 (ulp_exp x))%Q.
Proof.
  intros N H. exists (Qround_even (x / pow2 (ulp_exp x))). split; [|apply fl_eq, N].
  rewrite fl_eq in H by exact N. set (u := pow2 (ulp_exp x)) in *.
  pose proof (pow2_pos (ulp_exp x)) as U. fold u in U.
  set (r := (x / u)%Q) in *.
  assert (E : (Qabs (inject_Z (Qround_even r) - r) == 1#2)%Q).
  { apply (Qmult_inj_r _ _ u); [lra|]. rewrite <- Qabs_scale by exact U.
    rewrite pow2_pred in H. fold u in H. rewrite (Qmult_comm (1#2)), <- H. apply Qabs_wd.
    unfold r. field. lra. }
  clear H. unfold Qround_even in *. destruct (Qfloor_bounds r) as [F1 F2].
  destruct (Qcompare_spec (r - inject_Z (Qfloor r)) (1 # 2)) as [C|C|C].
  - destruct (Z.even (Qfloor r)) eqn:P; [exact P|].
    rewrite Z.add_1_r, Z.even_succ. rewrite <- Z.negb_even, P. reflexivity.
  - exfalso. rewrite Qabs_neg in E by lra. lra.
  - exfalso. rewrite inject_Z_plus in E. change (inject_Z 1) with 1%Q in E. rewrite Qabs_pos in E by lra. lra.
Qed.

(** ** Which numbers are representable *)
Lemma rep_Z n : emin <= 0 -> Z.abs n <= 2 ^ p -> rep (inject_Z n).
Proof. intros H1 H2. exists n, 0. split; [exact H2|]. split; [exact H1|]. change (pow2 0) with 1%Q. ring. Qed.
Lemma rep_half n : emin <= -1 -> Z.abs n <= 2 ^ p -> rep (inject_Z n * (1#2)).
Proof. intros H1 H2. exists n, (-1). split; [exact H2|]. split; [exact H1|]. change (pow2 (-1)) with (1#2)%Q. reflexivity. Qed.
Lemma rep_pow2 e : emin <= e -> rep (pow2 e).
Proof.
  intros H. exists 1, e. split; [|split; [exact H|ring]].
  simpl. pose proof (Z.pow_pos_nonneg 2 p). lia.
Qed.
Lemma rep_opp x : rep x -> rep (- x).
Proof. intros (m & e & A & B & C). exists (- m), e. rewrite Z.abs_opp, C, inject_Z_opp. split; [exact A|]. split; [exact B|ring]. Qed.

(** ** Error bounds *)
Lemma fl_abs_err x k : emin <= k - p -> (Qabs x <= pow2 k)%Q ->
  (Qabs (fl p emin x - x) <= pow2 (k - p - 1))%Q.
Proof.
  intros Hk H. destruct (Qeq_dec x 0) as [Z0|N].
  { rewrite fl_0' by exact Z0. rewrite Z0. change (Qabs (0 - 0)) with 0%Q. apply Qlt_le_weak, pow2_pos. }
  destruct (Qlt_le_dec (Qabs x) (pow2 k)) as [L|L].
  - eapply Qle_trans; [apply fl_ulp, N|]. apply pow2_mono.
    pose proof (frexp_exp_le x k N L). unfold ulp_exp. lia.
  - assert (E : (Qabs x == pow2 k)%Q) by lra.
    assert (R : rep (pow2 k)) by (apply rep_pow2; lia).
    assert (X : (x == pow2 k \/ x == - pow2 k)%Q).
    { destruct (Qlt_le_dec x 0) as [S0|S0].
      - rewrite Qabs_neg in E by lra. right. lra.
      - rewrite Qabs_pos in E by lra. left. lra. }
    assert (RX : rep x).
    { destruct X as [X|X]; [apply (rep_comp (pow2 k))|apply (rep_comp (- pow2 k)%Q)]; try (symmetry; exact X); auto using rep_opp. }
    rewrite (fl_exact x RX). setoid_replace (x - x)%Q with 0%Q by ring. apply Qlt_le_weak, pow2_pos.
Qed.

(** Multiples of the least representable number. *)
Definition on_grid (x : Q) : Prop := exists n, (x == inject_Z n * pow2 emin)%Q.

Lemma rep_on_grid x : rep x -> on_grid x.
Proof.
  intros (m & e & _ & He & E). exists (m * 2 ^ (e - emin)). rewrite E.
  replace e with ((e - emin) + emin) at 1 by lia. rewrite pow2_plus, pow2_Z by lia.
  rewrite inject_Z_mult. ring.
Qed.
Lemma grid_plus x y : on_grid x -> on_grid y -> on_grid (x + y).
Proof. intros (a & A) (b & B). exists (a + b). rewrite A, B, inject_Z_plus. ring. Qed.
Lemma grid_mulZ n x : on_grid x -> on_grid (inject_Z n * x).
Proof. intros (a & A). exists (n * a). rewrite A, inject_Z_mult. ring. Qed.

Lemma fl_rel_normal x : (pow2 (emin + p - 1) <= Qabs x)%Q ->
  (Qabs (fl p emin x - x) <= Qabs x * pow2 (- p))%Q.
Proof.
  intros H. assert (N : ~ (x == 0)%Q).
  { intros E. rewrite E in H. change (Qabs 0) with 0%Q in H. pose proof (pow2_pos (emin + p - 1)). lra. }
  destruct (frexp_exp_spec x N) as [A B].
  assert (G : emin + p - 1 < frexp_exp x).
  { apply (Qpower_lt_compat_l_inv 2); [|lra]. eapply Qle_lt_trans; [exact H|exact B]. }
  eapply Qle_trans; [apply fl_ulp, N|].
  replace (ulp_exp x - 1) with ((frexp_exp x - 1) + (- p)) by (unfold ulp_exp; lia).
  rewrite pow2_plus. apply Qmult_le_compat_r; [exact A|apply Qlt_le_weak, pow2_pos].
Qed.

Lemma fl_rel_grid x : on_grid x -> (Qabs (fl p emin x - x) <= Qabs x * pow2 (- p))%Q.
Proof.
  intros (n & E). destruct (Qlt_le_dec (Qabs x) (pow2 (emin + p - 1))) as [L|L]; [|now apply fl_rel_normal].
  assert (R : rep x).
  { exists n, emin. split; [|split; [lia|exact E]].
    rewrite E, Qabs_scale in L by apply pow2_pos.
    assert (L' : (Qabs (inject_Z n) < inject_Z (2 ^ p))%Q).
    { apply (Qmult_lt_r _ _ (pow2 emin)); [apply pow2_pos|]. eapply Qlt_le_trans; [exact L|].
      rewrite <- pow2_Z by lia. rewrite <- pow2_plus. apply pow2_mono. lia. }
    apply Qlt_le_weak in L'. apply Qabs_Qle_condition in L'. rewrite <- inject_Z_opp, <- !Zle_Qle in L'. lia. }
  rewrite (fl_exact x R). setoid_replace (x - x)%Q with 0%Q by ring.
  change (Qabs 0) with 0%Q. apply Qmult_le_0_compat; [apply Qabs_nonneg|apply Qlt_le_weak, pow2_pos].
Qed.

(** Every quotient: relative error plus half the least subnormal. *)
Lemma fl_err x : (Qabs (fl p emin x - x) <= Qabs x * pow2 (- p) + pow2 (emin - 1))%Q.
Proof.
  pose proof (pow2_pos (emin - 1)). pose proof (pow2_pos (- p)).
  assert (P : (0 <= Qabs x * pow2 (- p))%Q) by (apply Qmult_le_0_compat; [apply Qabs_nonneg|lra]).
  destruct (Qlt_le_dec (Qabs x) (pow2 (emin + p))) as [L|L].
  - assert (E := fl_abs_err x (emin + p) ltac:(lia) (Qlt_le_weak _ _ L)).
    replace (emin + p - p - 1) with (emin - 1) in E by lia. lra.
  - assert (E := fl_rel_normal x). 
    assert (M : (pow2 (emin + p - 1) <= pow2 (emin + p))%Q) by (apply pow2_mono; lia).
    specialize (E (Qle_trans _ _ _ M L)). lra.
Qed.

Lemma fl_sign x : ((0 <= x)%Q -> (0 <= fl p emin x)%Q) /\ ((x <= 0)%Q -> (fl p emin x <= 0)%Q).
Proof. split; intros H; [apply fl_ge|apply fl_le]; auto using rep_0. Qed.

Lemma fl_opp x : (fl p emin (- x) == - fl p emin x)%Q.
Proof.
  destruct (Qeq_dec x 0) as [Z0|N].
  { rewrite !fl_0' by lra. reflexivity. }
  assert (N' : ~ (- x == 0)%Q) by lra.
  rewrite !fl_eq by assumption.
  assert (E : ulp_exp (- x) = ulp_exp x).
  { unfold ulp_exp. f_equal. f_equal. destruct (frexp_exp_spec x N) as [A B]. destruct (frexp_exp_spec _ N') as [C D].
    rewrite Qabs_opp in C, D.
    assert (X1 : frexp_exp x - 1 < frexp_exp (- x)).
    { apply (Qpower_lt_compat_l_inv 2); [|lra]. eapply Qle_lt_trans; [exact A|exact D]. }
    assert (X2 : frexp_exp (- x) - 1 < frexp_exp x).
    { apply (Qpower_lt_compat_l_inv 2); [|lra]. eapply Qle_lt_trans; [exact C|exact B]. }
    lia. }
  rewrite E. set (u := pow2 (ulp_exp x)). pose proof (pow2_pos (ulp_exp x)) as U. fold u in U.
  assert (R : Qround_even (- x / u) = - Qround_even (x / u)).
  { rewrite (Qround_even_comp (- x / u) (- (x / u))) by (field; lra). generalize (x / u)%Q. intros r.
    unfold Qround_even. destruct (Qfloor_bounds r) as [F1 F2].
    destruct (Qeq_dec r (inject_Z (Qfloor r))) as [I0|I0].
    - assert (FE : Qfloor (- r) = - Qfloor r).
      { apply Qfloor_iff. rewrite inject_Z_opp. split; lra. }
      rewrite FE, inject_Z_opp.
      destruct (Qcompare_spec (- r - - inject_Z (Qfloor r)) (1 # 2)) as [C|C|C]; try lra.
      destruct (Qcompare_spec (r - inject_Z (Qfloor r)) (1 # 2)) as [C'|C'|C']; try lra. reflexivity.
    - assert (FE : Qfloor (- r) = - Qfloor r - 1).
      { apply Qfloor_iff. rewrite inject_Z_minus, inject_Z_opp. change (inject_Z 1) with 1%Q. split; lra. }
      rewrite FE, inject_Z_minus, inject_Z_opp. change (inject_Z 1) with 1%Q.
      destruct (Qcompare_spec (- r - (- inject_Z (Qfloor r) - 1)) (1 # 2)) as [C|C|C];
      destruct (Qcompare_spec (r - inject_Z (Qfloor r)) (1 # 2)) as [C'|C'|C']; try lra; try lia.
      rewrite Z.even_sub, Z.even_opp. destruct (Z.even (Qfloor r)); simpl; lia. }
  rewrite R, inject_Z_opp. ring.
Qed.
End Round.
