(** The double-precision quantizer against the exact one. *)
From Verif Require Import Base BaseProofs DtypeModel QuantModel QuantProofs FcModel FcProofs FloatModel FloatProofs.
From Coq Require Import Lqa Qpower.
Open Scope Z_scope.
Open Scope list_scope.

Notation rep64 := (rep 53 (-1074)).
Lemma p64 : 1 <= 53. Proof. lia. Qed.

(** ** Overflow *)
Definition approx (k : Z) (a : f64) (r : Q) : Prop :=
  match a with
  | Fin q => (q == r)%Q
  | Inf false => (pow2 k <= r)%Q
  | Inf true => (r <= - pow2 k)%Q
  | NaN => False
  end.

Lemma approx_weaken k k' a r : k' <= k -> approx k a r -> approx k' a r.
Proof.
  intros H A. pose proof (pow2_mono _ _ H). destruct a as [q|[|]|]; unfold approx in *; try exact A; lra.
Qed.

Lemma Qneg_spec x : Qneg x = true <-> (x < 0)%Q.
Proof.
  unfold Qneg. rewrite negb_true_iff. destruct (Qle_bool 0 x) eqn:E.
  - apply Qle_bool_iff in E. split; [congruence|lra].
  - split; [intros _|reflexivity]. apply Qnot_le_lt. intros H. apply Qle_bool_iff in H. congruence.
Qed.
Lemma Qneg_false x : Qneg x = false <-> (0 <= x)%Q.
Proof. unfold Qneg. rewrite negb_false_iff. apply Qle_bool_iff. Qed.

Lemma rnd_approx x k : k <= 1024 -> approx k (rnd x) (fl64 x).
Proof.
  intros Hk. unfold rnd. destruct (Qle_bool (pow2 1024) (Qabs (fl64 x))) eqn:E; [|simpl; reflexivity].
  apply Qle_bool_iff in E. assert (M := pow2_mono k 1024 Hk).
  destruct (Qneg (fl64 x)) eqn:N; simpl.
  - apply Qneg_spec in N. rewrite Qabs_neg in E by lra. lra.
  - apply Qneg_false in N. rewrite Qabs_pos in E by lra. lra.
Qed.

Lemma rnd_fin x : (Qabs x <= pow2 1023)%Q -> rnd x = Fin (fl64 x).
Proof.
  intros H. unfold rnd. destruct (Qle_bool (pow2 1024) (Qabs (fl64 x))) eqn:E; [|reflexivity].
  exfalso. apply Qle_bool_iff in E.
  assert (R : rep64 (pow2 1023)) by (apply rep_pow2; lia).
  apply Qabs_Qle_condition in H as [H1 H2].
  assert (F : (Qabs (fl64 x) <= pow2 1023)%Q).
  { apply Qabs_Qle_condition. split.
    - apply fl_ge; [apply p64|apply rep_opp; exact R|exact H1].
    - apply fl_le; [apply p64|exact R|exact H2]. }
  assert (M := pow2_lt 1023 1024 ltac:(lia)). lra.
Qed.

Lemma fl64_Z z : Z.abs z <= 2 ^ 53 -> (fl64 (inject_Z z) == inject_Z z)%Q.
Proof. intros H. apply fl_exact; [apply p64|]. apply rep_Z; lia. Qed.
Lemma abs_inject z k : 0 <= k -> Z.abs z <= 2 ^ k -> (Qabs (inject_Z z) <= pow2 k)%Q.
Proof.
  intros K H. apply Qabs_Qle_condition. rewrite pow2_Z by exact K. rewrite <- inject_Z_opp, <- !Zle_Qle. lia.
Qed.
Lemma f_of_Z_fin z : Z.abs z <= 2 ^ 53 -> exists q, f_of_Z z = Fin q /\ (q == inject_Z z)%Q.
Proof.
  intros H. exists (fl64 (inject_Z z)). split; [|now apply fl64_Z]. unfold f_of_Z. apply rnd_fin.
  eapply Qle_trans; [apply (abs_inject z 53); [lia|exact H]|]. apply pow2_mono. lia.
Qed.

(** Adding a moderate finite number keeps the agreement. *)
Lemma fl_big_ge x k : -1074 <= k -> (pow2 k <= x)%Q -> (pow2 k <= fl64 x)%Q.
Proof. intros K H. apply fl_ge; [apply p64|now apply rep_pow2|exact H]. Qed.
Lemma fl_big_le x k : -1074 <= k -> (x <= - pow2 k)%Q -> (fl64 x <= - pow2 k)%Q.
Proof. intros K H. apply fl_le; [apply p64|apply rep_opp; now apply rep_pow2|exact H]. Qed.

Lemma fadd_approx k a r b : 0 <= k <= 1023 -> approx (k + 1) a r -> (Qabs b <= pow2 k)%Q ->
  approx k (fadd a (Fin b)) (fl64 (r + b)).
Proof.
  intros Hk A B. apply Qabs_Qle_condition in B as [B1 B2].
  assert (P : (pow2 (k + 1) == 2 * pow2 k)%Q) by (rewrite pow2_plus, pow2_1; ring).
  destruct a as [q|[|]|]; simpl in A |- *; try contradiction.
  - replace (fl64 (r + b)) with (fl64 (q + b)); [apply rnd_approx; lia|].
    apply fl_comp. now rewrite A.
  - apply fl_big_le; [lia|]. lra.
  - apply fl_big_ge; [lia|]. lra.
Qed.
Lemma fdiv_approx x s k : k <= 1024 -> ~ (s == 0)%Q -> approx k (fdiv (Fin x) (Fin s)) (fl64 (x / s)).
Proof.
  intros Hk N. unfold fdiv. destruct (Qeq_bool s 0) eqn:E.
  - apply Qeq_bool_iff in E. contradiction.
  - now apply rnd_approx.
Qed.

Lemma Qtrunc_Z n : Qtrunc (inject_Z n) = n.
Proof.
  unfold Qtrunc. destruct (Qle_bool 0 (inject_Z n)); [apply Qfloor_inject|].
  unfold Qceiling. rewrite <- inject_Z_opp, Qfloor_inject. lia.
Qed.
Lemma Qfloor_comp x y : (x == y)%Q -> Qfloor x = Qfloor y.
Proof. intros E. now rewrite E. Qed.

Lemma fclip_floor d a r : fits_i32 d -> approx 33 a r ->
  fcast_i32 (fclip (gmin d) (gmax d) (ffloor a)) = clipZ (gmin d) (gmax d) (Qfloor r).
Proof.
  intros (H1 & H2 & H3) A.
  assert (C := clipZ_range (gmin d) (gmax d) (Qfloor r) H2).
  assert (P33 : (pow2 33 == inject_Z (2 ^ 33))%Q) by reflexivity.
  destruct a as [q|[|]|]; simpl in A; try contradiction; unfold ffloor, fclip.
  - rewrite (Qfloor_comp _ _ A).
    destruct (Qlt_le_dec (inject_Z (Qfloor r)) (inject_Z (gmin d))) as [L|L].
    + rewrite <- Zlt_Qlt in L. destruct (Z.ltb_spec (gmax d) (gmin d)); [lia|].
      unfold fcast_i32. rewrite Qtrunc_Z, cast_i32_id by lia. unfold clipZ. lia.
    + rewrite <- Zle_Qle in L.
      destruct (Qlt_le_dec (inject_Z (gmax d)) (inject_Z (Qfloor r))) as [G|G].
      * rewrite <- Zlt_Qlt in G. unfold fcast_i32. rewrite Qtrunc_Z, cast_i32_id by lia. unfold clipZ. lia.
      * rewrite <- Zle_Qle in G. unfold fcast_i32. rewrite Qtrunc_Z, cast_i32_id by lia. unfold clipZ. lia.
  - unfold fcast_i32. rewrite Qtrunc_Z, cast_i32_id by lia.
    assert (F : Qfloor r <= - 2 ^ 33).
    { apply Zle_inj. rewrite inject_Z_opp. rewrite P33 in A.
      eapply Qle_trans; [apply Qfloor_le|exact A]. }
    unfold clipZ. lia.
  - unfold fcast_i32. rewrite Qtrunc_Z, cast_i32_id by lia.
    assert (F : 2 ^ 33 <= Qfloor r) by (apply Qfloor_ge; rewrite <- P33; exact A).
    unfold clipZ. lia.
Qed.

(** The value before floor: three roundings. *)
Definition pre_floor_p (zp : Z) (s x p : Q) : Q := fl64 (fl64 (fl64 (x / s) + inject_Z zp) + p).
Notation pre_floor zp s x := (pre_floor_p zp s x (1#2)).

Lemma affine_approx zp s x : Z.abs zp <= 2 ^ 53 -> ~ (s == 0)%Q ->
  approx 60 (qf_affine zp (Fin s) (Fin x)) (fl64 (fl64 (x / s) + inject_Z zp)).
Proof.
  intros Z0 N. unfold qf_affine. destruct (f_of_Z_fin zp Z0) as (z & -> & Ez).
  replace (fl64 (fl64 (x / s) + inject_Z zp)) with (fl64 (fl64 (x / s) + z)) by (apply fl_comp; now rewrite Ez).
  apply fadd_approx; [lia|now apply fdiv_approx|]. rewrite Ez.
  eapply Qle_trans; [apply (abs_inject zp 53); [lia|exact Z0]|]. apply pow2_mono. lia.
Qed.

Lemma quantf1_real d zp s x : fits_i32 d -> Z.abs zp <= 2 ^ 53 -> ~ (s == 0)%Q ->
  quantf1 d zp (Fin s) (Fin x) = clipZ (gmin d) (gmax d) (Qfloor (pre_floor zp s x)).
Proof.
  intros F Z0 N. unfold quantf1, qf_round. apply fclip_floor; [exact F|].
  unfold pre_floor_p. pose proof (affine_approx zp s x Z0 N) as A.
  apply fadd_approx; [lia| |vm_compute; discriminate].
  exact (approx_weaken 60 34 _ _ ltac:(lia) A).
Qed.

Lemma half01 : (0 <= 1#2 <= 1)%Q. Proof. lra. Qed.

(** ** Error of the three roundings *)
(** codes and zero point within [-2^k, 2^k] *)
Definition dt_bound (d : gdtype) (zp k : Z) : Prop :=
  0 <= k <= 40 /\ - 2 ^ k <= gmin d /\ gmax d <= 2 ^ k /\ Z.abs zp <= 2 ^ k.

Lemma fl64_bound x k : -1074 <= k -> (Qabs x <= pow2 k)%Q -> (Qabs (fl64 x) <= pow2 k)%Q.
Proof.
  intros K H. apply Qabs_Qle_condition in H as [H1 H2]. apply Qabs_Qle_condition. split.
  - apply fl_ge; [apply p64|apply rep_opp; now apply rep_pow2|exact H1].
  - apply fl_le; [apply p64|now apply rep_pow2|exact H2].
Qed.
Lemma fl64_err x k : -1021 <= k -> (Qabs x <= pow2 k)%Q -> (Qabs (fl64 x - x) <= pow2 (k - 54))%Q.
Proof. intros K H. replace (k - 54) with (k - 53 - 1) by lia. apply fl_abs_err; [lia|lia|exact H]. Qed.

Lemma pow2_S k : (pow2 (k + 1) == 2 * pow2 k)%Q.
Proof. rewrite pow2_plus, pow2_1. ring. Qed.
Lemma pow2_ge1 k : 0 <= k -> (1 <= pow2 k)%Q.
Proof. intros H. change 1%Q with (pow2 0). now apply pow2_mono. Qed.

Lemma pre_floor_err zp s x p k : (0 <= p <= 1)%Q -> 0 <= k <= 40 -> Z.abs zp <= 2 ^ k -> (Qabs (x / s) <= pow2 (k + 2))%Q ->
  (Qabs (pre_floor_p zp s x p - (x / s + inject_Z zp + p)) <= pow2 (k - 49))%Q.
Proof.
  intros HP K Z0 T. unfold pre_floor_p. set (t := (x / s)%Q) in *. clearbody t. 
  pose proof (fl64_bound t (k + 2) ltac:(lia) T) as B1. pose proof (fl64_err t (k + 2) ltac:(lia) T) as E1.
  set (t1 := fl64 t) in *. clearbody t1.
  pose proof (abs_inject zp k ltac:(lia) Z0) as ZB. set (z := inject_Z zp) in *. clearbody z.
  assert (K3 : (pow2 (k + 3) == 2 * pow2 (k + 2))%Q) by (replace (k + 3) with (k + 2 + 1) by lia; apply pow2_S).
  assert (K2 : (pow2 (k + 2) == 4 * pow2 k)%Q) by (rewrite pow2_plus; change (pow2 2) with 4%Q; ring).
  assert (K4 : (pow2 (k + 4) == 2 * pow2 (k + 3))%Q) by (replace (k + 4) with (k + 3 + 1) by lia; apply pow2_S).
  pose proof (pow2_ge1 k ltac:(lia)) as G.
  assert (T2 : (Qabs (t1 + z) <= pow2 (k + 3))%Q).
  { eapply Qle_trans; [apply Qabs_triangle|]. lra. }
  pose proof (fl64_bound _ (k + 3) ltac:(lia) T2) as B2. pose proof (fl64_err _ (k + 3) ltac:(lia) T2) as E2.
  set (t2 := fl64 (t1 + z)) in *. clearbody t2.
  assert (T3 : (Qabs (t2 + p) <= pow2 (k + 4))%Q).
  { eapply Qle_trans; [apply Qabs_triangle|]. rewrite (Qabs_pos p) by lra. lra. }
  pose proof (fl64_err _ (k + 4) ltac:(lia) T3) as E3.
  set (t3 := fl64 (t2 + p)) in *. clearbody t3.
  replace (k + 2 - 54) with (k - 52) in E1 by lia. replace (k + 3 - 54) with (k - 51) in E2 by lia.
  replace (k + 4 - 54) with (k - 50) in E3 by lia.
  assert (D1 : (pow2 (k - 51) == 2 * pow2 (k - 52))%Q) by (replace (k - 51) with (k - 52 + 1) by lia; apply pow2_S).
  assert (D2 : (pow2 (k - 50) == 2 * pow2 (k - 51))%Q) by (replace (k - 50) with (k - 51 + 1) by lia; apply pow2_S).
  assert (D3 : (pow2 (k - 49) == 2 * pow2 (k - 50))%Q) by (replace (k - 49) with (k - 50 + 1) by lia; apply pow2_S).
  pose proof (pow2_pos (k - 52)).
  apply Qabs_Qle_condition in E1. apply Qabs_Qle_condition in E2. apply Qabs_Qle_condition in E3.
  apply Qabs_Qle_condition. split; lra.
Qed.

(** Far from the range both saturate. *)
Lemma pre_floor_high zp s x p k : (0 <= p <= 1)%Q -> 0 <= k <= 40 -> Z.abs zp <= 2 ^ k -> (pow2 (k + 2) <= x / s)%Q ->
  (pow2 (k + 1) <= pre_floor_p zp s x p)%Q.
Proof.
  intros HP K Z0 T. unfold pre_floor_p. apply fl_big_ge in T; [|lia].
  pose proof (abs_inject zp k ltac:(lia) Z0) as ZB. apply Qabs_Qle_condition in ZB as [ZB _].
  assert (K2 : (pow2 (k + 2) == 4 * pow2 k)%Q) by (rewrite pow2_plus; change (pow2 2) with 4%Q; ring).
  pose proof (pow2_ge1 k ltac:(lia)) as G. pose proof (pow2_S k) as K1.
  assert (T2 : (pow2 (k + 1) <= fl64 (fl64 (x / s) + inject_Z zp))%Q) by (apply fl_big_ge; [lia|lra]).
  apply fl_big_ge; [lia|lra].
Qed.
Lemma pre_floor_low zp s x p k : (0 <= p <= 1)%Q -> 0 <= k <= 40 -> Z.abs zp <= 2 ^ k -> (x / s <= - pow2 (k + 2))%Q ->
  (pre_floor_p zp s x p <= - pow2 k)%Q.
Proof.
  intros HP K Z0 T. unfold pre_floor_p. apply fl_big_le in T; [|lia].
  pose proof (abs_inject zp k ltac:(lia) Z0) as ZB. apply Qabs_Qle_condition in ZB as [_ ZB].
  assert (K2 : (pow2 (k + 2) == 4 * pow2 k)%Q) by (rewrite pow2_plus; change (pow2 2) with 4%Q; ring).
  pose proof (pow2_ge1 k ltac:(lia)) as G. pose proof (pow2_S k) as K1.
  assert (T2 : (fl64 (fl64 (x / s) + inject_Z zp) <= - pow2 (k + 1))%Q) by (apply fl_big_le; [lia|lra]).
  apply fl_big_le; [lia|lra].
Qed.

(** Floors of nearby numbers, clipped *)
Lemma clip_floor_near lo hi a b e : lo <= hi -> (Qabs (a - b) <= e)%Q ->
  clipZ lo hi (Qfloor a) <> clipZ lo hi (Qfloor b) ->
  exists n, lo < n <= hi /\ (Qabs (b - inject_Z n) <= e)%Q.
Proof.
  intros L H N. apply Qabs_Qle_condition in H.
  destruct (Qfloor_bounds a) as [A1 A2]. destruct (Qfloor_bounds b) as [B1 B2].
  destruct (Z_lt_le_dec (clipZ lo hi (Qfloor a)) (clipZ lo hi (Qfloor b))) as [X|X].
  - set (n := clipZ lo hi (Qfloor b)) in *. exists n.
    assert (N1 : lo < n <= hi) by (unfold n, clipZ in *; lia). split; [exact N1|].
    assert (N2 : n <= Qfloor b) by (unfold n, clipZ in *; lia).
    assert (N3 : Qfloor a + 1 <= n) by (unfold n, clipZ in *; lia).
    rewrite Zle_Qle in N2, N3. rewrite inject_Z_plus in N3. change (inject_Z 1) with 1%Q in N3.
    apply Qabs_Qle_condition. split; lra.
  - set (n := clipZ lo hi (Qfloor a)) in *. exists n.
    assert (N1 : lo < n <= hi) by (unfold n, clipZ in *; lia). split; [exact N1|].
    assert (N2 : n <= Qfloor a) by (unfold n, clipZ in *; lia).
    assert (N3 : Qfloor b + 1 <= n) by (unfold n, clipZ in *; lia).
    rewrite Zle_Qle in N2, N3. rewrite inject_Z_plus in N3. change (inject_Z 1) with 1%Q in N3.
    apply Qabs_Qle_condition. split; lra.
Qed.
Lemma clip_floor_1 lo hi a b : (Qabs (a - b) <= 1)%Q ->
  Z.abs (clipZ lo hi (Qfloor a) - clipZ lo hi (Qfloor b)) <= 1.
Proof.
  intros H. apply Qabs_Qle_condition in H.
  destruct (Qfloor_bounds a) as [A1 A2]. destruct (Qfloor_bounds b) as [B1 B2].
  assert (X : Qfloor a < Qfloor b + 2).
  { apply Zlt_inj. rewrite inject_Z_plus. change (inject_Z 2) with 2%Q. lra. }
  assert (Y : Qfloor b < Qfloor a + 2).
  { apply Zlt_inj. rewrite inject_Z_plus. change (inject_Z 2) with 2%Q. lra. }
  unfold clipZ. lia.
Qed.

Lemma exact_high d zp t k : gmin d <= gmax d -> dt_bound d zp k -> (pow2 (k + 1) <= t)%Q ->
  clipZ (gmin d) (gmax d) (Qfloor t) = gmax d.
Proof.
  intros L (K & B1 & B2 & B3) H.
  assert (F : 2 ^ k <= Qfloor t).
  { apply Qfloor_ge. rewrite <- pow2_Z by lia. rewrite pow2_S in H. pose proof (pow2_pos k). lra. }
  unfold clipZ. lia.
Qed.
Lemma exact_low d zp t k : gmin d <= gmax d -> dt_bound d zp k -> (t <= - pow2 k)%Q ->
  clipZ (gmin d) (gmax d) (Qfloor t) = gmin d.
Proof.
  intros L (K & B1 & B2 & B3) H.
  assert (F : Qfloor t <= - 2 ^ k).
  { apply Zle_inj. eapply Qle_trans; [apply Qfloor_le|]. rewrite inject_Z_opp, <- pow2_Z by lia. exact H. }
  unfold clipZ. lia.
Qed.

Lemma dt_bound_zp d zp k : dt_bound d zp k -> Z.abs zp <= 2 ^ 53.
Proof. intros (K & _ & _ & H). pose proof (Z.pow_le_mono_r 2 k 53). lia. Qed.

(** [|x/s|] huge: the same (saturated) code. *)
Lemma quantf1_far d zp s x k : fits_i32 d -> dt_bound d zp k -> ~ (s == 0)%Q ->
  (pow2 (k + 2) < Qabs (x / s))%Q -> quantf1 d zp (Fin s) (Fin x) = quant1 d zp s x.
Proof.
  intros F B N H. rewrite quantf1_real; [|exact F|exact (dt_bound_zp _ _ _ B)|exact N].
  unfold quant1. rewrite q_round_clip by exact F. destruct F as (F1 & F2 & F3). pose proof B as (K & B1 & B2 & B3).
  pose proof (abs_inject zp k ltac:(lia) B3) as ZB. apply Qabs_Qle_condition in ZB as [ZB1 ZB2].
  assert (K2 : (pow2 (k + 2) == 4 * pow2 k)%Q) by (rewrite pow2_plus; change (pow2 2) with 4%Q; ring).
  pose proof (pow2_ge1 k ltac:(lia)) as G. pose proof (pow2_S k) as K1.
  destruct (Qlt_le_dec (x / s) 0) as [S0|S0].
  - rewrite Qabs_neg in H by lra.
    rewrite !(exact_low d zp _ k F2 B); [reflexivity|lra|]. apply pre_floor_low; [lra|lia|exact B3|lra].
  - rewrite Qabs_pos in H by lra.
    rewrite !(exact_high d zp _ k F2 B); [reflexivity|lra|]. apply pre_floor_high; [lra|lia|exact B3|lra].
Qed.

Lemma pow2_k49 k : k <= 40 -> (pow2 (k - 49) <= 1#512)%Q.
Proof. intros H. change (1#512)%Q with (pow2 (-9)). apply pow2_mono. lia. Qed.

Lemma quantf1_agree d zp s x k : fits_i32 d -> dt_bound d zp k -> ~ (s == 0)%Q ->
  quantf1 d zp (Fin s) (Fin x) <> quant1 d zp s x ->
  exists n, gmin d < n <= gmax d /\ (Qabs (x / s + inject_Z zp + (1#2) - inject_Z n) <= pow2 (k - 49))%Q.
Proof.
  intros F B N H. destruct (Qlt_le_dec (pow2 (k + 2)) (Qabs (x / s))) as [L|L].
  { exfalso. apply H. now apply (quantf1_far d zp s x k). }
  rewrite quantf1_real in H; [|exact F|exact (dt_bound_zp _ _ _ B)|exact N].
  unfold quant1 in H. rewrite q_round_clip in H by exact F.
  destruct B as (K & _ & _ & Z0). destruct F as (_ & F2 & _).
  exact (clip_floor_near _ _ _ _ _ F2 (pre_floor_err zp s x _ k half01 K Z0 L) H).
Qed.

Lemma quantf1_close d zp s x k : fits_i32 d -> dt_bound d zp k -> ~ (s == 0)%Q ->
  Z.abs (quantf1 d zp (Fin s) (Fin x) - quant1 d zp s x) <= 1.
Proof.
  intros F B N. destruct (Qlt_le_dec (pow2 (k + 2)) (Qabs (x / s))) as [L|L].
  { rewrite (quantf1_far d zp s x k) by assumption. lia. }
  rewrite quantf1_real; [|exact F|exact (dt_bound_zp _ _ _ B)|exact N].
  unfold quant1. rewrite q_round_clip by exact F. apply clip_floor_1.
  destruct B as (K & _ & _ & Z0). eapply Qle_trans; [apply (pre_floor_err zp s x _ k half01 K Z0 L)|].
  pose proof (pow2_k49 k ltac:(lia)). lra.
Qed.

(** Error in code units *)
Lemma quantf1_code_err d zp s x k : fits_i32 d -> dt_bound d zp k -> ~ (s == 0)%Q ->
  (inject_Z (gmin d) <= x / s + inject_Z zp <= inject_Z (gmax d))%Q ->
  (Qabs (inject_Z (quantf1 d zp (Fin s) (Fin x)) - (x / s + inject_Z zp)) <= (1#2) + pow2 (k - 49))%Q.
Proof.
  intros F B N [R1 R2]. pose proof B as (K & B1 & B2 & B3).
  rewrite Zle_Qle, inject_Z_opp, <- pow2_Z in B1 by lia. rewrite Zle_Qle, <- pow2_Z in B2 by lia.
  pose proof (abs_inject zp k ltac:(lia) B3) as ZB. apply Qabs_Qle_condition in ZB as [ZB1 ZB2].
  assert (K2 : (pow2 (k + 2) == 4 * pow2 k)%Q) by (rewrite pow2_plus; change (pow2 2) with 4%Q; ring).
  pose proof (pow2_pos k) as P.
  assert (L : (Qabs (x / s) <= pow2 (k + 2))%Q) by (apply Qabs_Qle_condition; split; lra).
  pose proof (pre_floor_err zp s x _ k half01 K B3 L) as E. apply Qabs_Qle_condition in E.
  rewrite quantf1_real; [|exact F|exact (dt_bound_zp _ _ _ B)|exact N].
  destruct F as (_ & F2 & _). destruct (Qfloor_bounds (pre_floor zp s x)) as [G1 G2].
  set (f := Qfloor (pre_floor zp s x)) in *. pose proof (pow2_pos (k - 49)).
  apply Qabs_Qle_condition.
  assert (C : (clipZ (gmin d) (gmax d) f = f \/ (clipZ (gmin d) (gmax d) f = gmin d /\ f <= gmin d)
      \/ (clipZ (gmin d) (gmax d) f = gmax d /\ gmax d <= f))) by (unfold clipZ; lia).
  destruct C as [->|[[-> C]|[-> C]]]; [split; lra| |]; rewrite Zle_Qle in C; split; lra.
Qed.

(** Dequantize *)
Lemma Qmult_abs_le a b c : (Qabs a <= b)%Q -> (0 <= c)%Q -> (Qabs (a * c) <= b * c)%Q.
Proof. intros H C. rewrite Qabs_Qmult, (Qabs_pos c) by exact C. now apply Qmult_le_compat_r. Qed.

Lemma dequantf1_fin d zp s q k : fits_i32 d -> zp_nowrap d zp -> dt_bound d zp k -> in_dt d q ->
  (0 < s)%Q -> (s <= pow2 (1022 - k))%Q -> dequantf1 zp (Fin s) q = Fin (fl64 (inject_Z (q - zp) * s)).
Proof.
  intros F W B D S0 S1. unfold dequantf1.
  assert (E : wrap_s 32 (wrap_s 32 q - zp) = q - zp).
  { unfold fits_i32, zp_nowrap, in_dt in *. rewrite (wrap_s_id 32 q) by (simpl; lia). apply wrap_s_id; simpl; lia. }
  rewrite E. simpl. apply rnd_fin.
  destruct B as (K & B1 & B2 & B3). unfold in_dt in D.
  assert (A : (Qabs (inject_Z (q - zp)) <= pow2 (k + 1))%Q).
  { apply abs_inject; [lia|]. rewrite Z.pow_add_r by lia. change (2 ^ 1) with 2. lia. }
  rewrite Qabs_Qmult, (Qabs_pos s) by lra.
  replace 1023 with (k + 1 + (1022 - k)) by lia. rewrite pow2_plus.
  eapply Qle_trans; [apply Qmult_le_compat_r; [exact A|lra]|].
  rewrite !(Qmult_comm (pow2 (k + 1))). apply Qmult_le_compat_r; [exact S1|apply Qlt_le_weak, pow2_pos].
Qed.

Lemma dequantf1_rel zp s q : rep64 s ->
  (Qabs (fl64 (inject_Z (q - zp) * s) - inject_Z (q - zp) * s) <= Qabs (inject_Z (q - zp) * s) * pow2 (-53))%Q.
Proof. intros R. apply fl_rel_grid; [apply p64|]. apply grid_mulZ. exact (rep_on_grid 53 (-1074) s R). Qed.

(** The quotient of a dequantized code is within 2^(k-52) of the code. *)
Lemma deq_quot d zp s q k : dt_bound d zp k -> in_dt d q -> rep64 s -> (0 < s)%Q ->
  (Qabs (fl64 (inject_Z (q - zp) * s) / s - inject_Z (q - zp)) <= pow2 (k - 52))%Q.
Proof.
  intros (K & B1 & B2 & B3) D R S0. pose proof (dequantf1_rel zp s q R) as E. unfold in_dt in D.
  assert (A : (Qabs (inject_Z (q - zp)) <= pow2 (k + 1))%Q).
  { apply abs_inject; [lia|]. rewrite Z.pow_add_r by lia. change (2 ^ 1) with 2. lia. }
  set (m := inject_Z (q - zp)) in *. clearbody m. set (y := fl64 (m * s)) in *. clearbody y.
  setoid_replace (y / s - m)%Q with ((y - m * s) * / s)%Q by (field; lra).
  pose proof (Qinv_lt_0_compat s S0) as I0.
  rewrite Qabs_Qmult, (Qabs_pos (/ s)) by lra.
  eapply Qle_trans; [apply Qmult_le_compat_r; [exact E|lra]|].
  rewrite Qabs_Qmult, (Qabs_pos s) by lra.
  setoid_replace (Qabs m * s * pow2 (-53) * / s)%Q with (Qabs m * pow2 (-53))%Q by (field; lra).
  replace (k - 52) with (k + 1 + -53) by lia. rewrite (pow2_plus (k + 1)). 
  apply Qmult_le_compat_r; [exact A|apply Qlt_le_weak, pow2_pos].
Qed.

Lemma quantf1_dequantf1 d zp s q k : fits_i32 d -> zp_nowrap d zp -> dt_bound d zp k -> in_dt d q ->
  rep64 s -> (0 < s)%Q -> (s <= pow2 (1022 - k))%Q ->
  quantf1 d zp (Fin s) (dequantf1 zp (Fin s) q) = q.
Proof.
  intros F W B D R S0 S1. rewrite (dequantf1_fin d zp s q k) by assumption.
  pose proof (deq_quot d zp s q k B D R S0) as E.
  set (y := fl64 (inject_Z (q - zp) * s)) in *. clearbody y.
  rewrite quantf1_real; [|exact F|exact (dt_bound_zp _ _ _ B)|lra].
  pose proof B as (K & B1 & B2 & B3). unfold in_dt in D.
  assert (A : (Qabs (inject_Z (q - zp)) <= pow2 (k + 1))%Q).
  { apply abs_inject; [lia|]. rewrite Z.pow_add_r by lia. change (2 ^ 1) with 2. lia. }
  assert (SM : (pow2 (k - 52) <= 1#1024)%Q) by (change (1#1024)%Q with (pow2 (-10)); apply pow2_mono; lia).
  assert (L : (Qabs (y / s) <= pow2 (k + 2))%Q).
  { replace (k + 2) with (k + 1 + 1) by lia. rewrite pow2_S.
    pose proof (pow2_ge1 (k + 1) ltac:(lia)).
    apply Qabs_Qle_condition in E. apply Qabs_Qle_condition in A. apply Qabs_Qle_condition. split; lra. }
  pose proof (pre_floor_err zp s y _ k half01 K B3 L) as P. pose proof (pow2_k49 k ltac:(lia)).
  apply Qabs_Qle_condition in E. apply Qabs_Qle_condition in P. rewrite inject_Z_minus in E.
  assert (Q0 : Qfloor (pre_floor zp s y) = q) by (apply Qfloor_iff; split; lra).
  rewrite Q0. unfold clipZ. lia.
Qed.

(** Real error *)
Lemma quantf1_real_err d zp s x k : fits_i32 d -> zp_nowrap d zp -> dt_bound d zp k -> rep64 s -> (0 < s)%Q ->
  (s <= pow2 (1022 - k))%Q ->
  (inject_Z (gmin d) <= x / s + inject_Z zp <= inject_Z (gmax d))%Q ->
  exists y, dequantf1 zp (Fin s) (quantf1 d zp (Fin s) (Fin x)) = Fin y /\
    (Qabs (x - y) <= s * ((1#2) + pow2 (k - 48)))%Q.
Proof.
  intros F W B R S0 S1 X. pose proof (quantf1_code_err d zp s x k F B ltac:(lra) X) as E.
  set (q := quantf1 d zp (Fin s) (Fin x)) in *.
  assert (D : in_dt d q).
  { unfold q. rewrite quantf1_real; [|exact F|exact (dt_bound_zp _ _ _ B)|lra]. apply clipZ_range. apply F. }
  exists (fl64 (inject_Z (q - zp) * s)). split; [now apply (dequantf1_fin d zp s q k)|].
  pose proof (deq_quot d zp s q k B D R S0) as G.
  set (y := fl64 (inject_Z (q - zp) * s)) in *. clearbody y. rewrite inject_Z_minus in G.
  setoid_replace (x - y)%Q with ((x / s - y / s) * s)%Q by (field; lra).
  rewrite (Qmult_comm s). apply Qmult_abs_le; [|lra].
  assert (D3 : (pow2 (k - 48) == 2 * pow2 (k - 49))%Q) by (replace (k - 48) with (k - 49 + 1) by lia; apply pow2_S).
  assert (M : (pow2 (k - 52) <= pow2 (k - 49))%Q) by (apply pow2_mono; lia).
  apply Qabs_Qle_condition in E. apply Qabs_Qle_condition in G. apply Qabs_Qle_condition. split; lra.
Qed.

(** ** Infinities, NaN, order *)
Lemma quantf1_inf d zp s neg : fits_i32 d -> Z.abs zp <= 2 ^ 53 -> (0 < s)%Q ->
  quantf1 d zp (Fin s) (Inf neg) = if neg then gmin d else gmax d.
Proof.
  intros (F1 & F2 & F3) Z0 S0. unfold quantf1, qf_round, qf_affine.
  destruct (f_of_Z_fin zp Z0) as (z & -> & _).
  assert (N : Qneg s = false) by (apply Qneg_false; lra). cbn [fdiv fadd]. rewrite N.
  destruct neg; cbn [xorb ffloor fclip fcast_i32]; rewrite Qtrunc_Z, cast_i32_id by lia; lia.
Qed.
Lemma quantf1_nan d zp s : quantf1 d zp s NaN = -(2^31).
Proof. unfold quantf1, qf_round, qf_affine. destruct s; reflexivity. Qed.

Lemma quantf1_range d zp s x : fits_i32 d -> Z.abs zp <= 2 ^ 53 -> (0 < s)%Q -> x <> NaN ->
  in_dt d (quantf1 d zp (Fin s) x).
Proof.
  intros F Z0 S0 N. destruct x as [x|[|]|]; [| | |congruence].
  - rewrite quantf1_real by (assumption || lra). apply clipZ_range. apply F.
  - rewrite quantf1_inf by assumption. unfold in_dt. destruct F. lia.
  - rewrite quantf1_inf by assumption. unfold in_dt. destruct F. lia.
Qed.

Definition fle (a b : f64) : Prop :=
  match a, b with
  | NaN, _ | _, NaN => False
  | Fin x, Fin y => (x <= y)%Q
  | Inf true, _ => True
  | _, Inf false => True
  | _, _ => False
  end.

Lemma pre_floor_mono zp s x y p : (0 < s)%Q -> (x <= y)%Q -> (pre_floor_p zp s x p <= pre_floor_p zp s y p)%Q.
Proof.
  intros S0 H. unfold pre_floor_p. apply fl_mono; [apply p64|]. apply Qplus_le_compat; [|apply Qle_refl].
  apply fl_mono; [apply p64|]. apply Qplus_le_compat; [|apply Qle_refl]. apply fl_mono; [apply p64|].
  apply Qmult_le_compat_r; [exact H|]. apply Qlt_le_weak, Qinv_lt_0_compat, S0.
Qed.

Lemma quantf1_mono d zp s x y : fits_i32 d -> Z.abs zp <= 2 ^ 53 -> (0 < s)%Q -> fle x y ->
  quantf1 d zp (Fin s) x <= quantf1 d zp (Fin s) y.
Proof.
  intros F Z0 S0 H.
  assert (R : forall a, a <> NaN -> in_dt d (quantf1 d zp (Fin s) a)) by (intros a Ha; now apply quantf1_range).
  unfold in_dt in R. assert (R0 : gmin d <= gmax d) by apply F.
  destruct x as [x|[|]|], y as [y|[|]|]; cbn [fle] in H; try contradiction;
    rewrite ?quantf1_inf by assumption; try lia;
    try (refine (proj1 (R (Fin _) _)); discriminate); try (refine (proj2 (R (Fin _) _)); discriminate).
  rewrite !quantf1_real by (assumption || lra).
  pose proof (Qfloor_mono _ _ (pre_floor_mono zp s x y (1#2) S0 H)). unfold clipZ. lia.
Qed.

(** ** Rounding policies *)
Lemma approx_comp k a r r' : (r == r')%Q -> approx k a r -> approx k a r'.
Proof. intros E. destruct a as [q|[|]|]; unfold approx; rewrite ?E; auto. Qed.

Lemma quantf1p_real d zp s x p : fits_i32 d -> Z.abs zp <= 2 ^ 53 -> ~ (s == 0)%Q -> (0 <= p <= 1)%Q ->
  quantf1p d zp (Fin s) (Fin x) (Fin p) = clipZ (gmin d) (gmax d) (Qfloor (pre_floor_p zp s x p)).
Proof.
  intros F Z0 N HP. unfold quantf1p, qf_round. apply fclip_floor; [exact F|].
  pose proof (affine_approx zp s x Z0 N) as A.
  apply (approx_weaken 60 36 _ _ ltac:(lia)) in A.
  assert (A2 : approx 35 (fadd (qf_affine zp (Fin s) (Fin x)) (Fin p)) (pre_floor_p zp s x p)).
  { unfold pre_floor_p. apply fadd_approx; [lia|exact A|]. rewrite Qabs_pos by lra.
    pose proof (pow2_ge1 35 ltac:(lia)). lra. }
  apply (approx_comp 33 _ (fl64 (pre_floor_p zp s x p + 0))).
  - unfold pre_floor_p at 2. unfold fl64 at 2. 
    rewrite <- (fl_exact 53 (-1074) p64 (fl 53 (-1074) (fl64 (fl64 (x / s) + inject_Z zp) + p))) by (apply rep_fl, p64).
    unfold fl64 at 1. rewrite (fl_comp 53 (-1074) (pre_floor_p zp s x p + 0) (pre_floor_p zp s x p)) by ring. reflexivity.
  - apply fadd_approx; [lia|exact (approx_weaken 35 34 _ _ ltac:(lia) A2)|].
    change (Qabs 0) with 0%Q. apply Qlt_le_weak, pow2_pos.
Qed.

Lemma quantf1p_far d zp s x p k : fits_i32 d -> dt_bound d zp k -> ~ (s == 0)%Q -> (0 <= p <= 1)%Q ->
  (pow2 (k + 2) < Qabs (x / s))%Q -> quantf1p d zp (Fin s) (Fin x) (Fin p) = quant1p d zp s x p.
Proof.
  intros F B N HP H. rewrite quantf1p_real; [|exact F|exact (dt_bound_zp _ _ _ B)|exact N|exact HP].
  unfold quant1p. rewrite q_round_clip by exact F. destruct F as (F1 & F2 & F3). pose proof B as (K & B1 & B2 & B3).
  pose proof (abs_inject zp k ltac:(lia) B3) as ZB. apply Qabs_Qle_condition in ZB as [ZB1 ZB2].
  assert (K2 : (pow2 (k + 2) == 4 * pow2 k)%Q) by (rewrite pow2_plus; change (pow2 2) with 4%Q; ring).
  pose proof (pow2_ge1 k ltac:(lia)) as G. pose proof (pow2_S k) as K1.
  destruct (Qlt_le_dec (x / s) 0) as [S0|S0].
  - rewrite Qabs_neg in H by lra.
    rewrite !(exact_low d zp _ k F2 B); [reflexivity|lra|]. apply pre_floor_low; [lra|lia|exact B3|lra].
  - rewrite Qabs_pos in H by lra.
    rewrite !(exact_high d zp _ k F2 B); [reflexivity|lra|]. apply pre_floor_high; [lra|lia|exact B3|lra].
Qed.

Lemma quantf1p_agree d zp s x p k : fits_i32 d -> dt_bound d zp k -> ~ (s == 0)%Q -> (0 <= p <= 1)%Q ->
  quantf1p d zp (Fin s) (Fin x) (Fin p) <> quant1p d zp s x p ->
  exists n, gmin d < n <= gmax d /\ (Qabs (x / s + inject_Z zp + p - inject_Z n) <= pow2 (k - 49))%Q.
Proof.
  intros F B N HP H. destruct (Qlt_le_dec (pow2 (k + 2)) (Qabs (x / s))) as [L|L].
  { exfalso. apply H. now apply (quantf1p_far d zp s x p k). }
  rewrite quantf1p_real in H; [|exact F|exact (dt_bound_zp _ _ _ B)|exact N|exact HP].
  unfold quant1p in H. rewrite q_round_clip in H by exact F.
  destruct B as (K & _ & _ & Z0). destruct F as (_ & F2 & _).
  destruct (clip_floor_near _ _ _ _ _ F2 (Qle_trans _ _ _ (Qle_refl _) (pre_floor_err zp s x p k HP K Z0 L))) as (n & Hn & E).
  { intros E. apply H. rewrite E. f_equal. apply Qfloor_comp. ring. }
  exists n. auto.
Qed.

Lemma quantf1p_close d zp s x p k : fits_i32 d -> dt_bound d zp k -> ~ (s == 0)%Q -> (0 <= p <= 1)%Q ->
  Z.abs (quantf1p d zp (Fin s) (Fin x) (Fin p) - quantf1 d zp (Fin s) (Fin x)) <= 1.
Proof.
  intros F B N HP. pose proof B as (K & B1 & B2 & B3).
  pose proof (dt_bound_zp _ _ _ B) as Z0.
  destruct (Qlt_le_dec (pow2 (k + 2)) (Qabs (x / s))) as [L|L].
  { rewrite (quantf1p_far d zp s x p k), (quantf1_far d zp s x k) by assumption.
    unfold quant1p, quant1. rewrite !q_round_clip by exact F. apply clip_floor_1.
    apply Qabs_Qle_condition. split; lra. }
  rewrite quantf1p_real, quantf1_real by assumption. apply clip_floor_1.
  pose proof (pre_floor_err zp s x p k HP K B3 L) as E1.
  pose proof (pre_floor_err zp s x _ k half01 K B3 L) as E2. pose proof (pow2_k49 k ltac:(lia)).
  apply Qabs_Qle_condition in E1. apply Qabs_Qle_condition in E2. apply Qabs_Qle_condition. split; lra.
Qed.

(** get_base_rounding away from integers and ties *)
Lemma base_cases s x : base_roundingf1 s x = Fin 0 \/ base_roundingf1 s x = Fin 1.
Proof. unfold base_roundingf1. destruct (fgt _ _); auto. Qed.

Lemma base_agree d zp s x k : fits_i32 d -> dt_bound d zp k -> ~ (s == 0)%Q ->
  (forall m, pow2 (k - 47) < Qabs (2 * (x / s) - inject_Z m))%Q ->
  quantf1p d zp (Fin s) (Fin x) (base_roundingf1 (Fin s) (Fin x)) = quantf1 d zp (Fin s) (Fin x).
Proof.
  intros F B N HM. pose proof B as (K & B1 & B2 & B3). pose proof (dt_bound_zp _ _ _ B) as Z0.
  destruct (Qlt_le_dec (pow2 (k + 2)) (Qabs (x / s))) as [L|L].
  { assert (X : exists p, base_roundingf1 (Fin s) (Fin x) = Fin p /\ (0 <= p <= 1)%Q).
    { destruct (base_cases (Fin s) (Fin x)) as [->| ->]; eexists; (split; [reflexivity|lra]). }
    destruct X as (p & -> & HP). rewrite quantf1p_real, quantf1_real by assumption.
    destruct F as (_ & F2 & _).
    destruct (Qlt_le_dec (x / s) 0) as [S0|S0].
    - rewrite Qabs_neg in L by lra.
      rewrite !(exact_low d zp _ k F2 B); [reflexivity| |]; (apply pre_floor_low; [lra|lia|exact B3|lra]).
    - rewrite Qabs_pos in L by lra.
      rewrite !(exact_high d zp _ k F2 B); [reflexivity| |]; (apply pre_floor_high; [lra|lia|exact B3|lra]). }
  pose proof (pre_floor_err zp s x _ k half01 K B3 L) as EH.
  assert (E0 := fun p HP => pre_floor_err zp s x p k HP K B3 L).
  pose proof (HM (2 * Qfloor (x / s))) as M0. pose proof (HM (2 * Qfloor (x / s) + 1)) as M1.
  pose proof (HM (2 * Qfloor (x / s) + 2)) as M2. clear HM.
  destruct (Qfloor_bounds (x / s)) as [G1 G2].
  rewrite inject_Z_mult in M0. rewrite inject_Z_plus, inject_Z_mult in M1. rewrite inject_Z_plus, inject_Z_mult in M2.
  change (inject_Z 2) with 2%Q in M0, M1, M2. change (inject_Z 1) with 1%Q in M1.
  set (f := Qfloor (x / s)) in *.
  pose proof (fl64_bound _ (k + 2) ltac:(lia) L) as T1B. pose proof (fl64_err _ (k + 2) ltac:(lia) L) as T1.
  assert (K3 : (pow2 (k + 3) == 2 * pow2 (k + 2))%Q) by (replace (k + 3) with (k + 2 + 1) by lia; apply pow2_S).
  pose proof (pow2_ge1 (k + 2) ltac:(lia)) as G.
  assert (AB : (Qabs (fl64 (x / s) + (1#2)) <= pow2 (k + 3))%Q).
  { eapply Qle_trans; [apply Qabs_triangle|]. change (Qabs (1#2)) with (1#2)%Q. lra. }
  pose proof (fl64_err _ (k + 3) ltac:(lia) AB) as A1.
  replace (k + 2 - 54) with (k - 52) in T1 by lia. replace (k + 3 - 54) with (k - 51) in A1 by lia.
  assert (D1 : (pow2 (k - 51) == 2 * pow2 (k - 52))%Q) by (replace (k - 51) with (k - 52 + 1) by lia; apply pow2_S).
  assert (D2 : (pow2 (k - 50) == 2 * pow2 (k - 51))%Q) by (replace (k - 50) with (k - 51 + 1) by lia; apply pow2_S).
  assert (D3 : (pow2 (k - 49) == 2 * pow2 (k - 50))%Q) by (replace (k - 49) with (k - 50 + 1) by lia; apply pow2_S).
  assert (D4 : (pow2 (k - 48) == 2 * pow2 (k - 49))%Q) by (replace (k - 48) with (k - 49 + 1) by lia; apply pow2_S).
  assert (D5 : (pow2 (k - 47) == 2 * pow2 (k - 48))%Q) by (replace (k - 47) with (k - 48 + 1) by lia; apply pow2_S).
  pose proof (pow2_pos (k - 52)) as PP.
  assert (BF : base_roundingf1 (Fin s) (Fin x) =
     if fgt (Fin (inject_Z (Qfloor (fl64 (fl64 (x / s) + (1#2)))))) (Fin (fl64 (x / s))) then Fin 1 else Fin 0).
  { unfold base_roundingf1. cbn [fdiv]. destruct (Qeq_bool s 0) eqn:ES; [apply Qeq_bool_iff in ES; contradiction|].
    rewrite (rnd_fin (x / s)); [|eapply Qle_trans; [exact L|apply pow2_mono; lia]].
    cbn [fadd]. rewrite rnd_fin; [reflexivity|]. eapply Qle_trans; [exact AB|apply pow2_mono; lia]. }
  rewrite BF. cbn [fgt]. clear BF.
  apply Qabs_Qle_condition in T1, A1, EH.
  assert (HL : (0 <= x / s - inject_Z f)%Q) by lra.
  assert (M0' : (pow2 (k - 48) < x / s - inject_Z f)%Q) by (rewrite Qabs_pos in M0 by lra; lra).
  assert (M2' : (x / s - inject_Z f < 1 - pow2 (k - 48))%Q) by (rewrite Qabs_neg in M2 by lra; lra).
  destruct (Qlt_le_dec (x / s - inject_Z f) (1#2)) as [C|C].
  - rewrite Qabs_neg in M1 by lra.
    assert (FA : Qfloor (fl64 (fl64 (x / s) + (1 # 2))) = f) by (apply Qfloor_iff; split; lra).
    rewrite FA. assert (LE : Qle_bool (inject_Z f) (fl64 (x / s)) = true) by (apply Qle_bool_iff; lra).
    rewrite LE. cbn [negb]. rewrite quantf1p_real, quantf1_real by (assumption || lra).
    pose proof (E0 0%Q ltac:(lra)) as EP. apply Qabs_Qle_condition in EP.
    assert (H1 : Qfloor (pre_floor zp s x) = f + zp) by (apply Qfloor_iff; rewrite inject_Z_plus; split; lra).
    assert (H2 : Qfloor (pre_floor_p zp s x 0) = f + zp) by (apply Qfloor_iff; rewrite inject_Z_plus; split; lra).
    now rewrite H1, H2.
  - rewrite Qabs_pos in M1 by lra.
    assert (FA : Qfloor (fl64 (fl64 (x / s) + (1 # 2))) = f + 1).
    { apply Qfloor_iff; rewrite inject_Z_plus; change (inject_Z 1) with 1%Q; split; lra. }
    rewrite FA. assert (LE : Qle_bool (inject_Z (f + 1)) (fl64 (x / s)) = false).
    { apply not_true_iff_false. rewrite Qle_bool_iff, inject_Z_plus. change (inject_Z 1) with 1%Q. lra. }
    rewrite LE. cbn [negb]. rewrite quantf1p_real, quantf1_real by (assumption || lra).
    pose proof (E0 1%Q ltac:(lra)) as EP. apply Qabs_Qle_condition in EP.
    assert (H1 : Qfloor (pre_floor zp s x) = f + 1 + zp).
    { apply Qfloor_iff; rewrite !inject_Z_plus; change (inject_Z 1) with 1%Q; split; lra. }
    assert (H2 : Qfloor (pre_floor_p zp s x 1) = f + 1 + zp).
    { apply Qfloor_iff; rewrite !inject_Z_plus; change (inject_Z 1) with 1%Q; split; lra. }
    now rewrite H1, H2.
Qed.
