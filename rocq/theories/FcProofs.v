From Verif Require Import Base BaseProofs DtypeModel FcModel.
From Coq Require Import Lqa Psatz Qpower.
Open Scope Z_scope.
Open Scope list_scope.

(** ** powers of two *)
Lemma pow2_pos e : (0 < pow2 e)%Q.
Proof. unfold pow2. apply Qpower_0_lt. lra. Qed.
Lemma pow2_plus a b : (pow2 (a + b) == pow2 a * pow2 b)%Q.
Proof. unfold pow2. apply Qpower_plus. lra. Qed.
Lemma pow2_Z n : 0 <= n -> (pow2 n == inject_Z (2 ^ n))%Q.
Proof. intros H. unfold pow2. change 2%Q with (inject_Z 2). rewrite <- Zpower_Qpower by exact H. reflexivity. Qed.
Lemma pow2_opp n : (pow2 (- n) == / pow2 n)%Q.
Proof. unfold pow2. apply Qpower_opp. Qed.
Lemma pow2_sub a b : (pow2 (a - b) == pow2 a / pow2 b)%Q.
Proof. unfold Z.sub. rewrite pow2_plus, pow2_opp. reflexivity. Qed.
Lemma pow2_mono a b : a <= b -> (pow2 a <= pow2 b)%Q.
Proof. intros H. unfold pow2. apply Qpower_le_compat_l; [exact H|lra]. Qed.
Lemma pow2_lt a b : a < b -> (pow2 a < pow2 b)%Q.
Proof. intros H. unfold pow2. apply Qpower_lt_compat_l; [exact H|lra]. Qed.
Lemma pow2_1 : (pow2 1 == 2)%Q. Proof. reflexivity. Qed.

Lemma pow2_pred e : (pow2 (e - 1) == pow2 e * (1#2))%Q.
Proof. rewrite pow2_sub, pow2_1. reflexivity. Qed.

(** ** frexp *)
Lemma frexp_exp_spec x : ~ (x == 0)%Q ->
  (pow2 (frexp_exp x - 1) <= Qabs x)%Q /\ (Qabs x < pow2 (frexp_exp x))%Q.
Proof.
  intros Hx. unfold frexp_exp. set (a := Qabs x).
  assert (Ha : (0 < a)%Q).
  { unfold a. destruct (Qlt_le_dec x 0).
    - rewrite Qabs_neg by lra. lra.
    - rewrite Qabs_pos by lra. lra. }
  clearbody a. destruct a as [n d]. unfold Qlt in Ha. simpl in Ha.
  assert (Hn : 0 < n) by lia. cbn [Qnum Qden].
  destruct (Z.log2_spec n Hn) as [N1 N2]. destruct (Z.log2_spec (Zpos d) ltac:(lia)) as [D1 D2].
  set (ln := Z.log2 n) in *. set (ld := Z.log2 (Zpos d)) in *.
  assert (0 <= ln) by apply Z.log2_nonneg. assert (0 <= ld) by apply Z.log2_nonneg.
  assert (E : (n # d == inject_Z n / inject_Z (Zpos d))%Q) by apply Qmake_Qdiv.
  assert (Pd : (0 < inject_Z (Zpos d))%Q) by (unfold Qlt; simpl; lia).
  assert (N1' : (pow2 ln <= inject_Z n)%Q) by (rewrite pow2_Z by lia; rewrite <- Zle_Qle; exact N1).
  assert (N2' : (inject_Z n < 2 * pow2 ln)%Q).
  { rewrite <- pow2_1, <- pow2_plus, pow2_Z by lia. rewrite <- Zlt_Qlt. replace (1 + ln) with (Z.succ ln) by lia. exact N2. }
  assert (D1' : (pow2 ld <= inject_Z (Zpos d))%Q) by (rewrite pow2_Z by lia; rewrite <- Zle_Qle; exact D1).
  assert (D2' : (inject_Z (Zpos d) < 2 * pow2 ld)%Q).
  { rewrite <- pow2_1, <- pow2_plus, pow2_Z by lia. rewrite <- Zlt_Qlt. replace (1 + ld) with (Z.succ ld) by lia. exact D2. }
  pose proof (pow2_pos ln) as Pln. pose proof (pow2_pos ld) as Pld.
  assert (U : (n # d < pow2 (ln - ld + 1))%Q).
  { rewrite E. apply Qlt_shift_div_r; [exact Pd|].
    rewrite pow2_plus, pow2_1, pow2_sub.
    apply Qlt_le_trans with (2 * pow2 ln)%Q; [exact N2'|].
    setoid_replace (pow2 ln / pow2 ld * 2 * inject_Z (Zpos d))%Q
      with ((2 * pow2 ln) * (inject_Z (Zpos d) / pow2 ld))%Q by (field; lra).
    rewrite <- (Qmult_1_r (2 * pow2 ln)) at 1. apply Qmult_le_l; [lra|].
    apply Qle_shift_div_l; lra. }
  assert (L : (pow2 (ln - ld - 1) <= n # d)%Q).
  { rewrite E. apply Qle_shift_div_l; [exact Pd|].
    rewrite (pow2_sub (ln - ld) 1), pow2_1, pow2_sub.
    apply Qle_trans with (pow2 ln); [|exact N1'].
    setoid_replace (pow2 ln / pow2 ld / 2 * inject_Z (Zpos d))%Q
      with ((pow2 ln) * (inject_Z (Zpos d) / (2 * pow2 ld)))%Q by (field; lra).
    rewrite <- (Qmult_1_r (pow2 ln)) at 2. apply Qmult_le_l; [lra|].
    apply Qle_shift_div_r; lra. }
  destruct (Qlt_le_dec (n # d) (pow2 (ln - ld))) as [C|C].
  - split; [exact L|exact C].
  - split; [|exact U]. replace (ln - ld + 1 - 1) with (ln - ld) by lia. exact C.
Qed.

Lemma frexp_exp_unique x e : ~ (x == 0)%Q ->
  (pow2 (e - 1) <= Qabs x)%Q -> (Qabs x < pow2 e)%Q -> frexp_exp x = e.
Proof.
  intros Hx A B. destruct (frexp_exp_spec x Hx) as [C D].
  destruct (Z.lt_trichotomy (frexp_exp x) e) as [H|[H|H]]; [|exact H|].
  - exfalso. assert (pow2 (frexp_exp x) <= pow2 (e - 1))%Q by (apply pow2_mono; lia). lra.
  - exfalso. assert (pow2 e <= pow2 (frexp_exp x - 1))%Q by (apply pow2_mono; lia). lra.
Qed.

(** Spec of frexp *)
Lemma frexp_spec x : ~ (x == 0)%Q ->
  let (m, e) := frexp x in
  (x == m * pow2 e)%Q /\ ((1#2) <= Qabs m)%Q /\ (Qabs m < 1)%Q.
Proof.
  intros Hx. unfold frexp. destruct (Qeq_bool x 0) eqn:E; [apply Qeq_bool_iff in E; contradiction|].
  destruct (frexp_exp_spec x Hx) as [A B]. pose proof (pow2_pos (frexp_exp x)) as P.
  split; [field; lra|].
  unfold Qdiv. rewrite Qabs_Qmult. rewrite (Qabs_pos (/ _)) by (apply Qlt_le_weak, Qinv_lt_0_compat; exact P).
  rewrite pow2_pred in A.
  split; [apply Qle_shift_div_l|apply Qlt_shift_div_r]; lra.
Qed.

Lemma floor_div z n : 0 < n -> Qfloor (inject_Z z / inject_Z n) = z / n.
Proof.
  intros H. apply Qfloor_iff.
  assert (P : (0 < inject_Z n)%Q) by (change 0%Q with (inject_Z 0); rewrite <- Zlt_Qlt; exact H).
  pose proof (Z.div_mod z n ltac:(lia)) as D. pose proof (Z.mod_pos_bound z n H) as M.
  split.
  - apply Qle_shift_div_l; [exact P|]. rewrite <- inject_Z_mult, <- Zle_Qle. nia.
  - apply Qlt_shift_div_r; [exact P|]. change 1%Q with (inject_Z 1).
    rewrite <- inject_Z_plus, <- inject_Z_mult, <- Zlt_Qlt. nia.
Qed.

(** Rounded shift: floor((z + 2^(s-1)) / 2^s) is within 1/2 of z / 2^s. *)
Lemma rounded_shift z s : 1 <= s ->
  (Qabs (inject_Z ((z + 2 ^ (s - 1)) / 2 ^ s) - inject_Z z / pow2 s) <= 1#2)%Q.
Proof.
  intros Hs. assert (P : 0 < 2 ^ s) by (apply Z.pow_pos_nonneg; lia).
  rewrite <- floor_div by exact P.
  assert (E : (inject_Z (z + 2 ^ (s - 1)) / inject_Z (2 ^ s) == inject_Z z / pow2 s + (1#2))%Q).
  { rewrite inject_Z_plus, <- !pow2_Z by lia.
    rewrite pow2_sub, pow2_1. pose proof (pow2_pos s). field. lra. }
  rewrite (Qfloor_comp _ _ E).
  destruct (Qfloor_bounds (inject_Z z / pow2 s + (1#2))) as [A B].
  apply Qabs_Qle_condition. split; lra.
Qed.

(** ** the multiplier approximates the factor *)
Definition mant (v : Q) : Z := Qround_even (v / pow2 (frexp_exp v) * inject_Z (2 ^ 31)).

Lemma pow2_31 : (pow2 31 == inject_Z (2 ^ 31))%Q. Proof. reflexivity. Qed.

Lemma mant_near v : ~ (v == 0)%Q ->
  (Qabs (inject_Z (mant v) * pow2 (frexp_exp v - 31) - v) <= Qabs v * pow2 (-31))%Q /\ Z.abs (mant v) <= 2 ^ 31.
Proof.
  intros Hv. unfold mant. set (e := frexp_exp v). set (y := (v / pow2 e * inject_Z (2 ^ 31))%Q).
  destruct (frexp_exp_spec v Hv) as [A B]. fold e in A, B. pose proof (pow2_pos e) as P.
  pose proof (pow2_pos (e - 31)) as P'.
  assert (Y : (v == y * pow2 (e - 31))%Q).
  { unfold y. rewrite pow2_sub, pow2_31. field. split; [discriminate|lra]. }
  pose proof (Qround_even_near y) as N. split.
  - setoid_replace (inject_Z (Qround_even y) * pow2 (e - 31) - v)%Q
      with ((inject_Z (Qround_even y) - y) * pow2 (e - 31))%Q by (rewrite Y at 1; ring).
    rewrite Qabs_Qmult, (Qabs_pos (pow2 (e - 31))) by lra.
    apply Qle_trans with ((1#2) * pow2 (e - 31))%Q; [apply Qmult_le_compat_r; lra|].
    rewrite pow2_pred in A.
    rewrite (pow2_opp 31), pow2_sub. unfold Qdiv. rewrite Qmult_assoc.
    apply Qmult_le_compat_r; [|discriminate]. lra.
  - assert (Yb : (Qabs y <= inject_Z (2 ^ 31))%Q).
    { unfold y. rewrite Qabs_Qmult. unfold Qdiv. rewrite Qabs_Qmult.
      rewrite (Qabs_pos (/ _)) by (apply Qlt_le_weak, Qinv_lt_0_compat; exact P).
      rewrite (Qabs_pos (inject_Z _)) by discriminate.
      rewrite <- (Qmult_1_l (inject_Z (2 ^ 31))) at 2. apply Qmult_le_compat_r; [|discriminate].
      apply Qle_shift_div_r; lra. }
    apply Qabs_Qle_condition in Yb as [L U].
    apply Qround_even_mono in U. rewrite Qround_even_inject in U.
    rewrite <- inject_Z_opp in L.
    apply Qround_even_mono in L. rewrite Qround_even_inject in L. lia.
Qed.

Lemma frexp_eq v : ~ (v == 0)%Q -> frexp v = ((v / pow2 (frexp_exp v))%Q, frexp_exp v).
Proof.
  intros H. unfold frexp. destruct (Qeq_bool v 0) eqn:E; [apply Qeq_bool_iff in E; contradiction|reflexivity].
Qed.

(** Normalised (mantissa, exponent) pair as computed by both classes. *)
Definition norm (v : Q) : Z * Z :=
  if mant v =? 2 ^ 31 then (2 ^ 30, frexp_exp v + 1) else (mant v, frexp_exp v).

Lemma norm_spec v : ~ (v == 0)%Q ->
  let (q, e) := norm v in
  (Qabs (inject_Z q * pow2 (e - 31) - v) <= Qabs v * pow2 (-31))%Q /\ - 2 ^ 31 <= q < 2 ^ 31.
Proof.
  intros Hv. unfold norm. destruct (mant_near v Hv) as [A B].
  destruct (mant v =? 2 ^ 31) eqn:E.
  - apply Z.eqb_eq in E. rewrite E in A. split; [|lia].
    setoid_replace (inject_Z (2 ^ 30) * pow2 (frexp_exp v + 1 - 31))%Q
      with (inject_Z (2 ^ 31) * pow2 (frexp_exp v - 31))%Q; [exact A|].
    replace (frexp_exp v + 1 - 31) with (frexp_exp v - 31 + 1) by lia.
    rewrite pow2_plus, pow2_1. change (inject_Z (2 ^ 31)) with (inject_Z (2 ^ 30) * 2)%Q. ring.
  - apply Z.eqb_neq in E. split; [exact A|lia].
Qed.

Lemma norm_nonneg v : (0 < v)%Q -> 0 <= fst (norm v).
Proof.
  intros Hv. unfold norm. destruct (mant v =? 2 ^ 31); simpl; [lia|].
  unfold mant. rewrite <- (Qround_even_inject 0). apply Qround_even_mono.
  pose proof (pow2_pos (frexp_exp v)). 
  apply Qmult_le_0_compat; [|discriminate]. apply Qle_shift_div_l; lra.
Qed.

Lemma fia_init_eq v : ~ (v == 0)%Q ->
  fia_init v =
  let (qm, shift) := norm v in
  if 30 - shift <? 0 then Err EValueError
  else Ok (mkfia (if shift <? -31 then 0 else qm) (31 - shift) (2 ^ (30 - shift))).
Proof.
  intros Hv. unfold fia_init. rewrite frexp_eq by exact Hv. fold (mant v).
  destruct (mant_near v Hv) as [_ B]. assert (X : mant v <=? 2 ^ 31 = true) by (apply Z.leb_le; lia).
  rewrite X. cbn [negb]. unfold norm.
  destruct (mant v =? 2 ^ 31) eqn:E.
  - apply Z.eqb_eq in E. rewrite E. change (2 ^ 31 / 2) with (2 ^ 30).
    replace (31 - (frexp_exp v + 1) - 1) with (30 - (frexp_exp v + 1)) by lia. reflexivity.
  - replace (31 - (frexp_exp v) - 1) with (30 - (frexp_exp v)) by lia. reflexivity.
Qed.

(** scaled multiplication with any (q, e) approximating v *)
Lemma scaled_mul q e v x eps :
  e <= 30 ->
  (Qabs (inject_Z q * pow2 (e - 31) - v) <= eps)%Q ->
  (Qabs (inject_Z ((x * q + 2 ^ (30 - e)) / 2 ^ (31 - e)) - v * inject_Z x)
   <= (1#2) + inject_Z (Z.abs x) * eps)%Q.
Proof.
  intros He H. pose proof (rounded_shift (x * q) (31 - e) ltac:(lia)) as R.
  replace (31 - e - 1) with (30 - e) in R by lia.
  set (y := inject_Z ((x * q + 2 ^ (30 - e)) / 2 ^ (31 - e))) in *.
  assert (E : (inject_Z (x * q) / pow2 (31 - e) == inject_Z x * (inject_Z q * pow2 (e - 31)))%Q).
  { rewrite inject_Z_mult. replace (e - 31) with (- (31 - e)) by lia. rewrite pow2_opp.
    pose proof (pow2_pos (31 - e)). field. lra. }
  rewrite E in R.
  setoid_replace (y - v * inject_Z x)%Q
    with ((y - inject_Z x * (inject_Z q * pow2 (e - 31))) + inject_Z x * (inject_Z q * pow2 (e - 31) - v))%Q by ring.
  eapply Qle_trans; [apply Qabs_triangle|]. apply Qplus_le_compat; [exact R|].
  rewrite Qabs_Qmult. change (Qabs (inject_Z x)) with (inject_Z (Z.abs x)).
  rewrite !(Qmult_comm (inject_Z (Z.abs x))). apply Qmult_le_compat_r; [exact H|].
  change 0%Q with (inject_Z 0). rewrite <- Zle_Qle. lia.
Qed.

(** exponent characterisations *)
Lemma mant_max v : (0 < v)%Q ->
  mant v = 2 ^ 31 <-> (pow2 (frexp_exp v) * (1 - pow2 (-32)) <= v)%Q.
Proof.
  intros Hv. pose proof (pow2_pos (frexp_exp v)) as P. unfold mant.
  set (y := (v / pow2 (frexp_exp v) * inject_Z (2 ^ 31))%Q).
  assert (Y : (v == pow2 (frexp_exp v) * (y / inject_Z (2 ^ 31)))%Q).
  { unfold y. field. split; [lra|discriminate]. }
  assert (T : (pow2 (frexp_exp v) * (1 - pow2 (-32)) <= v)%Q <-> (inject_Z (2 ^ 31) - (1#2) <= y)%Q).
  { rewrite Y at 2. rewrite (Qmult_le_l _ _ _ P).
    change (pow2 (-32)) with (1 # 4294967296)%Q. change (inject_Z (2^31)) with (2147483648%Q).
    unfold Qdiv. change (/ 2147483648)%Q with (1 # 2147483648)%Q. split; intros; lra. }
  rewrite T. assert (Yb : (y < inject_Z (2 ^ 31))%Q).
  { destruct (frexp_exp_spec v ltac:(lra)) as [_ B]. rewrite Qabs_pos in B by lra.
    unfold y. rewrite <- (Qmult_1_l (inject_Z (2 ^ 31))) at 2.
    apply Qmult_lt_r; [reflexivity|]. apply Qlt_shift_div_r; lra. }
  clearbody y. clear - Yb. change (inject_Z (2 ^ 31)) with 2147483648%Q in *. split; intros H.
  - pose proof (Qround_even_near y) as N. rewrite H in N. apply Qabs_Qle_condition in N.
    change (inject_Z (2 ^ 31)) with 2147483648%Q in N. lra.
  - unfold Qround_even. 
    assert (F : Qfloor y = 2 ^ 31 - 1).
    { apply Qfloor_iff. change (inject_Z (2 ^ 31 - 1)) with 2147483647%Q. lra. }
    rewrite F. destruct (Qcompare (y - inject_Z (2 ^ 31 - 1)) (1 # 2)) eqn:C; [reflexivity| |reflexivity].
    apply Qlt_alt in C. change (inject_Z (2 ^ 31 - 1)) with 2147483647%Q in C. lra.
Qed.

(** normalised exponent <= k iff v < 2^k (1 - 2^-32) *)
Lemma norm_exp_le v k : (0 < v)%Q -> snd (norm v) <= k <-> (v < pow2 k * (1 - pow2 (-32)))%Q.
Proof.
  intros Hv. destruct (frexp_exp_spec v ltac:(lra)) as [A B]. rewrite Qabs_pos in A, B by lra.
  pose proof (mant_max v Hv) as M. unfold norm.
  set (e := frexp_exp v) in *.
  assert (C1 : (1#2 < 1 - pow2 (-32) < 1)%Q) by (split; reflexivity).
  set (c := (1 - pow2 (-32))%Q) in *. clearbody c.
  assert (Hlt : forall j, j < e -> (pow2 j * c <= v)%Q).
  { intros j Hj. apply Qle_trans with (pow2 (e - 1)); [|exact A].
    apply Qle_trans with (pow2 j); [|apply pow2_mono; lia].
    rewrite <- (Qmult_1_r (pow2 j)) at 2. apply Qmult_le_l; [apply pow2_pos|lra]. }
  assert (Hgt : forall j, e < j -> (v < pow2 j * c)%Q).
  { intros j Hj. apply Qlt_le_trans with (pow2 e); [exact B|].
    apply Qle_trans with (pow2 (j - 1)); [apply pow2_mono; lia|].
    rewrite pow2_pred. pose proof (pow2_pos j).
    apply Qmult_le_l; lra. }
  destruct (mant v =? 2 ^ 31) eqn:E; cbn [fst snd].
  - apply Z.eqb_eq in E. apply M in E. split; intros H.
    + apply Hgt. lia.
    + destruct (Z_lt_le_dec k (e + 1)); [|lia]. exfalso.
      destruct (Z.eq_dec k e) as [->|]; [lra|]. specialize (Hlt k ltac:(lia)). lra.
  - apply Z.eqb_neq in E. split; intros H.
    + destruct (Z.eq_dec k e) as [->|]; [|apply Hgt; lia].
      destruct (Qlt_le_dec v (pow2 e * c)); [assumption|]. exfalso. apply E, M. assumption.
    + destruct (Z_lt_le_dec k e); [|lia]. specialize (Hlt k ltac:(lia)). lra.
Qed.

(** ** FloatingIntegerApprox *)
Lemma fia_ok_iff v : (0 < v)%Q ->
  (exists f, fia_init v = Ok f) <-> (v < pow2 30 * (1 - pow2 (-32)))%Q.
Proof.
  intros Hv. rewrite <- norm_exp_le by exact Hv. rewrite fia_init_eq by lra.
  destruct (norm v) as [q e]. cbn [snd]. destruct (30 - e <? 0) eqn:E.
  - apply Z.ltb_lt in E. split; [intros [f H]; discriminate|lia].
  - apply Z.ltb_ge in E. split; [lia|]. intros _. eexists; reflexivity.
Qed.

Lemma fia_error v f x : (pow2 (-32) <= Qabs v)%Q -> fia_init v = Ok f ->
  (Qabs (inject_Z (fia_mul f x) - v * inject_Z x) <= (1#2) + inject_Z (Z.abs x) * (Qabs v * pow2 (-31)))%Q.
Proof.
  intros Hv H. assert (N0 : ~ (v == 0)%Q).
  { intros E. rewrite E in Hv. unfold Qle in Hv. simpl in Hv. lia. }
  rewrite fia_init_eq in H by exact N0. pose proof (norm_spec v N0) as S.
  assert (L : -31 <= snd (norm v)).
  { destruct (frexp_exp_spec v N0) as [_ B]. unfold norm.
    destruct (Z_lt_le_dec (frexp_exp v) (-31)) as [C|C].
    - exfalso. assert (pow2 (frexp_exp v) <= pow2 (-32))%Q by (apply pow2_mono; lia). lra.
    - destruct (mant v =? 2 ^ 31); simpl; lia. }
  destruct (norm v) as [q e]. cbn [snd] in L. destruct S as [S _].
  destruct (30 - e <? 0) eqn:E; [discriminate|]. apply Z.ltb_ge in E.
  replace (e <? -31) with false in H by (symmetry; apply Z.ltb_ge; lia).
  injection H as <-. unfold fia_mul. cbn [fia_q fia_shift fia_round].
  apply scaled_mul; [lia|exact S].
Qed.

Lemma fia_zero f x : fia_q f = 0 -> 1 <= fia_shift f -> fia_round f = 2 ^ (fia_shift f - 1) -> fia_mul f x = 0.
Proof.
  intros A B C. unfold fia_mul. rewrite A, C, Z.mul_0_r, Z.add_0_l.
  apply Z.div_small. split; [apply Z.pow_nonneg; lia|apply Z.pow_lt_mono_r; lia].
Qed.

Lemma fia_tiny v x : (0 < v)%Q -> (v < pow2 (-32) * (1 - pow2 (-32)))%Q ->
  exists f, fia_init v = Ok f /\ fia_mul f x = 0.
Proof.
  intros Hv H. apply norm_exp_le in H; [|exact Hv]. rewrite fia_init_eq by lra.
  destruct (norm v) as [q e]. cbn [snd] in H.
  replace (30 - e <? 0) with false by (symmetry; apply Z.ltb_ge; lia).
  replace (e <? -31) with true by (symmetry; apply Z.ltb_lt; lia).
  eexists; split; [reflexivity|]. apply fia_zero; cbn [fia_q fia_shift fia_round]; [reflexivity|lia|].
  f_equal. lia.
Qed.

(** ** the fully connected multiplier *)
Lemma fc_mult_small m : (m < 1#1000000)%Q -> fc_mult_build m = Ok (mkfia 0 31 (2 ^ 30)).
Proof. intros H. unfold fc_mult_build. destruct (Qlt_le_dec m (1#1000000)); [reflexivity|lra]. Qed.

Lemma fc_mult_eq m : ((1#1000000) <= m)%Q ->
  fc_mult_build m = let (qm, e) := norm m in
    if 30 <? e then Err EAssertionError else Ok (mkfia qm (31 - e) (2 ^ (30 - e))).
Proof.
  intros H. assert (Hm : (0 < m)%Q) by lra. assert (N0 : ~ (m == 0)%Q) by lra.
  unfold fc_mult_build. destruct (Qlt_le_dec m (1#1000000)); [lra|].
  rewrite frexp_eq by exact N0. fold (mant m).
  pose proof (norm_spec m N0) as S. pose proof (norm_nonneg m Hm) as NN.
  assert (L : -19 <= snd (norm m)).
  { destruct (Z_lt_le_dec (snd (norm m)) (-19)) as [C|C]; [|exact C]. exfalso.
    assert (X : snd (norm m) <= -20) by lia. apply norm_exp_le in X; [|exact Hm].
    assert (pow2 (-20) * (1 - pow2 (-32)) <= 1#1000000)%Q by discriminate. lra. }
  destruct (mant_near m N0) as [_ B]. assert (X : mant m <=? 2 ^ 31 = true) by (apply Z.leb_le; lia).
  rewrite X. cbn [negb]. unfold norm in *.
  assert (G : forall q e, 0 <= q < 2 ^ 31 -> -19 <= e ->
    (if negb (q <=? 2 ^ 32 - 1) then Err EAssertionError
     else let '(qm, shift) := if e <? -31 then (0, 0) else (q, e) in adjust_mult qm shift) =
    (if 30 <? e then Err EAssertionError else Ok (mkfia q (31 - e) (2 ^ (30 - e))))).
  { intros q0 e Hq He. replace (q0 <=? 2 ^ 32 - 1) with true by (symmetry; apply Z.leb_le; lia).
    replace (e <? -31) with false by (symmetry; apply Z.ltb_ge; lia). cbn [negb].
    unfold adjust_mult. replace (0 <=? q0) with true by (symmetry; apply Z.leb_le; lia). cbn [negb].
    replace (-31 <=? e) with true by (symmetry; apply Z.leb_le; lia). cbn [andb].
    replace (31 - e - 1) with (30 - e) by lia.
    destruct (30 <? e) eqn:E1, (e <=? 30) eqn:E2; try reflexivity.
    - apply Z.ltb_lt in E1. apply Z.leb_le in E2. lia.
    - apply Z.ltb_ge in E1. apply Z.leb_gt in E2. lia. }
  destruct (mant m =? 2 ^ 31) eqn:E; cbn [fst snd] in *.
  - apply Z.eqb_eq in E. rewrite E. change (2 ^ 31 / 2) with (2 ^ 30). apply G; lia.
  - destruct S as [_ S]. apply G; lia.
Qed.

Lemma fc_mult_ok_iff m : (exists f, fc_mult_build m = Ok f) <-> (m < pow2 30 * (1 - pow2 (-32)))%Q.
Proof.
  destruct (Qlt_le_dec m (1#1000000)) as [C|C].
  - rewrite fc_mult_small by exact C. split; [intros _|eexists; reflexivity].
    eapply Qlt_trans; [exact C|reflexivity].
  - rewrite fc_mult_eq by exact C. rewrite <- norm_exp_le by lra.
    destruct (norm m) as [q e]. cbn [snd]. destruct (30 <? e) eqn:E.
    + apply Z.ltb_lt in E. split; [intros [f H]; discriminate|lia].
    + apply Z.ltb_ge in E. split; [lia|]. intros _; eexists; reflexivity.
Qed.

Lemma fc_mult_err m e : fc_mult_build m = Err e -> e = EAssertionError.
Proof.
  destruct (Qlt_le_dec m (1#1000000)) as [C|C].
  - rewrite fc_mult_small by exact C. discriminate.
  - rewrite fc_mult_eq by exact C. destruct (norm m) as [q s]. destruct (30 <? s); congruence.
Qed.

(** everything needed about a built multiplier at or above 1e-6 *)
Lemma fc_mult_props m f : ((1#1000000) <= m)%Q -> fc_mult_build m = Ok f ->
  (forall x, (Qabs (inject_Z ((x * fia_q f + fia_round f) / 2 ^ fia_shift f) - m * inject_Z x)
             <= (1#2) + inject_Z (Z.abs x) * (m * pow2 (-31)))%Q) /\
  0 <= fia_q f < 2 ^ 31 /\ 1 <= fia_shift f <= 50 /\ fia_round f = 2 ^ (fia_shift f - 1).
Proof.
  intros Hm H. rewrite fc_mult_eq in H by exact Hm.
  pose proof (norm_spec m ltac:(lra)) as S. pose proof (norm_nonneg m ltac:(lra)) as NN.
  assert (L : -19 <= snd (norm m)).
  { destruct (Z_lt_le_dec (snd (norm m)) (-19)) as [C|C]; [|exact C]. exfalso.
    assert (X : snd (norm m) <= -20) by lia. apply norm_exp_le in X; [|lra].
    assert (pow2 (-20) * (1 - pow2 (-32)) <= 1#1000000)%Q by discriminate. lra. }
  destruct (norm m) as [q e]. cbn [fst snd] in *. destruct (30 <? e) eqn:E; [discriminate|].
  apply Z.ltb_ge in E. assert (Hf : f = mkfia q (31 - e) (2 ^ (30 - e))) by congruence. subst f. clear H.
  cbn [fia_q fia_shift fia_round]. destruct S as [S1 S2].
  split; [|split; [lia|split; [lia|f_equal; lia]]].
  intros x. apply scaled_mul; [lia|]. rewrite (Qabs_pos m) in S1 by lra. exact S1.
Qed.
