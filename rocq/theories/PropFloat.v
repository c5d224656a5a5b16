(** Properties C66-C69: the core quantizer with every float operation rounded to binary64. *)
From Verif Require Import Base BaseProofs DtypeModel QuantModel QuantProofs FcModel FcProofs FloatModel FloatProofs FloatQuant PropCore.
From Coq Require Import Lqa Qpower.
Open Scope Z_scope.
Open Scope list_scope.

(** ** Specification vocabulary *)
(** 2^e, for any integer e *)
Notation two_to := (Qpower 2).
(** [x] is a finite double: m * 2^e with |m| < 2^53 and -1074 <= e <= 971. *)
Definition double (x : Q) : Prop :=
  exists m e, Z.abs m < 2 ^ 53 /\ -1074 <= e <= 971 /\ (x == inject_Z m * two_to e)%Q.
(** A value a float64 array can hold. *)
Definition is_double (a : f64) : Prop := match a with Fin x => double x | _ => True end.
(** Codes and zero point lie in [-2^k, 2^k], k <= 40 (k = 7 for int8, 31 for int32). *)
Definition codes_within (d : gdtype) (zp k : Z) : Prop :=
  0 <= k <= 40 /\ - 2 ^ k <= gmin d /\ gmax d <= 2 ^ k /\ - 2 ^ k <= zp <= 2 ^ k.
(** Order of doubles, infinities included. *)
Definition f_le (a b : f64) : Prop :=
  match a, b with
  | Fin x, Fin y => (x <= y)%Q
  | Inf true, Fin _ | Inf true, Inf _ | Fin _, Inf false | Inf false, Inf false => True
  | _, _ => False
  end.

Lemma cw_bound d zp k : codes_within d zp k -> dt_bound d zp k.
Proof. unfold codes_within, dt_bound. lia. Qed.
Lemma double_rep x : double x -> rep64 x.
Proof. intros (m & e & A & B & C). exists m, e. split; [lia|]. split; [lia|exact C]. Qed.
Lemma f_le_fle a b : f_le a b -> fle a b.
Proof. destruct a as [x|[|]|], b as [y|[|]|]; cbn; auto. Qed.
Lemma cw_zp d zp k : codes_within d zp k -> Z.abs zp <= 2 ^ 53.
Proof. intros H. exact (dt_bound_zp _ _ _ (cw_bound _ _ _ H)). Qed.
Lemma quantize_f_none d data zp s idx : nd_get (quantize_f d data zp s None) idx = quantf1 d zp s (nd_get data idx).
Proof. reflexivity. Qed.
Lemma quantize_f_policy d data zp s p idx : nd_shape p = nd_shape data -> valid_idx (nd_shape data) idx = true ->
  nd_get (quantize_f d data zp s (Some p)) idx = quantf1p d zp s (nd_get data idx) (nd_get p idx).
Proof.
  intros Hs Hv. unfold quantize_f, nd_bin. cbn [nd_shape nd_map]. rewrite Hs, bshape_refl. cbn [nd_map nd_get].
  now rewrite (bidx_same _ _ Hv).
Qed.

(** *** The rounding of the model is IEEE-754's *)
(** The rounded value is a number of the format, no number of the format is closer, and on a tie
    its significand is even. *)
Theorem rounding_in_format : forall x, exists m e, Z.abs m <= 2 ^ 53 /\ -1074 <= e /\ (fl64 x == inject_Z m * two_to e)%Q.
Proof. intros x. exact (rep_fl 53 (-1074) p64 x). Qed.
Theorem rounding_nearest : forall x y, double y -> (Qabs (fl64 x - x) <= Qabs (y - x))%Q.
Proof. intros x y H. exact (fl_nearest 53 (-1074) p64 x y (double_rep y H)). Qed.
Theorem rounding_idempotent : forall x, double x -> (fl64 x == x)%Q.
Proof. intros x H. exact (fl_exact 53 (-1074) p64 x (double_rep x H)). Qed.
(** The double nearest to 1/10 is 0x1.999999999999ap-4; 2^1024 - 2^970 overflows, the largest double does not;
    half the least subnormal rounds to (even) zero, and 2^53+1 to 2^53, 2^53+3 to 2^53+4. *)
Definition f0_1 : Q := 3602879701896397 # 2^55.
Example rounding_examples :
  fl64 (1#10) = f0_1 /\ rnd (pow2 1024 - pow2 970) = Inf false /\
  match rnd (pow2 1024 - pow2 971) with Fin y => Qeq_bool y (pow2 1024 - pow2 971) | _ => false end = true /\
  rnd (- pow2 1024) = Inf true /\
  fl64 (pow2 (-1075)) = 0%Q /\ fl64 (inject_Z (2^53 + 1)) = inject_Z (2^53) /\ fl64 (inject_Z (2^53 + 3)) = inject_Z (2^53 + 4).
Proof.
  repeat (split; [vm_compute; reflexivity|]). vm_compute; reflexivity.
Qed.

(** ** C66: range, saturation, agreement with exact arithmetic *)
(** Every double except NaN, however large: the code is in the dtype. *)
Theorem C66_in_range : forall d data zp s k idx,
  within_int32 d -> codes_within d zp k -> (0 < s)%Q -> nd_get data idx <> NaN ->
  gmin d <= nd_get (quantize_f d data zp (Fin s) None) idx <= gmax d.
Proof. intros d data zp s k idx A B C D. exact (quantf1_range d zp s _ A (cw_zp _ _ _ B) C D). Qed.

Theorem C66_infinities_saturate : forall d data zp s k idx,
  within_int32 d -> codes_within d zp k -> (0 < s)%Q ->
  (nd_get data idx = Inf false -> nd_get (quantize_f d data zp (Fin s) None) idx = gmax d) /\
  (nd_get data idx = Inf true -> nd_get (quantize_f d data zp (Fin s) None) idx = gmin d).
Proof.
  intros d data zp s k idx A B C. rewrite quantize_f_none.
  split; intros ->; rewrite quantf1_inf; trivial; exact (cw_zp _ _ _ B).
Qed.

(** The double result equals the exact one unless the exact real code is within 2^(k-49) of a
    tie n - 1/2 between two codes. *)
Theorem C66_agrees_away_from_ties : forall d data zp s k idx x,
  within_int32 d -> codes_within d zp k -> ~ (s == 0)%Q -> nd_get data idx = Fin x ->
  (forall n, gmin d < n <= gmax d -> (two_to (k - 49) < Qabs (real_code x s zp - (inject_Z n - (1#2))))%Q) ->
  nd_get (quantize_f d data zp (Fin s) None) idx = nd_get (quantize d (scalar x) zp s None) [].
Proof.
  intros d data zp s k idx x A B C D H. rewrite quantize_f_none, D, quantize_none. cbn [scalar nd_get].
  destruct (Z.eq_dec (quantf1 d zp (Fin s) (Fin x)) (quant1 d zp s x)) as [E|E]; [exact E|exfalso].
  destruct (quantf1_agree d zp s x k A (cw_bound _ _ _ B) C E) as (n & Hn & HE).
  specialize (H n Hn). unfold real_code in H.
  setoid_replace (x / s + inject_Z zp - (inject_Z n - (1 # 2)))%Q with (x / s + inject_Z zp + (1 # 2) - inject_Z n)%Q in H by ring.
  unfold pow2 in HE. lra.
Qed.

(** It is never more than one code away from the exact result. *)
Theorem C66_within_one_code : forall d data zp s k idx x,
  within_int32 d -> codes_within d zp k -> ~ (s == 0)%Q -> nd_get data idx = Fin x ->
  -1 <= nd_get (quantize_f d data zp (Fin s) None) idx - nd_get (quantize d (scalar x) zp s None) [] <= 1.
Proof.
  intros d data zp s k idx x A B C D. rewrite quantize_f_none, D, quantize_none. cbn [scalar nd_get].
  pose proof (quantf1_close d zp s x k A (cw_bound _ _ _ B) C). lia.
Qed.

(** Half a step plus 2^(k-48) of a step (2^-41 steps for int8), both directions computed in doubles. *)
Theorem C66_half_step : forall d data zp s k idx x,
  within_int32 d -> diff_in_int32 d zp -> codes_within d zp k ->
  double s -> (0 < s)%Q -> (s <= two_to (1022 - k))%Q -> nd_get data idx = Fin x ->
  (inject_Z (gmin d) <= real_code x s zp <= inject_Z (gmax d))%Q ->
  exists y, nd_get (dequantize_f (quantize_f d data zp (Fin s) None) zp (Fin s)) idx = Fin y /\
    (Qabs (x - y) <= s * ((1#2) + two_to (k - 48)))%Q.
Proof.
  intros d data zp s k idx x A W B R S0 S1 D H. unfold dequantize_f. cbn [nd_map nd_get].
  rewrite quantize_f_none, D.
  exact (quantf1_real_err d zp s x k A W (cw_bound _ _ _ B) (double_rep s R) S0 S1 H).
Qed.

(** The half step of exact arithmetic (C02) is not reached: 0.49999999999999994 with scale 1 is coded 1,
    although 0 is the nearest code. *)
Definition f0_4999 : Q := (2^53 - 1) # 2^54.
Theorem C66_nearest_refuted : exists x, double x /\ (0 < x)%Q /\ (x < 1#2)%Q /\
  nd_get (quantize_f int8 (scalar (Fin x)) 0 (Fin 1) None) [] = 1 /\
  nd_get (quantize int8 (scalar x) 0 1 None) [] = 0.
Proof.
  exists f0_4999. split; [exists (2^53 - 1), (-54); split; [lia|split; [lia|reflexivity]]|].
  split; [reflexivity|]. split; [reflexivity|]. split; vm_compute; reflexivity.
Qed.

(** NaN inputs (and 0 quantized with scale 0) silently become -2^31, which no dtype up to 31 bits contains. *)
Theorem C66_nan : forall d data zp s idx, nd_get data idx = NaN ->
  nd_get (quantize_f d data zp s None) idx = - 2 ^ 31.
Proof. intros d data zp s idx H. rewrite quantize_f_none, H. apply quantf1_nan. Qed.
Theorem C66_zero_scale : forall d data zp k idx x, within_int32 d -> codes_within d zp k ->
  nd_get data idx = Fin x ->
  nd_get (quantize_f d data zp (Fin 0) None) idx =
    if Qeq_bool x 0 then - 2 ^ 31 else if Qlt_le_dec x 0 then gmin d else gmax d.
Proof.
  intros d data zp k idx x A B D. rewrite quantize_f_none, D. unfold quantf1, qf_affine. cbn [fdiv].
  change (Qeq_bool 0 0) with true. cbn iota.
  assert (X : forall n, fadd (Inf n) (f_of_Z zp) = Inf n).
  { intros n. destruct (f_of_Z_fin zp (cw_zp _ _ _ B)) as (z & -> & _). reflexivity. }
  destruct A as (A1 & A2 & A3).
  destruct (Qeq_bool x 0) eqn:E; [reflexivity|]. rewrite X.
  unfold qf_round. destruct (Qlt_le_dec x 0) as [L|L].
  - rewrite (proj2 (Qneg_spec x) L). cbn [fadd ffloor fclip fcast_i32]. rewrite Qtrunc_Z, cast_i32_id by lia. lia.
  - rewrite (proj2 (Qneg_false x) L). cbn [fadd ffloor fclip fcast_i32]. rewrite Qtrunc_Z, cast_i32_id by lia. reflexivity.
Qed.

Example int8_within : codes_within int8 (-3) 7 /\ within_int32 int8 /\ diff_in_int32 int8 (-3) /\ double f0_1 /\ (0 < f0_1)%Q /\
  (f0_1 <= two_to (1022 - 7))%Q.
Proof.
  split; [cbv; intuition congruence|]. split; [apply int8_ok|]. split; [apply int8_ok|].
  split; [exists 7205759403792794, (-56); split; [lia|split; [lia|reflexivity]]|]. split; [reflexivity|]. vm_compute. discriminate.
Qed.
Example C66_example :
  nd_to_list (quantize_f int8 (nd_of_list NaN [Fin (fl64 (3#10)); Fin (fl64 (-3#10)); Fin (pow2 1023); Inf true; NaN]) (-3) (Fin f0_1) None)
  = [0; -6; 127; -128; -2147483648].
Proof. vm_compute. reflexivity. Qed.
(** a value away from ties (real code 11.7 with k = 7) *)
Example C66_agree_example : forall n, -128 < n <= 127 ->
  (two_to (7 - 49) < Qabs (real_code (147#100) (1#10) (-3) - (inject_Z n - (1#2))))%Q.
Proof.
  intros n _. destruct (Z_le_gt_dec n 12) as [L|L].
  - assert (L' : (inject_Z n <= 12)%Q) by (change 12%Q with (inject_Z 12); now rewrite <- Zle_Qle).
    assert (R : (real_code (147 # 100) (1 # 10) (-3) == 117#10)%Q) by reflexivity. rewrite R.
    rewrite Qabs_pos by lra. assert (T : (two_to (7 - 49) < 1#100)%Q) by reflexivity. lra.
  - assert (L' : (13 <= inject_Z n)%Q) by (change 13%Q with (inject_Z 13); rewrite <- Zle_Qle; lia).
    assert (R : (real_code (147 # 100) (1 # 10) (-3) == 117#10)%Q) by reflexivity. rewrite R.
    rewrite Qabs_neg by lra. assert (T : (two_to (7 - 49) < 1#100)%Q) by reflexivity. lra.
Qed.

(** ** C67: round trip, zero and order in doubles *)
Theorem C67_roundtrip : forall d codes zp s k idx,
  within_int32 d -> diff_in_int32 d zp -> codes_within d zp k ->
  double s -> (0 < s)%Q -> (s <= two_to (1022 - k))%Q -> in_dtype d (nd_get codes idx) ->
  nd_get (quantize_f d (dequantize_f codes zp (Fin s)) zp (Fin s) None) idx = nd_get codes idx.
Proof.
  intros d codes zp s k idx A W B R S0 S1 D. rewrite quantize_f_none. unfold dequantize_f. cbn [nd_map nd_get].
  exact (quantf1_dequantf1 d zp s _ k A W (cw_bound _ _ _ B) D (double_rep s R) S0 S1).
Qed.
(** Fake quantization in doubles is idempotent: a second pass changes no bit. *)
Theorem C67_idempotent : forall d data zp s k idx,
  within_int32 d -> diff_in_int32 d zp -> codes_within d zp k ->
  double s -> (0 < s)%Q -> (s <= two_to (1022 - k))%Q -> nd_get data idx <> NaN ->
  let fake a := dequantize_f (quantize_f d a zp (Fin s) None) zp (Fin s) in
  nd_get (fake (fake data)) idx = nd_get (fake data) idx.
Proof.
  intros d data zp s k idx A W B R S0 S1 D fake. unfold fake. unfold dequantize_f at 1 3. cbn [nd_map nd_get].
  f_equal. apply (C67_roundtrip d _ zp s k idx A W B R S0 S1).
  exact (C66_in_range d data zp s k idx A B S0 D).
Qed.
Theorem C67_zero : forall d data zp s k idx,
  within_int32 d -> codes_within d zp k -> in_dtype d zp -> ~ (s == 0)%Q -> nd_get data idx = Fin 0 ->
  nd_get (quantize_f d data zp (Fin s) None) idx = zp.
Proof.
  intros d data zp s k idx A B Z0 N D.
  rewrite (C66_agrees_away_from_ties d data zp s k idx 0 A B N D).
  - apply C04_zero; [exact A|exact Z0|reflexivity].
  - intros n _. unfold real_code.
    setoid_replace (0 / s + inject_Z zp - (inject_Z n - (1 # 2)))%Q with (inject_Z (zp - n) + (1 # 2))%Q.
    2:{ rewrite inject_Z_minus. field. exact N. }
    assert (T : (two_to (k - 49) <= 1#512)%Q) by (apply pow2_k49; apply B).
    destruct (Z_lt_le_dec (zp - n) 0) as [L|L].
    + assert (L' : (inject_Z (zp - n) <= -1)%Q) by (change (-1)%Q with (inject_Z (-1)); rewrite <- Zle_Qle; lia).
      rewrite Qabs_neg by lra. lra.
    + assert (L' : (0 <= inject_Z (zp - n))%Q) by (change 0%Q with (inject_Z 0); rewrite <- Zle_Qle; lia).
      rewrite Qabs_pos by lra. lra.
Qed.
Theorem C67_zero_point_is_zero : forall d zp s,
  within_int32 d -> in_dtype d zp -> dequantf1 zp (Fin s) zp = Fin 0.
Proof.
  intros d zp s A Z0. unfold dequantf1. unfold within_int32, in_dtype in *.
  rewrite (wrap_s_id 32 zp) by (simpl; lia). rewrite Z.sub_diag. change (wrap_s 32 0) with 0.
  cbn [fmul]. rewrite rnd_fin.
  - reflexivity.
  - change (inject_Z 0) with 0%Q. setoid_replace (0 * s)%Q with 0%Q by ring. vm_compute. discriminate.
Qed.
Theorem C67_monotone : forall d a b zp s k idx,
  within_int32 d -> codes_within d zp k -> (0 < s)%Q -> f_le (nd_get a idx) (nd_get b idx) ->
  nd_get (quantize_f d a zp (Fin s) None) idx <= nd_get (quantize_f d b zp (Fin s) None) idx.
Proof.
  intros d a b zp s k idx A B S0 H. rewrite !quantize_f_none.
  exact (quantf1_mono d zp s _ _ A (cw_zp _ _ _ B) S0 (f_le_fle _ _ H)).
Qed.
(** Dequantization in doubles is off by at most one part in 2^53. *)
Theorem C67_dequantize_error : forall d codes zp s k idx,
  within_int32 d -> diff_in_int32 d zp -> codes_within d zp k ->
  double s -> (0 < s)%Q -> (s <= two_to (1022 - k))%Q -> in_dtype d (nd_get codes idx) ->
  exists y, nd_get (dequantize_f codes zp (Fin s)) idx = Fin y /\
    let exact := (inject_Z (nd_get codes idx - zp) * s)%Q in
    (Qabs (y - exact) <= Qabs exact * two_to (-53))%Q.
Proof.
  intros d codes zp s k idx A W B R S0 S1 D. unfold dequantize_f. cbn [nd_map nd_get].
  rewrite (dequantf1_fin d zp s _ k A W (cw_bound _ _ _ B) D S0 S1). eexists. split; [reflexivity|].
  exact (dequantf1_rel zp s _ (double_rep s R)).
Qed.
(** Overflow of the scale breaks it: with s = 2^1023, code 2 dequantizes to infinity and comes back as 127. *)
Theorem C67_overflow_refuted : exists s, double s /\ (0 < s)%Q /\
  nd_get (quantize_f int8 (dequantize_f (scalar 2) 0 (Fin s)) 0 (Fin s) None) [] = 127.
Proof.
  exists (two_to 1023). split; [exists (2^52), 971; split; [lia|split; [lia|vm_compute; reflexivity]]|].
  split; [reflexivity|vm_compute; reflexivity].
Qed.
Example C67_example :
  nd_to_list (quantize_f int8 (dequantize_f (nd_of_list 0 [-128; -6; 0; 127]) (-3) (Fin f0_1)) (-3) (Fin f0_1) None) = [-128; -6; 0; 127]
  /\ nd_to_list (dequantize_f (nd_of_list 0 [0; -3]) (-3) (Fin f0_1)) = [Fin (1351079888211149 # 2^52); Fin 0].
Proof. split; vm_compute; reflexivity. Qed.

(** ** C68: rounding policies in doubles *)
(** A 0/1 policy means floor / floor + 1 unless the real code is within 2^(k-49) of an integer. *)
Theorem C68_floor_or_ceil : forall d data zp s k p idx x b,
  within_int32 d -> codes_within d zp k -> ~ (s == 0)%Q ->
  nd_shape p = nd_shape data -> valid_idx (nd_shape data) idx = true ->
  nd_get data idx = Fin x -> nd_get p idx = (if b : bool then Fin 1 else Fin 0) ->
  (forall n, two_to (k - 49) < Qabs (real_code x s zp - inject_Z n))%Q ->
  nd_get (quantize_f d data zp (Fin s) (Some p)) idx =
    clamp (gmin d) (gmax d) (Qfloor (real_code x s zp) + if b then 1 else 0).
Proof.
  intros d data zp s k p idx x b A B N Hs Hv D P H. rewrite quantize_f_policy by assumption. rewrite D, P.
  set (q := if b then 1%Q else 0%Q).
  assert (Q01 : (0 <= q <= 1)%Q) by (unfold q; destruct b; lra).
  replace (if b then Fin 1 else Fin 0) with (Fin q) by (unfold q; destruct b; reflexivity).
  rewrite clamp_clip by apply A.
  transitivity (quant1p d zp s x q).
  - destruct (Z.eq_dec (quantf1p d zp (Fin s) (Fin x) (Fin q)) (quant1p d zp s x q)) as [E|E]; [exact E|exfalso].
    destruct (quantf1p_agree d zp s x q k A (cw_bound _ _ _ B) N Q01 E) as (n & Hn & HE).
    specialize (H (n - if b then 1 else 0)). unfold real_code in H. rewrite inject_Z_minus in H.
    assert (EE : (x / s + inject_Z zp - (inject_Z n - inject_Z (if b then 1 else 0)) == x / s + inject_Z zp + q - inject_Z n)%Q).
    { unfold q. destruct b; [change (inject_Z 1) with 1%Q|change (inject_Z 0) with 0%Q]; ring. }
    rewrite EE in H. unfold pow2 in HE. lra.
  - unfold q. rewrite (quant1p_binary d zp s x b) by exact A.
    unfold real_code. rewrite Qfloor_plus_Z. reflexivity.
Qed.

(** Whatever the 0/1 policy, the code differs from the default one by at most one. *)
Theorem C68_within_one_code : forall d data zp s k p idx x,
  within_int32 d -> codes_within d zp k -> ~ (s == 0)%Q ->
  nd_shape p = nd_shape data -> valid_idx (nd_shape data) idx = true ->
  nd_get data idx = Fin x -> nd_get p idx = Fin 0 \/ nd_get p idx = Fin 1 ->
  -1 <= nd_get (quantize_f d data zp (Fin s) (Some p)) idx - nd_get (quantize_f d data zp (Fin s) None) idx <= 1.
Proof.
  intros d data zp s k p idx x A B N Hs Hv D P. rewrite quantize_f_policy by assumption. rewrite quantize_f_none, D.
  destruct P as [-> | ->].
  - pose proof (quantf1p_close d zp s x 0 k A (cw_bound _ _ _ B) N ltac:(lra)). lia.
  - pose proof (quantf1p_close d zp s x 1 k A (cw_bound _ _ _ B) N ltac:(lra)). lia.
Qed.

(** The policy of get_base_rounding reproduces the default rounding unless x/s is within 2^(k-48) of an
    integer or a half-integer ... *)
Theorem C68_base_policy : forall d data zp s k idx x,
  within_int32 d -> codes_within d zp k -> ~ (s == 0)%Q ->
  valid_idx (nd_shape data) idx = true -> nd_get data idx = Fin x ->
  (forall m, two_to (k - 47) < Qabs (2 * (x / s) - inject_Z m))%Q ->
  nd_get (quantize_f d data zp (Fin s) (Some (get_base_rounding_f data (Fin s)))) idx =
  nd_get (quantize_f d data zp (Fin s) None) idx.
Proof.
  intros d data zp s k idx x A B N Hv D H. rewrite quantize_f_policy by (reflexivity || assumption).
  rewrite quantize_f_none, D. unfold get_base_rounding_f. cbn [nd_map nd_get]. rewrite D.
  exact (base_agree d zp s x k A (cw_bound _ _ _ B) N H).
Qed.
(** infinities and NaN are never rounded up *)
Theorem C68_base_policy_special : forall data s idx n, (0 < s)%Q ->
  (nd_get data idx = Inf n -> nd_get (get_base_rounding_f data (Fin s)) idx = Fin 0) /\
  (nd_get data idx = NaN -> nd_get (get_base_rounding_f data (Fin s)) idx = Fin 0).
Proof.
  intros data s idx n P. unfold get_base_rounding_f. cbn [nd_map nd_get]. split; intros ->; [|reflexivity].
  assert (Sg : Qneg s = false) by (apply Qneg_false; lra).
  unfold base_roundingf1, fdiv. rewrite Sg. destruct n; reflexivity.
Qed.
Example C68_special_example : nd_to_list (get_base_rounding_f (nd_of_list NaN [Inf false; Fin (7#10); NaN; Inf true]) (Fin 1)) = [Fin 0; Fin 1; Fin 0; Fin 0].
Proof. vm_compute. reflexivity. Qed.
(** ... but not in general: with scale 0.1 and zero point -3, the value of code -6 (the double nearest to
    -0.3) is sent to code -5 by the round-to-nearest policy, an error of a whole step, while the default
    rounding recovers -6. Exact arithmetic (C05) hides this. *)
Theorem C68_base_policy_refuted : 
  let data := dequantize_f (scalar (-6)) (-3) (Fin f0_1) in
  nd_get (quantize_f int8 data (-3) (Fin f0_1) (Some (get_base_rounding_f data (Fin f0_1)))) [] = -5 /\
  nd_get (quantize_f int8 data (-3) (Fin f0_1) None) [] = -6.
Proof. split; vm_compute; reflexivity. Qed.
(** Likewise the floor policy: with scale 0.1 and zero point -128 the value of code -47 is floored to -48. *)
Theorem C68_floor_refuted :
  nd_get (quantize_f int8 (dequantize_f (scalar (-47)) (-128) (Fin f0_1)) (-128) (Fin f0_1) (Some (scalar (Fin 0)))) [] = -48.
Proof. vm_compute. reflexivity. Qed.
Example C68_example :
  let data := nd_of_list NaN [Fin (fl64 (33#100)); Fin (fl64 (-37#100))] in
  nd_to_list (get_base_rounding_f data (Fin f0_1)) = [Fin 0; Fin 0] /\
  nd_to_list (quantize_f int8 data 5 (Fin f0_1) (Some (nd_of_list NaN [Fin 0; Fin 1]))) = [8; 2].
Proof. split; vm_compute; reflexivity. Qed.

(** ** C69: activation tables in doubles, for any double-valued activation *)
Lemma float_activation_f_length d f is iz : length (float_activation_f d f is iz) = Z.to_nat (gmax d + 1 - gmin d).
Proof. unfold float_activation_f, code_range. now rewrite !map_length, seq_length. Qed.
Lemma float_activation_f_nth d f is iz i dflt : (i < Z.to_nat (gmax d + 1 - gmin d))%nat ->
  nth i (float_activation_f d f is iz) dflt = f (dequantf1 iz is (gmin d + Z.of_nat i)).
Proof.
  intros H. unfold float_activation_f, code_range. rewrite !map_map.
  erewrite nth_indep by (rewrite map_length, seq_length; exact H).
  rewrite (map_nth (fun i => f (dequantf1 iz is (gmin d + Z.of_nat i))) _ 0%nat). now rewrite seq_nth.
Qed.
Definition slots (d : gdtype) : nat := Z.to_nat (gmax d + 1 - gmin d).
Lemma create_LUT_f_nth d f is iz os oz p i : (i < slots d)%nat ->
  match p with Some p => nd_shape p = [slots d] | None => True end ->
  nth_error (create_LUT_f d f is iz os oz p) i =
  Some (let y := f (dequantf1 iz is (gmin d + Z.of_nat i)) in
        match p with Some p => quantf1p d oz os y (nd_get p [i]) | None => quantf1 d oz os y end).
Proof.
  intros H Hp. unfold create_LUT_f.
  assert (SH : nd_shape (quantize_f d (nd_of_list NaN (float_activation_f d f is iz)) oz os p) = [slots d]).
  { unfold quantize_f, nd_bin. destruct p as [p|]; cbn [nd_map nd_shape nd_of_list]; rewrite float_activation_f_length; [|reflexivity].
    rewrite Hp. fold (slots d). rewrite bshape_refl. reflexivity. }
  rewrite (nd_to_list_nth _ _ _ SH H). f_equal. cbv zeta.
  destruct p as [p|].
  - rewrite quantize_f_policy.
    + cbn [nd_get nd_of_list hd]. now rewrite float_activation_f_nth.
    + cbn [nd_shape nd_of_list]. now rewrite float_activation_f_length.
    + cbn [nd_shape nd_of_list valid_idx]. rewrite float_activation_f_length. apply andb_true_iff. split; [now apply Nat.ltb_lt|reflexivity].
  - rewrite quantize_f_none. cbn [nd_get nd_of_list hd]. now rewrite float_activation_f_nth.
Qed.
Lemma create_LUT_f_length d f is iz os oz p :
  match p with Some p => nd_shape p = [slots d] | None => True end ->
  length (create_LUT_f d f is iz os oz p) = slots d.
Proof.
  intros Hp. unfold create_LUT_f. apply nd_to_list_length.
  unfold quantize_f, nd_bin. destruct p as [p|]; cbn [nd_map nd_shape nd_of_list]; rewrite float_activation_f_length; [|reflexivity].
  rewrite Hp. fold (slots d). rewrite bshape_refl. reflexivity.
Qed.

(** One entry per code, and entry [code - min] is quantize(f(dequantize(code))), all in doubles. *)
Theorem C69_table : forall d f in_s in_zp out_s out_zp code, gmin d <= gmax d -> in_dtype d code ->
  Z.of_nat (length (create_LUT_f d f in_s in_zp out_s out_zp None)) = gmax d - gmin d + 1 /\
  nth_error (create_LUT_f d f in_s in_zp out_s out_zp None) (Z.to_nat (code - gmin d)) =
  Some (nd_get (quantize_f d (scalar (f (nd_get (dequantize_f (scalar code) in_zp in_s) []))) out_zp out_s None) []).
Proof.
  intros d f is iz os oz code L [C1 C2]. split.
  - rewrite create_LUT_f_length by exact I. unfold slots. lia.
  - rewrite create_LUT_f_nth; [|unfold slots; lia|exact I]. rewrite quantize_f_none. unfold dequantize_f. cbn [scalar nd_map nd_get].
    cbv zeta. do 4 f_equal. lia.
Qed.
(** A non-decreasing activation without NaN gives a non-decreasing table of codes of the dtype. *)
Theorem C69_monotone_table : forall d f in_s in_zp out_s out_zp k i j a b,
  within_int32 d -> diff_in_int32 d in_zp -> codes_within d in_zp k -> codes_within d out_zp k ->
  double in_s -> (0 < in_s)%Q -> (in_s <= two_to (1022 - k))%Q -> (0 < out_s)%Q ->
  (forall x y, (x <= y)%Q -> f_le (f (Fin x)) (f (Fin y))) -> (i <= j)%nat ->
  let t := create_LUT_f d f (Fin in_s) in_zp (Fin out_s) out_zp None in
  nth_error t i = Some a -> nth_error t j = Some b -> gmin d <= a /\ a <= b /\ b <= gmax d.
Proof.
  intros d f is iz os oz k i j a b A W B1 B2 R S0 S1 O F L t Ea Eb.
  assert (Lj : (j < slots d)%nat).
  { rewrite <- (create_LUT_f_length d f (Fin is) iz (Fin os) oz None I). apply nth_error_Some. unfold t in Eb. congruence. }
  unfold t in Ea, Eb. rewrite create_LUT_f_nth in Ea by (lia || exact I). rewrite create_LUT_f_nth in Eb by (lia || exact I).
  cbv zeta in Ea, Eb. injection Ea as <-. injection Eb as <-.
  assert (D : forall n, (n <= j)%nat -> in_dt d (gmin d + Z.of_nat n)) by (intros n Hn; unfold in_dt, slots in *; lia).
  rewrite (dequantf1_fin d iz is _ k A W (cw_bound _ _ _ B1) (D i L) S0 S1), (dequantf1_fin d iz is _ k A W (cw_bound _ _ _ B1) (D j (le_n j)) S0 S1).
  assert (X : f_le (f (Fin (fl64 (inject_Z (gmin d + Z.of_nat i - iz) * is)))) (f (Fin (fl64 (inject_Z (gmin d + Z.of_nat j - iz) * is))))).
  { apply F. apply fl_mono; [apply p64|]. apply Qmult_le_compat_r; [rewrite <- Zle_Qle; lia|lra]. }
  assert (NN : forall u v, f_le u v -> u <> NaN /\ v <> NaN) by (intros [u|[|]|] [v|[|]|] H; cbn in H; try contradiction; split; discriminate).
  destruct (NN _ _ X) as [N1 N2].
  pose proof (quantf1_range d oz os _ A (cw_zp _ _ _ B2) O N1) as [RA _].
  pose proof (quantf1_range d oz os _ A (cw_zp _ _ _ B2) O N2) as [_ RB].
  split; [exact RA|]. split; [|exact RB]. exact (quantf1_mono d oz os _ _ A (cw_zp _ _ _ B2) O (f_le_fle _ _ X)).
Qed.

(** The table a LUT node builds (with the round-to-nearest policy): each look-up is within one code of
    quantize(f(dequantize(code))), and equal to it when f(dequantize(code))/out_s keeps 2^(k-48) away from
    integers and half-integers. *)
Theorem C69_node_lookup : forall d f in_s in_zp out_s out_zp k code y,
  within_int32 d -> codes_within d out_zp k -> ~ (out_s == 0)%Q -> in_dtype d code ->
  f (nd_get (dequantize_f (scalar code) in_zp in_s) []) = Fin y ->
  exists e, node_lut_f_call d (node_lut_f d f in_s in_zp (Fin out_s) out_zp) code = Ok e /\
    let nearest := nd_get (quantize_f d (scalar (Fin y)) out_zp (Fin out_s) None) [] in
    -1 <= e - nearest <= 1 /\
    ((forall m, two_to (k - 47) < Qabs (2 * (y / out_s) - inject_Z m))%Q -> e = nearest).
Proof.
  intros d f is iz os oz k code y A B N [C1 C2] Y. unfold node_lut_f_call, node_lut_f. cbv zeta.
  set (p := get_base_rounding_f _ _).
  assert (PS : nd_shape p = [slots d]) by (unfold p, get_base_rounding_f; cbn; now rewrite float_activation_f_length).
  assert (K : (Z.to_nat (code - gmin d) < slots d)%nat) by (unfold slots; lia).
  replace (code + - gmin d) with (Z.of_nat (Z.to_nat (code - gmin d))) by lia.
  pose proof (create_LUT_f_nth d f is iz (Fin os) oz (Some p) _ K PS) as E. cbv zeta in E.
  replace (gmin d + Z.of_nat (Z.to_nat (code - gmin d))) with code in E by lia.
  unfold dequantize_f in Y. cbn [scalar nd_map nd_get] in Y. rewrite Y in E.
  exists (quantf1p d oz (Fin os) (Fin y) (nd_get p [Z.to_nat (code - gmin d)])).
  assert (PP : nd_get p [Z.to_nat (code - gmin d)] = base_roundingf1 (Fin os) (Fin y)).
  { unfold p, get_base_rounding_f. cbn [nd_map nd_get nd_of_list hd]. rewrite float_activation_f_nth by exact K.
    replace (gmin d + Z.of_nat (Z.to_nat (code - gmin d))) with code by lia. now rewrite Y. }
  split.
  - destruct (py_index_nonneg (create_LUT_f d f is iz (Fin os) oz (Some p)) (Z.of_nat (Z.to_nat (code - gmin d)))) as (a & Ha & ->).
    + rewrite create_LUT_f_length by exact PS. lia.
    + rewrite Nat2Z.id in Ha. f_equal. congruence.
  - rewrite PP, quantize_f_none. cbn [scalar nd_get]. split.
    + assert (X : exists q, base_roundingf1 (Fin os) (Fin y) = Fin q /\ (0 <= q <= 1)%Q).
      { destruct (base_cases (Fin os) (Fin y)) as [->| ->]; eexists; (split; [reflexivity|lra]). }
      destruct X as (q & -> & HP).
      pose proof (quantf1p_close d oz os y q k A (cw_bound _ _ _ B) N HP). lia.
    + intros H. exact (base_agree d oz os y k A (cw_bound _ _ _ B) N H).
Qed.
(** The identity activation with equal input and output parameters: exact arithmetic gives the identity table
    (C33); the table built in doubles sends code -6 to -5. *)
Theorem C69_identity_table_refuted :
  node_lut_f_call int8 (node_lut_f int8 (fun x => x) (Fin f0_1) (-3) (Fin f0_1) (-3)) (-6) = Ok (-5) /\
  nth_error (create_LUT_f int8 (fun x => x) (Fin f0_1) (-3) (Fin f0_1) (-3) None) (Z.to_nat (-6 - -128)) = Some (-6).
Proof. split; vm_compute; reflexivity. Qed.
Example C69_example : forall x y : Q, (x <= y)%Q -> f_le ((fun a => a) (Fin x)) ((fun a => a) (Fin y)).
Proof. intros x y H. exact H. Qed.
(** The distance hypotheses of C68_base_policy, C68_floor_or_ceil and C69_node_lookup are met: x/s = 3.3. *)
Example C69_away : forall m, (two_to (7 - 47) < Qabs (2 * ((33#100) / (1#10)) - inject_Z m))%Q.
Proof.
  intros m. assert (R : (2 * ((33 # 100) / (1 # 10)) == 66#10)%Q) by reflexivity. rewrite R.
  assert (T : (two_to (7 - 47) < 1#100)%Q) by reflexivity.
  destruct (Z_le_gt_dec m 6) as [L|L].
  - assert (L' : (inject_Z m <= 6)%Q) by (change 6%Q with (inject_Z 6); now rewrite <- Zle_Qle).
    rewrite Qabs_pos by lra. lra.
  - assert (L' : (7 <= inject_Z m)%Q) by (change 7%Q with (inject_Z 7); rewrite <- Zle_Qle; lia).
    rewrite Qabs_neg by lra. lra.
Qed.
