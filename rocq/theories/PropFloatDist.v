(** Property C70: calibration (Distribution.quantize) with every float operation rounded, on float32 or float64 data. *)
From Verif Require Import Base BaseProofs DtypeModel QuantModel QuantProofs FcModel FcProofs FloatModel FloatProofs FloatQuant
  DistModel FloatDistModel FloatDist PropCore PropDist PropFloat.
From Coq Require Import Lqa Qpower Qminmax.
Open Scope Z_scope.
Open Scope list_scope.

(** ** Specification vocabulary *)
Definition ieee (f : fmt) : Prop := f = binary32 \/ f = binary64.
(** [x] is a finite number of the format. *)
Definition number (f : fmt) (x : Q) : Prop :=
  exists m e, Z.abs m < 2 ^ f_p f /\ f_emin f <= e <= f_emax f - f_p f /\ (x == inject_Z m * two_to e)%Q.
(** Least number of significand bits of the two formats: 24 as soon as float32 data is involved, else 53. *)
Definition bits (f1 f2 : fmt) : Z := Z.min (f_p f1) (f_p f2).
(** Codes lie in [-2^k, 2^k]. *)
Definition codes_fit (q : gdtype) (k : Z) : Prop := 0 <= k <= 31 /\ - 2 ^ k <= gmin q /\ gmax q <= 2 ^ k.
(** The lowest code calibration uses. *)
Definition low_code (q : gdtype) (symmetric : bool) : Z := if symmetric then - gmax q else gmin q.
(** Round trip of one value through quantize and dequantize, both in doubles. *)
Definition float_round_trip (q : gdtype) (s : Q) (zp : Z) (x : Q) : f64 :=
  nd_get (dequantize_f (quantize_f q (scalar (Fin x)) zp (Fin s) None) zp (Fin s)) [].

Lemma ieee_sane f1 f2 : ieee f1 -> ieee f2 -> sane (bits f1 f2) f1 /\ sane (bits f1 f2) f2.
Proof. intros [-> | ->] [-> | ->]; unfold sane, bits; cbn; lia. Qed.
Lemma number_rep f x : number f x -> repf f x.
Proof. intros (m & e & A & B & C). exists m, e. split; [lia|]. split; [lia|exact C]. Qed.
Lemma rt_unfold q s zp x : float_round_trip q s zp x = dequantf1 zp (Fin s) (quantf1 q zp (Fin s) (Fin x)).
Proof. reflexivity. Qed.

(** ** C70 *)
(** The reported range widened to contain 0 is [a, b].  The scale is positive, the zero point is a code, 0 is coded
    exactly, and every value of the range comes back with an error of at most half a step plus rounding:
    2^(k+4-bits) + 2^(k-48) of a step.  (k = 7: 2^-13 of a step for float32 data, 2^-40 for float64.) *)
Theorem C70_calibration : forall f1 f2 k mn mx q symmetric,
  ieee f1 -> ieee f2 -> number f1 mn -> number f2 mn -> number f1 mx -> number f2 mx ->
  narrow q -> codes_fit q k -> k + 6 <= bits f1 f2 ->
  gmin q <= low_code q symmetric -> low_code q symmetric < gmax q ->
  let a := Qmin mn 0 in let b := Qmax mx 0 in
  (two_to (f_emin f2 + f_p f2 + k + 1) <= b - a)%Q ->
  (b - a <= two_to (f_emax f1 - k - 3))%Q -> (b - a <= two_to (f_emax f2 - k - 3))%Q ->
  exists s z, dist_quantize_f f1 f2 mn mx q None None symmetric = Ok (s, z) /\
    (0 < s)%Q /\ low_code q symmetric <= z <= gmax q /\
    nd_get (quantize_f q (scalar (Fin 0)) z (Fin s) None) [] = z /\ float_round_trip q s z 0 = Fin 0 /\
    forall x, (a <= x <= b)%Q -> exists y, float_round_trip q s z x = Fin y /\
      (Qabs (x - y) <= s * ((1#2) + two_to (k + 4 - bits f1 f2) + two_to (k - 48)))%Q.
Proof.
  intros f1 f2 k mn mx q sym I1 I2 A1 A2 B1 B2 (N1 & N2 & N3) (K & K1 & K2) KP L1 L2 a b H1 H2 H3.
  destruct (ieee_sane f1 f2 I1 I2) as [S1 S2].
  pose proof (pow2_pos (f_emin f2 + f_p f2 + k + 1)) as PP.
  assert (Hab : (a < b)%Q) by (unfold pow2 in PP; lra).
  assert (HO : (b - a <= pow2 (1021 - k))%Q).
  { eapply Qle_trans; [exact H3|]. apply pow2_mono. destruct I2 as [-> | ->]; cbn [f_emax binary32 binary64]; lia. }
  destruct (dist_f_error f1 f2 (bits f1 f2) k mn mx q sym S1 S2 K KP (number_rep _ _ A1) (number_rep _ _ A2)
     (number_rep _ _ B1) (number_rep _ _ B2) N1 N3 L2 L1 K1 K2 Hab H1 HO) as (s & z & E & SP & R & HZ & SB & X).
  fold a b in X. change (if sym then - gmax q else gmin q) with (low_code q sym) in *.
  assert (CW : codes_within q z k) by (unfold codes_within; lia).
  assert (IZ : in_dtype q z) by (unfold in_dtype; lia).
  assert (Q0 : nd_get (quantize_f q (scalar (Fin 0)) z (Fin s) None) [] = z).
  { apply (C67_zero q _ z s k []); [exact N1|exact CW|exact IZ|lra|reflexivity]. }
  exists s, z. split; [exact E|]. split; [exact SP|]. split; [exact HZ|]. split; [exact Q0|]. split.
  - rewrite rt_unfold. rewrite quantize_f_none in Q0. cbn [scalar nd_get] in Q0. rewrite Q0.
    exact (C67_zero_point_is_zero q z s N1 IZ).
  - intros x Hx. rewrite rt_unfold. exact (X x Hx).
Qed.

(** Forced zero point 0, symmetric (|codes| <= gmax): half a step. *)
Theorem C70_forced_symmetric : forall f1 f2 k mn mx q,
  ieee f1 -> ieee f2 -> number f1 mn -> number f2 mn -> number f1 mx -> number f2 mx ->
  within_int32 q -> codes_fit q k -> k + 6 <= bits f1 f2 -> 0 < gmax q -> gmin q <= - gmax q ->
  let a := Qmin mn 0 in let b := Qmax mx 0 in
  (a < b)%Q -> (two_to (f_emin f2 + f_p f2 + k) <= Qmax (Qabs a) (Qabs b))%Q ->
  (b - a <= two_to (f_emax f1 - k - 3))%Q -> (b - a <= two_to (f_emax f2 - k - 3))%Q ->
  exists s, dist_quantize_f f1 f2 mn mx q (Some 0) None true = Ok (s, 0) /\ (0 < s)%Q /\
    forall x, (a <= x <= b)%Q -> exists y, float_round_trip q s 0 x = Fin y /\
      (Qabs (x - y) <= s * ((1#2) + two_to (k - 48)))%Q.
Proof.
  intros f1 f2 k mn mx q I1 I2 A1 A2 B1 B2 N1 (K & K1 & K2) KP L1 L2 a b Hab H1 H2 H3.
  destruct (ieee_sane f1 f2 I1 I2) as [S1 S2].
  assert (AB : (Qmax (Qabs a) (Qabs b) <= b - a)%Q).
  { assert (A0 : (a <= 0)%Q) by (apply Q.le_min_r). assert (B0 : (0 <= b)%Q) by (apply Q.le_max_r).
    apply Q.max_lub; [rewrite Qabs_neg by lra; lra|rewrite Qabs_pos by lra; lra]. }
  assert (HO : (Qmax (Qabs a) (Qabs b) <= pow2 (1021 - k))%Q).
  { eapply Qle_trans; [exact AB|]. eapply Qle_trans; [exact H3|]. apply pow2_mono. destruct I2 as [-> | ->]; cbn [f_emax binary32 binary64]; lia. }
  assert (P : (pow2 (k + 1 - bits f1 f2) <= 1#2)%Q) by (change (1#2)%Q with (pow2 (-1)); apply pow2_mono; lia).
  assert (G : (inject_Z (gmax q) <= - inject_Z (gmin q))%Q) by (rewrite <- inject_Z_opp, <- Zle_Qle; lia).
  destruct (dist_f_forced_error f1 f2 (bits f1 f2) k mn mx q true (1#2) S1 S2 K KP (number_rep _ _ A1) (number_rep _ _ A2)
     (number_rep _ _ B1) (number_rep _ _ B2) N1 ltac:(unfold in_dt; lia) ltac:(cbv beta iota; lia) ltac:(cbv beta iota; lia) K1 K2 Hab ltac:(lra) ltac:(lra)
     ltac:(cbv beta iota; lra) ltac:(cbv beta iota; lra) H1 HO) as (s & E & SP & R & SB & X).
  exists s. split; [exact E|]. split; [exact SP|]. intros x Hx. rewrite rt_unfold. exact (X x Hx).
Qed.

(** Forced zero point 0, not symmetric, two's-complement dtype (gmin = - gmax - 1): a positive extreme loses a
    whole step, no more. *)
Theorem C70_forced_asymmetric : forall f1 f2 k mn mx q,
  ieee f1 -> ieee f2 -> number f1 mn -> number f2 mn -> number f1 mx -> number f2 mx ->
  within_int32 q -> codes_fit q k -> k + 6 <= bits f1 f2 -> 0 < gmax q -> gmin q = - gmax q - 1 ->
  let a := Qmin mn 0 in let b := Qmax mx 0 in
  (a < b)%Q -> (two_to (f_emin f2 + f_p f2 + k) <= Qmax (Qabs a) (Qabs b))%Q ->
  (b - a <= two_to (f_emax f1 - k - 3))%Q -> (b - a <= two_to (f_emax f2 - k - 3))%Q ->
  exists s, dist_quantize_f f1 f2 mn mx q (Some 0) None false = Ok (s, 0) /\ (0 < s)%Q /\
    forall x, (a <= x <= b)%Q -> exists y, float_round_trip q s 0 x = Fin y /\
      (Qabs (x - y) <= s * (1 + two_to (k + 1 - bits f1 f2) + two_to (k - 48)))%Q.
Proof.
  intros f1 f2 k mn mx q I1 I2 A1 A2 B1 B2 N1 (K & K1 & K2) KP L1 L2 a b Hab H1 H2 H3.
  destruct (ieee_sane f1 f2 I1 I2) as [S1 S2].
  assert (AB : (Qmax (Qabs a) (Qabs b) <= b - a)%Q).
  { assert (A0 : (a <= 0)%Q) by (apply Q.le_min_r). assert (B0 : (0 <= b)%Q) by (apply Q.le_max_r).
    apply Q.max_lub; [rewrite Qabs_neg by lra; lra|rewrite Qabs_pos by lra; lra]. }
  assert (HO : (Qmax (Qabs a) (Qabs b) <= pow2 (1021 - k))%Q).
  { eapply Qle_trans; [exact AB|]. eapply Qle_trans; [exact H3|]. apply pow2_mono. destruct I2 as [-> | ->]; cbn [f_emax binary32 binary64]; lia. }
  pose proof (pow2_pos (k + 1 - bits f1 f2)) as P0.
  assert (P : (pow2 (k + 1 - bits f1 f2) <= 1#2)%Q) by (change (1#2)%Q with (pow2 (-1)); apply pow2_mono; lia).
  assert (AG : Z.abs (gmin q) = gmax q + 1) by lia.
  assert (G : (inject_Z (gmin q) == - inject_Z (gmax q) - 1)%Q).
  { rewrite L2, inject_Z_minus, inject_Z_opp. reflexivity. }
  assert (G' : (inject_Z (Z.abs (gmin q)) == inject_Z (gmax q) + 1)%Q) by (rewrite AG, inject_Z_plus; reflexivity).
  destruct (dist_f_forced_error f1 f2 (bits f1 f2) k mn mx q false (1 + pow2 (k + 1 - bits f1 f2)) S1 S2 K KP
     (number_rep _ _ A1) (number_rep _ _ A2)
     (number_rep _ _ B1) (number_rep _ _ B2) N1 ltac:(unfold in_dt; lia) ltac:(cbv beta iota; lia) ltac:(cbv beta iota; lia) K1 K2 Hab ltac:(lra) ltac:(lra)
     ltac:(cbv beta iota; lra) ltac:(cbv beta iota; lra) H1 HO) as (s & E & SP & R & SB & X).
  exists s. split; [exact E|]. split; [exact SP|]. intros x Hx. rewrite rt_unfold. exact (X x Hx).
Qed.

(** The model rounds without an overflow threshold.  Under the bounds above that is faithful: every intermediate
    result of scale and zero point stays below the threshold 2^emax of the format it is rounded in. *)
Definition intermediates (f1 f2 : fmt) (mn mx : Q) (q : gdtype) (symmetric : bool) : list (fmt * Q) :=
  let a := Qmin mn 0 in let b := Qmax mx 0 in
  let M := inject_Z (gmax q) in let m := inject_Z (low_code q symmetric) in
  let width := flf f1 (b - a) in let den := flf f1 (a - b) in
  let p1 := flf f2 (a * M) in let p2 := flf f2 (b * m) in let num := flf f2 (p1 - p2) in
  [(f1, width); (f1, den); (f2, flf f2 (width / inject_Z (gmax q - low_code q symmetric))); (f2, p1); (f2, p2); (f2, num);
   (f2, flf f2 (num / den))].
Lemma flf_le f p x e : sane p f -> f_emin f <= e -> (Qabs x <= pow2 e)%Q -> (Qabs (flf f x) <= pow2 e)%Q.
Proof.
  intros S0 He H. destruct S0 as (P & _). apply Qabs_Qle_condition in H as [H1 H2].
  assert (P1 : 1 <= f_p f) by lia.
  pose proof (fl_exact (f_p f) (f_emin f) P1 _ (rep_pow2 (f_p f) (f_emin f) P1 e He)) as E.
  apply Qabs_Qle_condition. unfold flf. split.
  - rewrite <- E, <- fl_opp by exact P1. apply fl_mono; [exact P1|exact H1].
  - rewrite <- E. apply fl_mono; [exact P1|exact H2].
Qed.
Theorem C70_no_overflow : forall f1 f2 k mn mx q symmetric,
  ieee f1 -> ieee f2 -> number f1 mn -> number f2 mn -> number f1 mx -> number f2 mx ->
  narrow q -> codes_fit q k -> k + 6 <= bits f1 f2 ->
  gmin q <= low_code q symmetric -> low_code q symmetric < gmax q ->
  let a := Qmin mn 0 in let b := Qmax mx 0 in
  (two_to (f_emin f2 + f_p f2 + k + 1) <= b - a)%Q ->
  (b - a <= two_to (f_emax f1 - k - 3))%Q -> (b - a <= two_to (f_emax f2 - k - 3))%Q ->
  Forall (fun fx => (Qabs (snd fx) < two_to (f_emax (fst fx)))%Q) (intermediates f1 f2 mn mx q symmetric).
Proof.
  intros f1 f2 k mn mx q sym I1 I2 A1 A2 B1 B2 (N1 & N2 & N3) (K & K1 & K2) KP L1 L2 a b H1 H2 H3.
  destruct (ieee_sane f1 f2 I1 I2) as [S1 S2].
  pose proof (pow2_pos (f_emin f2 + f_p f2 + k + 1)) as PP.
  assert (Hab : (a < b)%Q) by (unfold pow2 in PP; lra).
  assert (A0 : (a <= 0)%Q) by (apply Q.le_min_r). assert (B0 : (0 <= b)%Q) by (apply Q.le_max_r).
  assert (BK : k <= 47) by lia.
  assert (E1 : f_emin f1 <= f_emax f1 - k - 3) by (destruct I1 as [-> | ->]; cbn [f_emin f_emax binary32 binary64]; lia).
  assert (E2 : f_emin f2 <= f_emax f2 - k - 3) by (destruct I2 as [-> | ->]; cbn [f_emin f_emax binary32 binary64]; lia).
  assert (E3 : k + 1 < f_emax f2) by (destruct I2 as [-> | ->]; cbn [f_emin f_emax binary32 binary64]; lia).
  change (Qpower 2) with pow2 in H2, H3 |- *.
  assert (LT : forall f x e, e < f_emax f -> (Qabs x <= pow2 e)%Q -> (Qabs x < pow2 (f_emax f))%Q).
  { intros f x e He Hx. eapply Qle_lt_trans; [exact Hx|]. apply pow2_lt. exact He. }
  assert (W1 : (Qabs (flf f1 (b - a)) <= pow2 (f_emax f1 - k - 3))%Q).
  { apply (flf_le _ _ _ _ S1 E1). rewrite Qabs_pos by lra. exact H2. }
  assert (W2 : (Qabs (flf f1 (a - b)) <= pow2 (f_emax f1 - k - 3))%Q).
  { apply (flf_le _ _ _ _ S1 E1). rewrite Qabs_neg by lra. lra. }
  assert (PK : forall n, - 2 ^ k <= n <= 2 ^ k -> (Qabs (inject_Z n) <= pow2 k)%Q) by (intros n Hn; apply abs_inject; lia).
  assert (XA : (Qabs a <= pow2 (f_emax f2 - k - 3))%Q) by (rewrite Qabs_neg by lra; lra).
  assert (XB : (Qabs b <= pow2 (f_emax f2 - k - 3))%Q) by (rewrite Qabs_pos by lra; lra).
  assert (P1 : (Qabs (flf f2 (a * inject_Z (gmax q))) <= pow2 (f_emax f2 - 3))%Q).
  { apply (flf_le _ _ _ _ S2); [lia|]. replace (f_emax f2 - 3) with ((f_emax f2 - k - 3) + k) by lia. rewrite pow2_plus.
    apply abs_mul_le; [exact XA|apply PK; lia]. }
  assert (P2 : (Qabs (flf f2 (b * inject_Z (low_code q sym))) <= pow2 (f_emax f2 - 3))%Q).
  { apply (flf_le _ _ _ _ S2); [lia|]. replace (f_emax f2 - 3) with ((f_emax f2 - k - 3) + k) by lia. rewrite pow2_plus.
    apply abs_mul_le; [exact XB|apply PK; lia]. }
  assert (P3 : (Qabs (flf f2 (flf f2 (a * inject_Z (gmax q)) - flf f2 (b * inject_Z (low_code q sym)))) <= pow2 (f_emax f2 - 2))%Q).
  { apply (flf_le _ _ _ _ S2); [lia|]. replace (f_emax f2 - 2) with (f_emax f2 - 3 + 1) by lia. rewrite pow2_S.
    unfold Qminus. eapply Qle_trans; [apply Qabs_triangle|]. rewrite Qabs_opp. lra. }
  destruct (dist_f_params f1 f2 (bits f1 f2) k mn mx q sym S1 S2 ltac:(lia) KP (number_rep _ _ A1) (number_rep _ _ A2)
     (number_rep _ _ B1) (number_rep _ _ B2) L2 ltac:(change (- 2 ^ k <= low_code q sym); lia) K2 Hab H1)
     as (s & z & E & SP & R & HZ & SE & _ & _ & Es & Ez).
  clear E. cbv zeta in SE, HZ, Es, Ez. change (if sym then - gmax q else gmin q) with (low_code q sym) in HZ, SE, Es, Ez.
  fold a in SE, Es, Ez. fold b in SE, Es, Ez.
  unfold intermediates. cbv zeta. fold a. fold b.
  set (r := flf f2 (flf f2 (flf f2 (a * inject_Z (gmax q)) - flf f2 (b * inject_Z (low_code q sym))) / flf f1 (a - b))) in *.
  rewrite <- Es.
  assert (SB : (Qabs s <= pow2 (f_emax f2 - k - 2))%Q).
  { rewrite Qabs_pos by lra. clear - SE H3 H1 PP KP S1 L2 Hab.
    assert (N1 : (1 <= inject_Z (gmax q - low_code q sym))%Q) by (change 1%Q with (inject_Z 1); rewrite <- Zle_Qle; lia).
    set (N := inject_Z (gmax q - low_code q sym)) in *.
    assert (S0 : ((b - a) / N <= b - a)%Q).
    { apply Qle_shift_div_r; [lra|]. setoid_replace (b - a)%Q with ((b - a) * 1)%Q at 1 by ring.
      rewrite !(Qmult_comm (b - a)). apply Qmult_le_compat_r; lra. }
    set (s0 := ((b - a) / N)%Q) in *. destruct (pow2_u (bits f1 f2) ltac:(apply S1)) as [U0 U1].
    assert (0 < s0)%Q by (unfold s0; apply Qlt_shift_div_l; lra).
    assert (X : (pow2 (- bits f1 f2) * s0 <= (1#16) * s0)%Q) by (apply Qmult_le_compat_r; lra).
    apply Qabs_Qle_condition in SE. setoid_replace (3 * pow2 (- bits f1 f2) * s0)%Q with (3 * (pow2 (- bits f1 f2) * s0))%Q in SE by ring.
    replace (f_emax f2 - k - 2) with (f_emax f2 - k - 3 + 1) by lia. rewrite pow2_S. lra. }
  assert (RB : (Qabs r <= pow2 (k + 1))%Q).
  { pose proof (Qround_even_near r) as RN. rewrite <- Ez in RN. apply Qabs_Qle_condition in RN.
    pose proof (PK z ltac:(lia)) as ZB. apply Qabs_Qle_condition in ZB. pose proof (pow2_ge1 k ltac:(lia)).
    apply Qabs_Qle_condition. rewrite pow2_S. split; lra. }
  repeat apply Forall_cons; [| | | | | | |apply Forall_nil]; cbn [fst snd].
  - apply (LT f1 _ (f_emax f1 - k - 3)); [lia|exact W1].
  - apply (LT f1 _ (f_emax f1 - k - 3)); [lia|exact W2].
  - apply (LT f2 _ (f_emax f2 - k - 2)); [lia|exact SB].
  - apply (LT f2 _ (f_emax f2 - 3)); [lia|exact P1].
  - apply (LT f2 _ (f_emax f2 - 3)); [lia|exact P2].
  - apply (LT f2 _ (f_emax f2 - 2)); [lia|exact P3].
  - apply (LT f2 _ (k + 1)); [lia|exact RB].
Qed.

(** *** Where it fails *)
(** int32 with float32 data: the range [-1, 0] gives the zero point 2^31, which is not an int32
    (2^31 - 1 is not a float32), while with doubles it is 2^31 - 1. *)
Theorem C70_int32_float32_refuted :
  dist_quantize_f binary32 binary32 (-1) 0 int32 None None false = Ok (pow2 (-32), 2 ^ 31) /\ ~ in_dtype int32 (2 ^ 31) /\
  exists s, dist_quantize_f binary64 binary64 (-1) 0 int32 None None false = Ok (s, 2 ^ 31 - 1).
Proof.
  split; [vm_compute; reflexivity|]. split; [unfold in_dtype, int32; cbn; lia|]. eexists. vm_compute. reflexivity.
Qed.
(** A range so small that the scale underflows: (1.0, 0) is returned, so every value of it is coded 0. *)
Theorem C70_underflow :
  number binary64 (pow2 (-1074)) /\
  dist_quantize_f binary64 binary64 0 (pow2 (-1074)) int8 None None false = Ok (1%Q, 0) /\
  float_round_trip int8 1 0 (pow2 (-1074)) = Fin 0.
Proof.
  split; [exists 1, (-1074); split; [reflexivity|]; split; [cbn; lia|reflexivity]|]. split; vm_compute; reflexivity.
Qed.
(** The one-step loss of the asymmetric forced zero point is reached: max = 128 (scale 1) comes back as 127. *)
Theorem C70_forced_asymmetric_reached :
  dist_quantize_f binary32 binary32 (-1) 128 int8 (Some 0) None false = Ok (1%Q, 0) /\
  float_round_trip int8 1 0 128 = Fin 127.
Proof. split; vm_compute; reflexivity. Qed.

(** A float32 tensor with minimum -0.3 (as float32) and maximum 1.7 (as float32). *)
Definition mn32 : Q := - (10066330 # 2^25).
Definition mx32 : Q := 14260634 # 2^23.
Example C70_data : number binary32 mn32 /\ number binary64 mn32 /\ number binary32 mx32 /\ number binary64 mx32 /\
  narrow int8 /\ codes_fit int8 7 /\ 7 + 6 <= bits binary32 binary32 /\ 7 + 6 <= bits binary32 binary64 /\
  gmin int8 <= low_code int8 false /\ low_code int8 false < gmax int8 /\
  (two_to (f_emin binary64 + f_p binary64 + 7 + 1) <= Qmax mx32 0 - Qmin mn32 0)%Q /\
  (two_to (f_emin binary32 + f_p binary32 + 7 + 1) <= Qmax mx32 0 - Qmin mn32 0)%Q /\
  (Qmax mx32 0 - Qmin mn32 0 <= two_to (f_emax binary32 - 7 - 3))%Q.
Proof.
  assert (A : forall f, f_p f >= 24 -> f_emin f <= -25 -> f_emax f - f_p f >= 0 -> number f mn32).
  { intros f H1 H2 H3. exists (-10066330), (-25). split; [|split; [lia|reflexivity]].
    pose proof (Z.pow_le_mono_r 2 24 (f_p f)). lia. }
  assert (B : forall f, f_p f >= 24 -> f_emin f <= -25 -> f_emax f - f_p f >= 0 -> number f mx32).
  { intros f H1 H2 H3. exists 14260634, (-23). split; [|split; [lia|reflexivity]].
    pose proof (Z.pow_le_mono_r 2 24 (f_p f)). lia. }
  split; [apply A; cbn; lia|]. split; [apply A; cbn; lia|]. split; [apply B; cbn; lia|]. split; [apply B; cbn; lia|].
  split; [unfold narrow, within_int32, int8; cbn; lia|]. split; [unfold codes_fit, int8; cbn; lia|].
  split; [cbn; lia|]. split; [cbn; lia|]. split; [cbn; lia|]. split; [cbn; lia|].
  split; [vm_compute; discriminate|]. split; vm_compute; discriminate.
Qed.
Example C70_example :
  match dist_quantize_f binary32 binary32 mn32 mx32 int8 None None false,
        dist_quantize_f binary64 binary64 mn32 mx32 int8 None None false with
  | Ok (s, z), Ok (s', z') => (z =? -90) && (z' =? -90) && negb (Qeq_bool s s')
  | _, _ => false
  end = true.
Proof. vm_compute. reflexivity. Qed.
