(** Vocabulary and lemmas for property C92 (PropFloatPipe.v): dense networks quantized in floating point and run in binary64. *)
From Verif Require Import Base BaseProofs DtypeModel DtypeProofs QuantModel QuantProofs LutModel LutProofs FcModel FcProofs FcLayer
  EngineModel EngineProofs DistModel DistProofs BuildModel PipeModel PropCore PropFc PropEngine PropDist PropNodeLut PipeSpec PipeProofs
  FloatModel FloatProofs FloatQuant PropFloat FloatFcModel PropFloatFc FloatEngineModel FloatDistModel FloatDist PropFloatDist PropFloatNet FloatPipeModel.
From Coq Require Import Lqa Qpower Qminmax.
Open Scope Z_scope.
Open Scope list_scope.

(** ** Calibration gives usable parameters *)
(** Floating-point data of two formats that can be calibrated: at least two different values, the largest magnitude neither tiny nor huge. *)
Record tame (f1 f2 : fmt) (k : Z) (a : list Q) : Prop := {
  tm_two : exists x y, In x a /\ In y a /\ (x < y)%Q;
  tm_num : forall x, In x a -> number f1 x /\ number f2 x;
  tm_low : exists x, In x a /\ (two_to (f_emin f2 + f_p f2 + k + 1) <= Qabs x)%Q;
  tm_high : forall x, In x a -> (Qabs x <= two_to (f_emax f1 - k - 4))%Q /\ (Qabs x <= two_to (f_emax f2 - k - 4))%Q }.
(** Parameters of a node whose zero point is a code. *)
Definition proper (p : params) (k : Z) : Prop := usable p k /\ in_dtype (p_d p) (p_z p) /\ narrow (p_d p).

Lemma rep_is_double x : rep64 x -> (Qabs x <= pow2 1021)%Q -> double x.
Proof.
  intros (m & e & A & B & C) H. rewrite C in H. rewrite Qabs_Qmult, (Qabs_pos (pow2 e)) in H by (apply Qlt_le_weak, pow2_pos).
  destruct (Z.eq_dec (Z.abs m) (2 ^ 53)) as [M|M].
  - exists (Z.sgn m * 2 ^ 52), (e + 1).
    assert (EM : m = Z.sgn m * 2 ^ 52 * 2) by (destruct m; cbn [Z.abs Z.sgn] in *; lia).
    split; [destruct m; cbn [Z.abs Z.sgn] in *; lia|].
    assert (E : e + 1 <= 971).
    { destruct (Z_le_gt_dec (e + 1) 971) as [L|G]; [exact L|exfalso]. change (Qabs (inject_Z m)) with (inject_Z (Z.abs m)) in H. rewrite M in H.
      assert (X : (pow2 971 <= pow2 e)%Q) by (apply pow2_mono; lia).
      assert (Y : (inject_Z (2 ^ 53) * pow2 971 <= inject_Z (2 ^ 53) * pow2 e)%Q) by (rewrite !(Qmult_comm (inject_Z (2 ^ 53))); apply Qmult_le_compat_r; [exact X|discriminate]).
      assert (W : (pow2 1021 < inject_Z (2 ^ 53) * pow2 971)%Q) by (vm_compute; reflexivity). lra. }
    split; [lia|]. rewrite C. change (two_to (e + 1)) with (pow2 (e + 1)). rewrite pow2_plus. change (pow2 1) with (inject_Z 2).
    rewrite EM at 1. rewrite inject_Z_mult. ring.
  - destruct (Z_le_gt_dec e 971) as [L|G].
    + exists m, e. split; [lia|]. split; [lia|exact C].
    + exists (m * 2 ^ (e - 971)), 971.
      assert (Ep : (pow2 e == inject_Z (2 ^ (e - 971)) * pow2 971)%Q).
      { replace e with (e - 971 + 971) at 1 by lia. rewrite pow2_plus. rewrite (pow2_Z (e - 971)) by lia. reflexivity. }
      split; [|split; [lia|rewrite C, Ep, inject_Z_mult; change (two_to 971) with (pow2 971); ring]].
      rewrite Ep in H. change (Qabs (inject_Z m)) with (inject_Z (Z.abs m)) in H. rewrite Qmult_assoc, <- inject_Z_mult in H.
      assert (W : (pow2 1021 < inject_Z (2 ^ 53) * pow2 971)%Q) by (vm_compute; reflexivity).
      rewrite Z.abs_mul, (Z.abs_eq (2 ^ (e - 971))) by lia.
      destruct (Z_lt_le_dec (Z.abs m * 2 ^ (e - 971)) (2 ^ 53)) as [R|R]; [exact R|exfalso].
      apply Zle_inj in R. assert (Y : (inject_Z (2 ^ 53) * pow2 971 <= inject_Z (Z.abs m * 2 ^ (e - 971)) * pow2 971)%Q) by (apply Qmult_le_compat_r; [exact R|apply Qlt_le_weak, pow2_pos]).
      lra.
Qed.

(** the scale calibration returns is a rounded quotient *)
Lemma dqf_scale f1 f2 mn mx q fz sym s z B : ieee f1 -> ieee f2 -> dist_quantize_f f1 f2 mn mx q fz None sym = Ok (s, z) ->
  f_emin f1 <= B -> f_emin f2 <= B -> 0 <= B -> gmin q < gmax q -> (sym = true -> 0 < gmax q) ->
  (Qmax mx 0 - Qmin mn 0 <= pow2 B)%Q ->
  repf f2 s /\ (s <= pow2 B)%Q.
Proof.
  intros I1 I2 H E1 E2 B0 GQ GS HB. destruct (ieee_sane f1 f2 I1 I2) as [S1 S2].
  assert (P1 : 1 <= f_p f1) by (destruct S1; lia). assert (P2 : 1 <= f_p f2) by (destruct S2; lia).
  assert (R1 : repf f2 1%Q).
  { unfold repf. apply (rep_comp _ _ (pow2 0)); [reflexivity|]. apply rep_pow2; [exact P2|]. destruct S2; lia. }
  assert (F1 : forall x, (x <= pow2 B)%Q -> (flf f1 x <= pow2 B)%Q).
  { intros x Hx. unfold flf. rewrite <- (fl_exact (f_p f1) (f_emin f1) P1 (pow2 B)) by (apply rep_pow2; [exact P1|exact E1]). now apply fl_mono. }
  assert (F2 : forall x, (x <= pow2 B)%Q -> (flf f2 x <= pow2 B)%Q).
  { intros x Hx. unfold flf. rewrite <- (fl_exact (f_p f2) (f_emin f2) P2 (pow2 B)) by (apply rep_pow2; [exact P2|exact E2]). now apply fl_mono. }
  assert (DV : forall x d, 1 <= d -> (x <= pow2 B)%Q -> (x / inject_Z d <= pow2 B)%Q).
  { intros x d D Hx. apply Qle_shift_div_r; [rewrite <- (Zlt_Qlt 0); lia|]. eapply Qle_trans; [exact Hx|].
    setoid_replace (pow2 B) with (pow2 B * 1)%Q at 1 by ring. rewrite !(Qmult_comm (pow2 B)). apply Qmult_le_compat_r; [|apply Qlt_le_weak, pow2_pos].
    change 1%Q with (inject_Z 1). apply (proj1 (Zle_inj _ _)). exact D. }
  assert (One : (1 <= pow2 B)%Q) by (change 1%Q with (pow2 0); apply pow2_mono; lia).
  unfold dist_quantize_f in H. cbv zeta in H.
  set (qm := if sym then - gmax q else gmin q) in *.
  destruct (gmax q - qm =? 0) eqn:Z0; [discriminate|]. apply Z.eqb_neq in Z0.
  destruct (Qeq_bool (flf f1 (Qmin mn 0 - Qmax mx 0)) 0); [discriminate|].
  assert (G : exists y, (y <= pow2 B)%Q /\ s = (if Qeq_bool (flf f2 y) 0 then 1%Q else flf f2 y)).
  { destruct fz as [z0|].
    - set (d0 := if sym then gmax q else Z.abs qm) in *. destruct (d0 =? 0) eqn:D0; [discriminate|]. apply Z.eqb_neq in D0. cbn [rbind] in H.
      exists (Qmax (Qabs (Qmin mn 0)) (Qabs (Qmax mx 0)) / inject_Z d0)%Q.
      assert (AB : (Qmax (Qabs (Qmin mn 0)) (Qabs (Qmax mx 0)) <= pow2 B)%Q).
      { pose proof (Q.le_min_r mn 0). pose proof (Q.le_max_r mx 0).
        apply Q.max_lub; [rewrite Qabs_neg by assumption|rewrite Qabs_pos by assumption]; lra. }
      split.
      + apply DV; [|exact AB]. unfold d0 in *. destruct sym; [specialize (GS eq_refl)|]; lia.
      + destruct (Qeq_bool (flf f2 _) 0); injection H as <- _; reflexivity.
    - cbn [rbind] in H. exists (flf f1 (Qmax mx 0 - Qmin mn 0) / inject_Z (gmax q - qm))%Q. split.
      + apply DV; [unfold qm; destruct sym; [specialize (GS eq_refl)|]; lia|now apply F1].
      + destruct (Qeq_bool (flf f2 _) 0); injection H as <- _; reflexivity. }
  destruct G as (y & Hy & ->). destruct (Qeq_bool (flf f2 y) 0); [split; [exact R1|exact One]|].
  split; [apply (flf_rep _ _ _ S2)|now apply F2].
Qed.

(** what calibration reports about tame data *)
Lemma tame_range f1 f2 k a d : ieee f1 -> ieee f2 -> 0 <= k <= 17 -> tame f1 f2 k a -> calibrate a = Ok d -> exists lo hi, reports d lo hi /\
  (forall x, In x a -> (lo <= x <= hi)%Q) /\ (lo < hi)%Q /\ number f1 lo /\ number f2 lo /\ number f1 hi /\ number f2 hi /\
  (two_to (f_emin f2 + f_p f2 + k + 1) <= Qmax hi 0 - Qmin lo 0)%Q /\
  (two_to (f_emin f2 + f_p f2 + k) <= Qmax (Qabs (Qmin lo 0)) (Qabs (Qmax hi 0)))%Q /\
  (Qmax hi 0 - Qmin lo 0 <= two_to (f_emax f1 - k - 3))%Q /\ (Qmax hi 0 - Qmin lo 0 <= two_to (f_emax f2 - k - 3))%Q.
Proof.
  intros I1 I2 K [(x & y & Hx & Hy & L) Nm (w & Hw & Lw) Hi] E.
  destruct (C28_unsliced_range a 512 true x y ltac:(lia) Hx Hy L) as (d' & lo & hi & E' & R & [(l1 & Hl & El) A] & [(h1 & Hh & Eh) B]).
  unfold calibrate in E. rewrite E in E'. injection E' as <-. symmetry in El, Eh.
  assert (NC : forall f u v, (u == v)%Q -> number f u -> number f v) by (intros f u v U (m & e & M1 & M2 & M3); exists m, e; rewrite <- U; auto).
  assert (RG : forall z, In z a -> (lo <= z <= hi)%Q) by (intros z Hz; split; [apply A, Hz|apply B, Hz]).
  destruct (Nm l1 Hl) as [N1 N2]. destruct (Nm h1 Hh) as [N3 N4].
  assert (BD : forall z t, (Qabs z <= two_to (t - k - 4))%Q -> (- two_to (t - k - 4) <= z <= two_to (t - k - 4))%Q) by (intros z t; apply Qabs_Qle_condition).
  assert (Dbl : forall t, (2 * two_to (t - k - 4) == two_to (t - k - 3))%Q).
  { intros t. change (two_to (t - k - 3)) with (pow2 (t - k - 3)). replace (t - k - 3) with (1 + (t - k - 4)) by lia. rewrite pow2_plus. reflexivity. }
  assert (UB : forall t, (0 < two_to (t - k - 4))%Q -> (forall z, In z a -> (Qabs z <= two_to (t - k - 4))%Q) -> (Qmax hi 0 - Qmin lo 0 <= two_to (t - k - 3))%Q).
  { intros t P Ht. pose proof (BD _ _ (Ht l1 Hl)) as [B1 B2]. pose proof (BD _ _ (Ht h1 Hh)) as [B3 B4]. rewrite El in B1, B2. rewrite Eh in B3, B4.
    rewrite <- Dbl. destruct (Q.max_spec hi 0) as [[? ->]|[? ->]], (Q.min_spec lo 0) as [[? ->]|[? ->]]; lra. }
  assert (LB : (Qabs w <= Qmax (Qabs (Qmin lo 0)) (Qabs (Qmax hi 0)))%Q).
  { destruct (RG w Hw) as [W1 W2]. pose proof (Q.le_min_l lo 0). pose proof (Q.le_max_l hi 0). pose proof (Q.le_min_r lo 0). pose proof (Q.le_max_r hi 0).
    destruct (Qlt_le_dec w 0) as [S|S].
    - eapply Qle_trans; [|apply Q.le_max_l]. rewrite (Qabs_neg w), (Qabs_neg (Qmin lo 0)) by lra. lra.
    - eapply Qle_trans; [|apply Q.le_max_r]. rewrite (Qabs_pos w), (Qabs_pos (Qmax hi 0)) by lra. lra. }
  assert (LS : (Qmax (Qabs (Qmin lo 0)) (Qabs (Qmax hi 0)) <= Qmax hi 0 - Qmin lo 0)%Q).
  { pose proof (Q.le_min_r lo 0). pose proof (Q.le_max_r hi 0).
    apply Q.max_lub; [rewrite Qabs_neg by assumption|rewrite Qabs_pos by assumption]; lra. }
  assert (LM : (two_to (f_emin f2 + f_p f2 + k) <= two_to (f_emin f2 + f_p f2 + k + 1))%Q) by (apply pow2_mono; lia).
  exists lo, hi. split; [exact R|]. split; [exact RG|]. split; [destruct (RG x Hx), (RG y Hy); lra|].
  split; [exact (NC _ _ _ El N1)|]. split; [exact (NC _ _ _ El N2)|]. split; [exact (NC _ _ _ Eh N3)|]. split; [exact (NC _ _ _ Eh N4)|].
  split; [lra|]. split; [lra|]. split; apply UB; try apply pow2_pos; intros z Hz; apply (Hi z Hz).
Qed.

Lemma narrow_nowrap q z : narrow q -> in_dtype q z -> diff_in_int32 q z.
Proof. intros (N1 & N2 & N3) H. unfold in_dtype, diff_in_int32 in *. lia. Qed.
Lemma fit_codes q z k : codes_fit q k -> in_dtype q z -> codes_within q z k.
Proof. intros (K & A & B) H. unfold in_dtype, codes_within in *. lia. Qed.
Lemma sane_bits f : ieee f -> f_emin f <= 0 /\ f_emax f <= 1024 /\ 128 <= f_emax f.
Proof. intros [-> | ->]; cbn; lia. Qed.
Lemma scale_usable f1 f2 k mn mx q fz sym s z : ieee f1 -> ieee f2 -> 0 <= k <= 17 -> narrow q -> codes_fit q k -> (sym = true -> 0 < gmax q) ->
  dist_quantize_f f1 f2 mn mx q fz None sym = Ok (s, z) -> (0 < s)%Q -> in_dtype q z ->
  (Qmax mx 0 - Qmin mn 0 <= two_to (f_emax f1 - k - 3))%Q -> (Qmax mx 0 - Qmin mn 0 <= two_to (f_emax f2 - k - 3))%Q ->
  proper (mkpar s z q) k.
Proof.
  intros I1 I2 K N C GS E P Hz H1 H2. destruct (sane_bits f1 I1) as (A1 & A2 & A3). destruct (sane_bits f2 I2) as (A4 & A5 & A6).
  pose proof N as (N1 & N2 & N3).
  assert (HB : (Qmax mx 0 - Qmin mn 0 <= pow2 (Z.min (f_emax f1) (f_emax f2) - k - 3))%Q).
  { destruct (Z.min_spec (f_emax f1) (f_emax f2)) as [[_ ->]|[_ ->]]; assumption. }
  destruct (dqf_scale f1 f2 mn mx q fz sym s z (Z.min (f_emax f1) (f_emax f2) - k - 3) I1 I2 E ltac:(lia) ltac:(lia) ltac:(lia) N2 GS HB) as [R U].
  assert (U' : (s <= pow2 (1021 - k))%Q) by (eapply Qle_trans; [exact U|apply pow2_mono; lia]).
  assert (D : double s).
  { apply rep_is_double; [|rewrite Qabs_pos by lra; eapply Qle_trans; [exact U'|apply pow2_mono; lia]].
    apply (rep_weaken (f_p f2) (f_emin f2)); [destruct I2 as [E2|E2]; rewrite E2; cbn; lia|destruct I2 as [E2|E2]; rewrite E2; cbn; lia|exact R]. }
  split; [|split; [exact Hz|exact N]]. cbn [p_d p_z p_s].
  split; [exact N1|]. split; [now apply narrow_nowrap|]. split; [now apply fit_codes|]. split; [exact D|]. split; [exact P|].
  eapply Qle_trans; [exact U'|]. apply pow2_mono. lia.
Qed.
(** A reported range calibration can work with. *)
Record fit_range (f1 f2 : fmt) (k : Z) (lo hi : Q) : Prop := {
  fr_num : number f1 lo /\ number f2 lo /\ number f1 hi /\ number f2 hi;
  fr_low : (two_to (f_emin f2 + f_p f2 + k + 1) <= Qmax hi 0 - Qmin lo 0)%Q;
  fr_high : (Qmax hi 0 - Qmin lo 0 <= two_to (f_emax f1 - k - 3))%Q /\ (Qmax hi 0 - Qmin lo 0 <= two_to (f_emax f2 - k - 3))%Q }.
(** a node calibrated on such a range *)
Lemma calibrated_rep f1 f2 k q d lo hi : ieee f1 -> ieee f2 -> 0 <= k <= 17 -> k + 6 <= bits f1 f2 -> narrow q -> codes_fit q k -> reports d lo hi -> fit_range f1 f2 k lo hi ->
  exists s z, quantize_range f1 f2 d q None false = Ok (s, z) /\ proper (mkpar s z q) k /\
    forall x, (Qmin lo 0 <= x <= Qmax hi 0)%Q -> (Qabs (clip (mkpar s z q) x - x) <= s * ((1#2) + two_to (k + 4 - bits f1 f2) + two_to (k - 47)))%Q.
Proof.
  intros I1 I2 K KB N C [R1 R2] [(M1 & M2 & M3 & M4) B1 (B3 & B4)].
  pose proof N as (N1 & N2 & N3).
  destruct (C70_calibration f1 f2 k lo hi q false I1 I2 M1 M2 M3 M4 N C KB (Z.le_refl _) N2 B1 B3 B4) as (s & z & EQ & P & Hz & _ & _ & RT).
  exists s, z. split; [unfold quantize_range; rewrite R1, R2; exact EQ|].
  assert (PR : proper (mkpar s z q) k) by (apply (scale_usable f1 f2 k lo hi q None false s z I1 I2 K N C ltac:(discriminate) EQ P Hz B3 B4)).
  split; [exact PR|]. intros x HX.
  destruct (RT x HX) as (y & Ey & Er). rewrite rt_unfold in Ey.
  destruct PR as (U & HZ & _). set (p := mkpar s z q) in *. set (c := quantf1 q z (Fin s) (Fin x)) in *.
  assert (Hc : in_dtype q c).
  { apply (quantf1_range q z s (Fin x) N1); [|exact P|discriminate]. destruct C as (C1 & C2 & C3). unfold in_dtype in HZ. cbn [p_d p_z p] in HZ.
    assert (2 ^ k <= 2 ^ 53) by (apply Z.pow_le_mono_r; lia). lia. }
  destruct (deq_value p k c U Hc) as (y' & Ey' & Ev). cbn [p_z p_s p] in Ey'. rewrite Ey in Ey'. injection Ey' as <-. cbn [p_s p] in Ev.
  assert (D : (Qabs (value p c - x) <= s * ((1#2) + two_to (k + 4 - bits f1 f2) + two_to (k - 47)))%Q).
  { assert (X : (two_to (k - 48) + two_to (k - 52) <= two_to (k - 47))%Q).
    { change (two_to (k - 48)) with (pow2 (k - 48)). change (two_to (k - 52)) with (pow2 (k - 52)). change (two_to (k - 47)) with (pow2 (k - 47)).
      replace (k - 47) with (1 + (k - 48)) by lia. rewrite pow2_plus. change (pow2 1) with 2%Q. assert (pow2 (k - 52) <= pow2 (k - 48))%Q by (apply pow2_mono; lia). lra. }
    assert (Y : (s * (two_to (k - 48) + two_to (k - 52)) <= s * two_to (k - 47))%Q) by (rewrite !(Qmult_comm s); apply Qmult_le_compat_r; [exact X|lra]).
    apply Qabs_Qle_condition in Er, Ev. apply Qabs_Qle_condition. split; lra. }
  assert (V : (value p (gmin q) <= value p c <= value p (gmax q))%Q).
  { unfold value. cbn [p_s p_z p]. split; rewrite !(Qmult_comm s); apply Qmult_le_compat_r; try lra; apply (proj1 (Zle_inj _ _)); unfold in_dtype in Hc; lia. }
  set (e := (s * _)%Q) in *. apply Qabs_Qle_condition in D. unfold clip. cbn [p_d p]. fold p.
  set (l := value p (gmin q)) in *. set (h := value p (gmax q)) in *. apply Qabs_Qle_condition.
  destruct (Q.min_spec h x) as [[? ->]|[? ->]]; [destruct (Q.max_spec l h) as [[? ->]|[? ->]]|destruct (Q.max_spec l x) as [[? ->]|[? ->]]]; split; lra.
Qed.

Lemma calibrated f1 f2 k q a d : ieee f1 -> ieee f2 -> 0 <= k <= 17 -> k + 6 <= bits f1 f2 -> narrow q -> codes_fit q k -> tame f1 f2 k a -> calibrate a = Ok d ->
  exists s z, quantize_range f1 f2 d q None false = Ok (s, z) /\ proper (mkpar s z q) k /\
    forall x, In x a -> (Qabs (clip (mkpar s z q) x - x) <= s * ((1#2) + two_to (k + 4 - bits f1 f2) + two_to (k - 47)))%Q.
Proof.
  intros I1 I2 K KB N C T E. destruct (tame_range f1 f2 k a d I1 I2 K T E) as (lo & hi & R & RG & LH & M1 & M2 & M3 & M4 & B1 & B2 & B3 & B4).
  destruct (calibrated_rep f1 f2 k q d lo hi I1 I2 K KB N C R) as (s & z & A & B & D); [constructor; auto|].
  exists s, z. split; [exact A|]. split; [exact B|]. intros x Hx. destruct (RG x Hx) as [X1 X2]. apply D.
  pose proof (Q.le_min_l lo 0); pose proof (Q.le_max_l hi 0); split; lra.
Qed.
(** ** Kernels and biases *)
(** error of a kernel code in steps; [b] is the precision of the calibration arithmetic *)
Definition kstep (b k : Z) (sym : bool) : Q := if sym then ((1#2) + two_to (k - 47))%Q else (1 + two_to (k + 1 - b) + two_to (k - 47))%Q.
Lemma kernel_f_ok f1 f2 k q (sym : bool) w : ieee f1 -> ieee f2 -> 0 <= k <= 17 -> k + 6 <= bits f1 f2 -> narrow q -> codes_fit q k -> 0 < gmax q ->
  (if sym then gmin q <= - gmax q else gmin q = - gmax q - 1) -> tame f1 f2 k (concat w) ->
  exists s m, fquant_kernel f1 f2 q sym w = Ok (fnode_of (s, 0) q (PMat m)) /\ (0 < s)%Q /\
    Forall2 (Forall2 (fun c x => in_dtype q c /\ (Qabs (s * inject_Z c - x) <= s * kstep (bits f1 f2) k sym)%Q)) m w.
Proof.
  intros I1 I2 K KB N C G0 HS T. pose proof N as (N1 & N2 & N3).
  assert (E0 : exists d, calibrate (concat w) = Ok d) by (destruct T as [(x & y & Hx & Hy & L) _ _ _]; destruct (C28_unsliced_range _ 512 true x y ltac:(lia) Hx Hy L) as (d & _ & _ & E & _); exists d; exact E).
  destruct E0 as (d & E). destruct (tame_range f1 f2 k _ d I1 I2 K T E) as (lo & hi & [R1 R2] & RG & LH & M1 & M2 & M3 & M4 & B1 & B2 & B3 & B4).
  assert (Hz : in_dtype q 0) by (unfold in_dtype; destruct sym; lia).
  assert (HAB : (Qmin lo 0 < Qmax hi 0)%Q) by now apply min_lt_max.
  assert (G : exists s, dist_quantize_f f1 f2 lo hi q (Some 0) None sym = Ok (s, 0) /\ (0 < s)%Q /\ forall x, (Qmin lo 0 <= x <= Qmax hi 0)%Q ->
    exists y, float_round_trip q s 0 x = Fin y /\ (Qabs (x - y) <= s * (kstep (bits f1 f2) k sym - two_to (k - 47) + two_to (k - 48)))%Q).
  { destruct sym; unfold kstep.
    - destruct (C70_forced_symmetric f1 f2 k lo hi q I1 I2 M1 M2 M3 M4 N1 C KB G0 HS HAB B2 B3 B4) as (s & A & B & RT).
      exists s. split; [exact A|]. split; [exact B|]. intros x Hx. destruct (RT x Hx) as (y & Ey & Er). exists y. split; [exact Ey|].
      eapply Qle_trans; [exact Er|]. apply Qle_lteq. right. ring.
    - destruct (C70_forced_asymmetric f1 f2 k lo hi q I1 I2 M1 M2 M3 M4 N1 C KB G0 HS HAB B2 B3 B4) as (s & A & B & RT).
      exists s. split; [exact A|]. split; [exact B|]. intros x Hx. destruct (RT x Hx) as (y & Ey & Er). exists y. split; [exact Ey|].
      eapply Qle_trans; [exact Er|]. apply Qle_lteq. right. ring. }
  destruct G as (s & EQ & P & RT).
  assert (PR : proper (mkpar s 0 q) k) by (apply (scale_usable f1 f2 k lo hi q (Some 0) sym s 0 I1 I2 K N C ltac:(lia) EQ P Hz B3 B4)).
  exists s. eexists. split; [unfold fquant_kernel; rewrite E; cbn [rbind]; unfold quantize_range; rewrite R1, R2; cbn [rbind]; rewrite EQ; cbn [rbind fst snd]; reflexivity|].
  split; [exact P|].
  assert (H : forall x, In x (concat w) -> in_dtype q (quantf1 q 0 (Fin s) (Fin (clipQ lo hi x))) /\
    (Qabs (s * inject_Z (quantf1 q 0 (Fin s) (Fin (clipQ lo hi x))) - x) <= s * kstep (bits f1 f2) k sym)%Q).
  { intros x Hx. pose proof (RG x Hx) as Rx. pose proof (clipQ_id _ _ _ Rx) as Ec. set (x' := clipQ lo hi x) in *.
    assert (HX : (Qmin lo 0 <= x' <= Qmax hi 0)%Q) by (pose proof (Q.le_min_l lo 0); pose proof (Q.le_max_l hi 0); rewrite Ec; destruct Rx; split; lra).
    destruct (RT x' HX) as (y & Ey & Er). rewrite rt_unfold in Ey. destruct PR as (U & HZ & _). set (p := mkpar s 0 q) in *.
    set (c := quantf1 q 0 (Fin s) (Fin x')) in *.
    assert (Hc : in_dtype q c) by (apply (quantf1_range q 0 s (Fin x') N1); [lia|exact P|discriminate]).
    split; [exact Hc|]. destruct (deq_value p k c U Hc) as (y' & Ey' & Ev). cbn [p_z p_s p] in Ey'. rewrite Ey in Ey'. injection Ey' as <-. cbn [p_s p] in Ev.
    unfold value in Ev. cbn [p_s p_z p] in Ev. rewrite Z.sub_0_r in Ev. rewrite <- Ec.
    assert (X : (two_to (k - 48) + two_to (k - 52) <= two_to (k - 47))%Q).
    { change (two_to (k - 48)) with (pow2 (k - 48)). change (two_to (k - 52)) with (pow2 (k - 52)). change (two_to (k - 47)) with (pow2 (k - 47)).
      replace (k - 47) with (1 + (k - 48)) by lia. rewrite pow2_plus. change (pow2 1) with 2%Q. assert (pow2 (k - 52) <= pow2 (k - 48))%Q by (apply pow2_mono; lia). lra. }
    assert (Y : (s * (two_to (k - 48) + two_to (k - 52)) <= s * two_to (k - 47))%Q) by (rewrite !(Qmult_comm s); apply Qmult_le_compat_r; [exact X|lra]).
    apply Qabs_Qle_condition in Er, Ev. apply Qabs_Qle_condition. split; lra. }
  clear -H. induction w as [|r w IH]; [constructor|]. cbn [map]. constructor.
  - assert (Hr : forall x, In x r -> In x (concat (r :: w))) by (intros; cbn [concat]; apply in_or_app; now left).
    revert Hr. generalize (concat (r :: w)) H. clear. intros big H Hr. induction r as [|x r IH]; constructor.
    + apply H, Hr. now left.
    + apply IH. intros y Hy. apply Hr. now right.
  - apply IH. intros x Hx. apply H. cbn [concat]. apply in_or_app. now right.
Qed.
Lemma bias_f_err q si sk b : within_int32 q -> (two_to (-1022) <= si * sk <= two_to 1022)%Q -> (0 < si)%Q -> (0 < sk)%Q ->
  let c := quantf1 q 0 (fmul (Fin si) (Fin sk)) (Fin b) in gmin q < c < gmax q ->
  (Qabs (si * sk * inject_Z c - b) <= si * sk * ((1#2) + two_to (-17)))%Q.
Proof.
  intros N [H1 H2] P1 P2 c Hc. pose proof N as (N1 & N2 & N3).
  assert (PP : (0 < si * sk)%Q) by (apply Qmult_lt_0_compat; assumption).
  assert (Ef : fmul (Fin si) (Fin sk) = Fin (fl64 (si * sk))).
  { unfold fmul. apply rnd_fin. rewrite Qabs_pos by lra. eapply Qle_trans; [exact H2|]. apply pow2_mono. lia. }
  unfold c in *. rewrite Ef in *. clear c. set (ss := (si * sk)%Q) in *. set (s := fl64 ss) in *.
  assert (R : (Qabs (s - ss) <= ss * pow2 (-53))%Q).
  { unfold s, fl64. pose proof (fl_rel_normal 53 (-1074) ss) as X. rewrite (Qabs_pos ss) in X by lra. apply X. exact H1. }
  assert (V : (pow2 (-53) <= 1 # 2 ^ 53)%Q) by (vm_compute; discriminate).
  assert (VS : (ss * pow2 (-53) <= ss * (1 # 2 ^ 53))%Q) by (rewrite !(Qmult_comm ss); apply Qmult_le_compat_r; [exact V|lra]).
  apply Qabs_Qle_condition in R. destruct R as [R1 R2].
  assert (SV : (ss * (1 # 2 ^ 53) <= ss * (1#2))%Q) by (rewrite !(Qmult_comm ss); apply Qmult_le_compat_r; [vm_compute; discriminate|lra]).
  assert (S0 : (0 < s)%Q) by lra.
  set (c := quantf1 q 0 (Fin s) (Fin b)) in *.
  assert (CW : codes_within q 0 31) by (unfold codes_within; lia).
  pose proof (quant_err q 0 s b 31 N CW S0 N2) as QE. fold c in QE.
  assert (T : ((1#2) + two_to (31 - 49) < 1)%Q) by (vm_compute; reflexivity).
  assert (CI : clampQ (gmin q) (gmax q) (inject_Z 0 + b / s) = (inject_Z 0 + b / s)%Q).
  { unfold clampQ in *. assert (C1 : (inject_Z (gmin q) + 1 <= inject_Z c)%Q) by (change 1%Q with (inject_Z 1); rewrite <- inject_Z_plus; apply (proj1 (Zle_inj _ _)); lia).
    assert (C2 : (inject_Z c + 1 <= inject_Z (gmax q))%Q) by (change 1%Q with (inject_Z 1); rewrite <- inject_Z_plus; apply (proj1 (Zle_inj _ _)); lia).
    destruct (Qlt_le_dec _ _) as [A|A]; [exfalso; apply Qabs_Qle_condition in QE; lra|].
    destruct (Qlt_le_dec _ _) as [B|B]; [exfalso; apply Qabs_Qle_condition in QE; lra|reflexivity]. }
  rewrite CI in QE. change (inject_Z 0) with 0%Q in QE.
  assert (D1 : (Qabs (s * inject_Z c - b) <= s * ((1#2) + two_to (31 - 49)))%Q).
  { setoid_replace (s * inject_Z c - b)%Q with (s * (inject_Z c - (0 + b / s)))%Q by (field; lra).
    rewrite Qabs_Qmult, (Qabs_pos s) by lra. rewrite !(Qmult_comm s). apply Qmult_le_compat_r; [exact QE|lra]. }
  assert (D2 : (Qabs ((ss - s) * inject_Z c) <= ss * (1 # 2 ^ 22))%Q).
  { rewrite Qabs_Qmult. change (Qabs (inject_Z c)) with (inject_Z (Z.abs c)).
    assert (A : (Qabs (ss - s) <= ss * (1 # 2 ^ 53))%Q) by (apply Qabs_Qle_condition; split; lra).
    assert (B : (inject_Z (Z.abs c) <= inject_Z (2 ^ 31))%Q) by (apply (proj1 (Zle_inj _ _)); lia).
    assert (Z0 : (0 <= inject_Z (Z.abs c))%Q) by (change 0%Q with (inject_Z 0); apply (proj1 (Zle_inj _ _)); lia).
    eapply Qle_trans; [apply (Qmult_le_compat_r _ _ _ A Z0)|].
    eapply Qle_trans; [rewrite Qmult_comm; apply (Qmult_le_compat_r _ _ (ss * (1 # 2 ^ 53)) B); lra|].
    apply Qle_lteq. right. setoid_replace (1 # 2 ^ 22)%Q with (inject_Z (2 ^ 31) * (1 # 2 ^ 53))%Q by (vm_compute; reflexivity). ring. }
  assert (D3 : (s * ((1#2) + two_to (31 - 49)) <= ss * (1 + (1 # 2 ^ 53)) * ((1#2) + two_to (31 - 49)))%Q).
  { apply Qmult_le_compat_r; [|vm_compute; discriminate]. setoid_replace (ss * (1 + (1 # 2 ^ 53)))%Q with (ss + ss * (1 # 2 ^ 53))%Q by ring. lra. }
  assert (D4 : (ss * ((1 + (1 # 2 ^ 53)) * ((1#2) + two_to (31 - 49)) + (1 # 2 ^ 22)) <= ss * ((1#2) + two_to (-17)))%Q).
  { rewrite !(Qmult_comm ss). apply Qmult_le_compat_r; [vm_compute; discriminate|lra]. }
  setoid_replace (ss * ((1 + (1 # 2 ^ 53)) * ((1 # 2) + two_to (31 - 49)) + (1 # 2 ^ 22)))%Q
    with (ss * (1 + (1 # 2 ^ 53)) * ((1 # 2) + two_to (31 - 49)) + ss * (1 # 2 ^ 22))%Q in D4 by ring.
  setoid_replace (ss * inject_Z c - b)%Q with ((s * inject_Z c - b) + (ss - s) * inject_Z c)%Q by ring.
  eapply Qle_trans; [apply Qabs_triangle|]. lra.
Qed.

(** ** One operator *)
(** the operator loads, runs on every batch of codes, and each row goes through the real function [F] with error [E] *)
Definition op_step (p : params) (n : nat) (op : jop fbody) (po : params) (no : nat) (F : list Q -> list Q) (E : Q -> Q) : Prop :=
  exists ly, build_layer fe_builders op = Ok ly /\
    forall X, X <> [] -> Forall (codes p n) X -> exists Y, ly (GI X) = Ok (GI Y) /\ Forall2 (row_step p n po no F E) X Y.
Inductive steps : params -> nat -> list (jop fbody) -> params -> nat -> (list Q -> list Q) -> (Q -> Q) -> Prop :=
| steps_nil p n : steps p n [] p n (fun v => v) (fun e => e)
| steps_cons p n op po no F1 E1 ops p' n' F B : op_step p n op po no F1 E1 -> (0 < no)%nat -> (forall e, (0 <= e)%Q -> (0 <= E1 e)%Q) ->
    steps po no ops p' n' F B -> steps p n (op :: ops) p' n' (fun v => F (F1 v)) (fun e => B (E1 e)).
Lemma steps_run p n ops p' n' F B : steps p n ops p' n' F B -> (0 < n)%nat ->
  (0 < n')%nat /\ exists ls, mapM (build_layer fe_builders) ops = Ok ls /\
    forall X inter, X <> [] -> Forall (codes p n) X -> exists Y, snd (run_layers ls (GI X) inter) = Ok (GI Y) /\
      Forall2 (row_step p n p' n' F B) X Y.
Proof.
  induction 1 as [p n|p n op po no F1 E1 ops p' n' F B (ly & Bly & Rly) No HE Hm IH]; intros N0.
  - split; [exact N0|]. exists []. split; [reflexivity|]. intros X inter NE HX. exists X. split; [reflexivity|].
    clear NE. induction HX as [|x X Cx _ IH]; constructor; [|exact IH]. split; [exact Cx|]. intros v e _ Kn. exact Kn.
  - destruct (IH No) as (N' & ls & Bls & Run). split; [exact N'|].
    exists (ly :: ls). split; [cbn [mapM]; rewrite Bly; cbn [rbind]; rewrite Bls; reflexivity|].
    intros X inter NE HX. destruct (Rly X NE HX) as (Y & EY & FY). cbn [run_layers]. rewrite EY.
    destruct (Run Y (inter ++ [GI Y]) (F2_nonempty _ _ _ FY NE) (F2_codes _ _ _ _ _ _ _ _ FY)) as (Z0 & EZ & FZ).
    exists Z0. split; [exact EZ|]. clear - FY FZ HE. revert Z0 FZ.
    induction FY as [|x y X Y (C & St) _ IH]; intros Z0 FZ; inversion FZ as [|? z ? Z1 (C' & St') FZ']; subst; constructor; [|now apply IH].
    split; [exact C'|]. intros v e e0 Kn. apply St'; [now apply HE|]. now apply St.
Qed.

(** error of a fully connected operator against the float layer: scales [si sk so], [n] inputs of range [ri], kernel step error [ek] *)
Definition fbound_fc (l : kdense) (ek si sk so : Q) (n : nat) (ri e : Q) : Q :=
  (wsum l * e + inject_Z (Z.of_nat n) * (ri * (sk * ek)) + si * sk * ((1#2) + two_to (-17)) + so * (1#2) + si * sk * (1 + (1 # 2 ^ 19)))%Q.
(** width of the range of the values a node can hold *)
Definition span (p : params) : Q := (p_s p * inject_Z (gmax (p_d p) - gmin (p_d p)))%Q.
Definition deq_codes (p : params) (x : list Z) : list Q := map (value p) x.
Lemma known_deq p n x : codes p n x -> known p x (deq_codes p x) 0.
Proof.
  intros _. split; [apply map_length|]. intros i Hi. unfold deq_codes. rewrite (nth_indep _ 0%Q (value p 0)) by (rewrite map_length; exact Hi).
  rewrite map_nth. setoid_replace (value p (nth i x 0%Z) - value p (nth i x 0%Z))%Q with 0%Q by ring. discriminate.
Qed.
Lemma value_span p q : in_dtype (p_d p) (p_z p) -> (0 < p_s p)%Q -> in_dtype (p_d p) q -> (Qabs (value p q) <= span p)%Q.
Proof.
  intros Hz P Hq. unfold value, span. rewrite Qabs_Qmult, (Qabs_pos (p_s p)) by lra. rewrite !(Qmult_comm (p_s p)). apply Qmult_le_compat_r; [|lra].
  change (Qabs (inject_Z (q - p_z p))) with (inject_Z (Z.abs (q - p_z p))). apply (proj1 (Zle_inj _ _)). unfold in_dtype in *. lia.
Qed.
Lemma dot_close (l : list nat) (a v sw w : nat -> Q) e ri d : (0 <= d)%Q ->
  (forall i, In i l -> (Qabs (a i - v i) <= e)%Q) -> (forall i, In i l -> (Qabs (a i) <= ri)%Q) -> (forall i, In i l -> (Qabs (sw i - w i) <= d)%Q) ->
  (Qabs (fold_right Qplus 0 (map (fun i => a i * sw i) l) - fold_right Qplus 0 (map (fun i => v i * w i) l))
   <= e * fold_right Qplus 0 (map (fun i => Qabs (w i)) l) + inject_Z (Z.of_nat (length l)) * (ri * d))%Q.
Proof.
  intros D0. induction l as [|i l IH]; intros H1 H2 H3; cbn [map fold_right length].
  - setoid_replace (0 - 0)%Q with 0%Q by ring. change (inject_Z (Z.of_nat 0)) with 0%Q. setoid_replace (e * 0 + 0 * (ri * d))%Q with 0%Q by ring. discriminate.
  - specialize (IH (fun j Hj => H1 j (or_intror Hj)) (fun j Hj => H2 j (or_intror Hj)) (fun j Hj => H3 j (or_intror Hj))).
    specialize (H1 i (or_introl eq_refl)). specialize (H2 i (or_introl eq_refl)). specialize (H3 i (or_introl eq_refl)).
    set (A := fold_right Qplus 0%Q (map (fun i0 => (a i0 * sw i0)%Q) l)) in *. set (B := fold_right Qplus 0%Q (map (fun i0 => (v i0 * w i0)%Q) l)) in *.
    set (C := fold_right Qplus 0%Q (map (fun i0 => Qabs (w i0)) l)) in *.
    setoid_replace (a i * sw i + A - (v i * w i + B))%Q with ((a i * (sw i - w i) + (a i - v i) * w i) + (A - B))%Q by ring.
    eapply Qle_trans; [apply Qabs_triangle|].
    assert (X : (Qabs (a i * (sw i - w i) + (a i - v i) * w i) <= ri * d + e * Qabs (w i))%Q).
    { eapply Qle_trans; [apply Qabs_triangle|]. apply Qplus_le_compat; [now apply abs_mul_le|].
      rewrite Qabs_Qmult. apply Qmult_le_compat_r; [exact H1|apply Qabs_nonneg]. }
    rewrite Nat2Z.inj_succ. unfold Z.succ. rewrite inject_Z_plus. change (inject_Z 1) with 1%Q.
    setoid_replace (e * (Qabs (w i) + C) + (inject_Z (Z.of_nat (length l)) + 1) * (ri * d))%Q
      with ((ri * d + e * Qabs (w i)) + (e * C + inject_Z (Z.of_nat (length l)) * (ri * d)))%Q by ring.
    apply Qplus_le_compat; assumption.
Qed.
Lemma bounded_list {A} (f : A -> Q) l : exists K, forall x, In x l -> (f x <= K)%Q.
Proof.
  induction l as [|a l (K & IH)]; [exists 0%Q; intros ? []|]. exists (Qmax (f a) K). intros x [<- | Hx]; [apply Q.le_max_l|].
  eapply Qle_trans; [now apply IH|apply Q.le_max_r].
Qed.
Lemma F2_nth {A B} (R : A -> B -> Prop) a b da db : Forall2 R a b -> forall i, (i < length b)%nat -> R (nth i a da) (nth i b db).
Proof. induction 1 as [|x y a b Hxy _ IH]; intros [|i] Hi; cbn [nth length] in *; try lia; [exact Hxy|apply IH; lia]. Qed.
Lemma op_fc l p n op i k b o W bv sk zk po ek :
    is_type op KFullyConnected -> fb_in (jo_body op) = [i; k; b] -> fb_out (jo_body op) = [o] ->
    fn_scale i = Fin (p_s p) -> fn_zp i = p_z p -> fn_scale k = Fin sk -> fn_zp k = zk -> node_is o po ->
    fn_tensor k = PMat W -> fn_tensor b = PVec bv -> zk = 0 ->
    layer_shaped n l -> in_dtype (p_d p) (p_z p) -> (0 <= ek)%Q ->
    Forall2 (Forall2 (fun c x => (Qabs (sk * inject_Z c - x) <= sk * ek)%Q)) W (kd_w l) -> length bv = kd_units l ->
    (forall j, (j < kd_units l)%nat -> (Qabs (p_s p * sk * inject_Z (nth j bv 0%Z) - bias_at l j) <= p_s p * sk * ((1#2) + two_to (-17)))%Q) ->
    (0 < p_s p)%Q -> (0 < sk)%Q -> (0 < p_s po)%Q -> (two_to (-1022) <= p_s p * sk <= two_to 1022)%Q ->
    ((1000001 # 1000000000000) <= p_s p * sk / p_s po)%Q -> (p_s p * sk / p_s po < inject_Z (2 ^ 30 - 1))%Q ->
    gmin (p_d po) <= gmax (p_d po) -> Z.abs (p_z po) <= 2 ^ 62 ->
    (forall x j, codes p n x -> (j < length W)%nat -> Z.abs (exact_acc (p_z p) zk x (nth j W []) (nth j bv 0)) <= 2 ^ 31) ->
  op_step p n op po (kd_units l) (fun v => map (clip po) (affine l v)) (fbound_fc l ek (p_s p) sk (p_s po) n (span p)).
Proof.
  intros Ty Ei Eo S1 Z1 S2 Z2 No Tk Tb Zk Sh Hz Ek HW Lb Hb P1 P2 P3 R M1 M2 Gd Gz Acc. subst zk. rewrite Zk in *.
  pose proof Sh as (N0 & U0 & Lk & Lr & _).
  assert (LWn : length W = kd_units l) by (rewrite (F2_length _ _ _ HW); apply kd_w_length).
  assert (Col : forall j, (j < kd_units l)%nat -> Forall2 (fun c x => (Qabs (sk * inject_Z c - x) <= sk * ek)%Q) (nth j W []) (column j (kd_kernel l))).
  { intros j Hj. rewrite <- (kd_w_nth l j [] Hj). apply (F2_nth _ _ _ [] [] HW). rewrite kd_w_length. exact Hj. }
  assert (Lc : forall j, length (column j (kd_kernel l)) = n) by (intros j; unfold column; rewrite map_length; exact Lk).
  assert (LW : forall w, In w W -> length w = n).
  { intros w Hw. apply (In_nth _ _ []) in Hw as (j & Hj & <-). rewrite LWn in Hj. rewrite (F2_length _ _ _ (Col j Hj)). apply Lc. }
  destruct (bounded_list (fun w => sumQ_upto n (fun i => Qabs (sk * inject_Z (nth i w 0%Z - 0)))) W) as (K & HK).
  destruct (step_fc p n op i k b o W bv sk 0 po K Ty Ei Eo S1 Z1 S2 Zk No Tk Tb LW ltac:(lia) ltac:(lia) P1 P2 P3 R M1 M2 Gd Gz Acc) as (ly & Bly & Rly).
  { intros j Hj. apply HK. now apply nth_In. }
  exists ly. split; [exact Bly|]. intros X NE HX. destruct (Rly X HX) as (Y & EY & FY). exists Y. split; [exact EY|].
  clear EY NE. induction FY as [|x y X Y (Cy & St) _ IH]; constructor; [|apply IH; now inversion HX].
  assert (Cx : codes p n x) by now inversion HX. rewrite LWn in Cy. split; [exact Cy|].
  intros v e e0 (Lv & Kv). destruct (St (deq_codes p x) 0%Q ltac:(lra) (known_deq p n x Cx)) as (Ly & Ky).
  destruct Cx as (Lx & Fx). destruct Cy as (Lcy & _).
  split; [rewrite map_length, affine_length; now rewrite Lcy|]. intros j Hj. specialize (Ky j Hj). rewrite Lcy in Hj.
  rewrite (nth_indep (map (clip po) (affine l v)) 0%Q (clip po 0)) by (rewrite map_length, affine_length; exact Hj).
  rewrite (map_nth (clip po)). rewrite affine_nth by exact Hj.
  assert (EQ : nth j (fc_real n (p_s p) sk 0 W bv po (deq_codes p x)) 0%Q = clip po (neuron n (p_s p) sk 0 (nth j W []) (nth j bv 0) (deq_codes p x))).
  { unfold fc_real. rewrite LWn. apply (PipeProofs.nth_map_seq (fun j => clip po (neuron n (p_s p) sk 0 (nth j W []) (nth j bv 0) (deq_codes p x)))). exact Hj. }
  rewrite EQ in Ky. set (r := neuron _ _ _ _ _ _ _) in *. set (t := PropFc.dense v (column j (kd_kernel l)) (bias_at l j)).
  assert (D : (Qabs (r - t) <= wsum l * e + inject_Z (Z.of_nat n) * (span p * (sk * ek)) + p_s p * sk * ((1#2) + two_to (-17)))%Q).
  { unfold r, t, neuron, PropFc.dense. rewrite Lv, Lx. rewrite Lx in Kv.
    pose proof (dot_close (seq 0 n) (fun i => nth i (deq_codes p x) 0%Q) (fun i => nth i v 0%Q) (fun i => sk * inject_Z (nth i (nth j W []) 0%Z - 0))%Q
      (fun i => nth i (column j (kd_kernel l)) 0%Q) e (span p) (sk * ek)) as DC.
    assert (D0 : (0 <= sk * ek)%Q) by (apply Qmult_le_0_compat; [lra|exact Ek]). specialize (DC D0).
    assert (Nv : forall i, (i < n)%nat -> nth i (deq_codes p x) 0%Q = value p (nth i x 0)).
    { intros i0 Hi. unfold deq_codes. rewrite (nth_indep _ 0%Q (value p 0)) by (rewrite map_length, Lx; exact Hi). apply map_nth. }
    specialize (DC ltac:(intros i0 Hi; apply in_seq in Hi; cbn beta; rewrite Nv by lia; apply Kv; lia)).
    specialize (DC ltac:(intros i0 Hi; apply in_seq in Hi; cbn beta; rewrite Nv by lia; apply value_span; [exact Hz|exact P1|]; rewrite Forall_forall in Fx; apply Fx, nth_In; lia)).
    specialize (DC ltac:(intros i0 Hi; apply in_seq in Hi; cbn beta; rewrite Z.sub_0_r; apply (F2_nth _ _ _ 0 0%Q (Col j Hj)); rewrite Lc; lia)).
    rewrite seq_length in DC.
    assert (WS : (e * fold_right Qplus 0 (map (fun i0 => Qabs (nth i0 (column j (kd_kernel l)) 0%Q)) (seq 0 n)) <= wsum l * e)%Q).
    { rewrite (Qmult_comm e). apply Qmult_le_compat_r; [|exact e0]. eapply Qle_trans; [|apply (wsum_ge l j Hj)].
      rewrite (abssum_upto _ n (Lc j)). apply Qle_refl. }
    specialize (Hb j Hj). unfold sumQ_upto, sum_upto.
    set (SA := fold_right Qplus 0%Q (map (fun i0 => (nth i0 (deq_codes p x) 0 * (sk * inject_Z (nth i0 (nth j W []) 0%Z - 0)))%Q) (seq 0 n))) in *.
    set (SB := fold_right Qplus 0%Q (map (fun i0 => (nth i0 v 0 * nth i0 (column j (kd_kernel l)) 0)%Q) (seq 0 n))) in *.
    setoid_replace (SA + p_s p * sk * inject_Z (nth j bv 0%Z) - (SB + bias_at l j))%Q
      with ((SA - SB) + (p_s p * sk * inject_Z (nth j bv 0%Z) - bias_at l j))%Q by ring.
    eapply Qle_trans; [apply Qabs_triangle|]. lra. }
  apply (clip_nonexp po) in D. unfold fbound_fc.
  setoid_replace (value po (nth j y 0%Z) - clip po t)%Q with ((value po (nth j y 0%Z) - clip po r) + (clip po r - clip po t))%Q by ring.
  eapply Qle_trans; [apply Qabs_triangle|]. lra.
Qed.
Lemma op_lut p n op i ir T f L D po kd : (0 < n)%nat ->
    is_type op kd -> kd = KTanhLUT \/ kd = KSigmoidLUT -> fb_in (jo_body op) = i :: ir ->
    fn_lut i = Some (mklutj (Some T) None (Some (- gmin (p_d p)))) -> (0 <= L)%Q -> table_for p po T f L D ->
  op_step p n op po n (map f) (fun e => L * e + D)%Q.
Proof.
  intros N0 Ty Kd Ei El L0 HT. destruct (step_lut p n op i ir (- gmin (p_d p)) T f L D po kd Ty Kd Ei El L0 HT) as (ly & Bly & Rly).
  exists ly. split; [exact Bly|]. intros X NE HX. apply Rly; [apply (rows_concat p n X N0 NE HX)|exact HX].
Qed.

(** ** The exported file *)
Definition nofnode : fnode := mkfn NaN 0 [] PNone None.
(** parameters a node of a file carries *)
Definition par (f : fnode) : params :=
  mkpar (match fn_scale f with Fin s => s | _ => 0%Q end) (fn_zp f)
        (match parse_dtype (fn_dtype f) with Ok q => q | Err _ => {| gmin := 0; gmax := 0; grepr := [] |} end).
Definition in_par (op : jop fbody) (i : nat) : params := par (nth i (fb_in (jo_body op)) nofnode).
Definition out_par (op : jop fbody) : params := par (hd nofnode (fb_out (jo_body op))).
Lemma par_is f p : node_is f p -> par f = p.
Proof. intros (A & B & C). unfold par. rewrite A, B, C. now destruct p. Qed.
(** Conditions on the fully connected operators of the file: scales and multiplier in range, no bias code at the end of its range, worst
    case accumulators of 32 bits. *)
Definition ffc_ok (op : jop fbody) : Prop :=
  forall W bv, map fn_tensor (skipn 1 (fb_in (jo_body op))) = [PMat W; PVec bv] ->
    let si := p_s (in_par op 0) in let sk := p_s (in_par op 1) in let so := p_s (out_par op) in
    let di := p_d (in_par op 0) in let dk := p_d (in_par op 1) in let db := p_d (in_par op 2) in
    (two_to (-1022) <= si * sk <= two_to 1022)%Q /\ ((1000001 # 1000000000000) <= si * sk / so)%Q /\ (si * sk / so < inject_Z (2 ^ 30 - 1))%Q /\
    forall v, In v bv -> gmin db < v < gmax db /\
      Z.of_nat (length (hd [] W)) * ((gmax di - gmin di) * Z.max (gmax dk) (- gmin dk)) + Z.abs v <= 2 ^ 31.
(** Layers the theorems speak about *)
Definition fgood (c : qcfg) (k : Z) (l : fdense) : Prop :=
  (mem (upper (kd_act (fd_layer l))) SKIP_FUNCTIONS = true \/ table_act (fd_layer l)) /\
  exists d qk q qb, layer_cfg c (kd_name (fd_layer l)) = CDense d /\ good_cfg d qk q qb /\ codes_fit qk k /\ codes_fit q k.
Fixpoint fdenses (ls : list flyr) : list fdense :=
  match ls with [] => [] | FDense l :: r => l :: fdenses r | FSkip :: r => fdenses r end.
(** the reported range of a layer's pre-activation, after the cut of a fused ReLU *)
Definition fits_cut (f1 f2 : fmt) (k : Z) (act : chars) (a : list Q) : Prop :=
  exists d d' lo hi, calibrate a = Ok d /\ fused_trim (fused_of act) d = Ok d' /\ reports d' lo hi /\ fit_range f1 f2 k lo hi.
(** every tensor the quantizer calibrates can be calibrated *)
Fixpoint tame_net (f1 f2 : fmt) (k : Z) (ls : list fdense) (data : list (list Q)) : Prop :=
  match ls with
  | [] => True
  | l :: r =>
      let pre := fd_pre l data in
      tame f1 f2 k (concat (kd_w (fd_layer l))) /\ fits_cut f1 f2 k (kd_act (fd_layer l)) (concat pre) /\
      (if is_table (fd_layer l) then tame f1 f2 k (concat (fd_post l pre)) /\ tame_net f1 f2 k r (fd_post l pre)
       else tame_net f1 f2 k r pre)
  end.
(** The real network with the saturation of the file's nodes. *)
Fixpoint sat_net (ls : list fdense) (g : list (jop fbody)) (v : list Q) : list Q :=
  match ls, g with
  | l :: ls', op :: g' =>
      let v1 := map (clip (out_par op)) (affine (fd_layer l) v) in
      if is_table (fd_layer l) then
        match g' with
        | a :: g'' => sat_net ls' g'' (map (fun x => clip (out_par a) (kd_fn (fd_layer l) x)) v1)
        | [] => v1
        end
      else sat_net ls' g' v1
  | _, _ => v
  end.
(** error of a table operator *)
Definition fbound_table (L eta si so : Q) (k : Z) (e : Q) : Q :=
  (L * e + (L * (si * two_to (k - 52)) + eta + so * ((1#2) + two_to (k - 49) + 1)))%Q.
Fixpoint fbound (b k : Z) (c : qcfg) (L eta : fdense -> Q) (ls : list fdense) (g : list (jop fbody)) (n : nat) (e : Q) : Q :=
  match ls, g with
  | l :: ls', op :: g' =>
      let e1 := fbound_fc (fd_layer l) (kstep b k (sym_of c (fd_layer l))) (p_s (in_par op 0)) (p_s (in_par op 1)) (p_s (out_par op)) n (span (in_par op 0)) e in
      if is_table (fd_layer l) then
        match g' with
        | a :: g'' => fbound b k c L eta ls' g'' (kd_units (fd_layer l)) (fbound_table (L l) (eta l) (p_s (out_par op)) (p_s (out_par a)) k e1)
        | [] => e1
        end
      else fbound b k c L eta ls' g' (kd_units (fd_layer l)) e1
  | _, _ => e
  end.

(** ** One layer of the exported file *)
Lemma tame_cal f1 f2 k a : tame f1 f2 k a -> exists d, calibrate a = Ok d.
Proof. intros [(x & y & Hx & Hy & L) _ _ _]. destruct (C28_unsliced_range _ 512 true x y ltac:(lia) Hx Hy L) as (d & _ & _ & E & _). now exists d. Qed.
Lemma skip_facts l : mem (upper (kd_act l)) SKIP_FUNCTIONS = true -> is_table l = false.
Proof.
  unfold is_table. intros H. cbn [mem existsb SKIP_FUNCTIONS] in H. rewrite !orb_true_iff in H.
  destruct H as [H|[H|[H|[H|H]]]]; [| | | |discriminate]; apply chars_eqb_eq in H; rewrite H; reflexivity.
Qed.
Lemma parse_grepr s q : parse_dtype s = Ok q -> parse_dtype (grepr q) = Ok q.
Proof. intros H. exact (proj2 (C06_str_roundtrip _ _ H)). Qed.
Lemma fnode_is s z q0 t : parse_dtype (grepr q0) = Ok q0 -> node_is (fnode_of (s, z) q0 t) (mkpar s z q0).
Proof. intros H. split; [reflexivity|]. split; [reflexivity|exact H]. Qed.
Lemma wsum_pos l : (0 <= wsum l)%Q.
Proof. unfold wsum. induction (map _ _) as [|x r IH]; cbn [fold_right]; [discriminate|]. eapply Qle_trans; [exact IH|apply Q.le_max_r]. Qed.
Lemma kstep_pos b k sym : 0 <= k -> (0 <= kstep b k sym)%Q.
Proof.
  intros K. unfold kstep. pose proof (Qlt_le_weak _ _ (pow2_pos (k - 47))). pose proof (Qlt_le_weak _ _ (pow2_pos (k + 1 - b))).
  change (two_to (k - 47)) with (pow2 (k - 47)). change (two_to (k + 1 - b)) with (pow2 (k + 1 - b)). destruct sym; lra.
Qed.
Lemma fbound_fc_pos l ek si sk so n ri e : (0 <= ek)%Q -> (0 < si)%Q -> (0 < sk)%Q -> (0 < so)%Q -> (0 <= ri)%Q -> (0 <= e)%Q -> (0 <= fbound_fc l ek si sk so n ri e)%Q.
Proof.
  intros A B C D E F. unfold fbound_fc.
  assert (X1 : (0 <= wsum l * e)%Q) by (apply Qmult_le_0_compat; [apply wsum_pos|exact F]).
  assert (X2 : (0 <= inject_Z (Z.of_nat n) * (ri * (sk * ek)))%Q).
  { apply Qmult_le_0_compat; [change 0%Q with (inject_Z 0); apply (proj1 (Zle_inj _ _)); lia|]. apply Qmult_le_0_compat; [exact E|]. apply Qmult_le_0_compat; lra. }
  assert (X3 : (0 <= si * sk)%Q) by (apply Qmult_le_0_compat; lra).
  assert (X4 : (0 <= si * sk * ((1#2) + two_to (-17)))%Q) by (apply Qmult_le_0_compat; [exact X3|vm_compute; discriminate]).
  assert (X5 : (0 <= si * sk * (1 + (1 # 2 ^ 19)))%Q) by (apply Qmult_le_0_compat; [exact X3|vm_compute; discriminate]).
  lra.
Qed.
Lemma span_pos p : (0 < p_s p)%Q -> narrow (p_d p) -> (0 <= span p)%Q.
Proof.
  intros P (_ & N & _). unfold span. apply Qmult_le_0_compat; [lra|]. change 0%Q with (inject_Z 0). apply (proj1 (Zle_inj _ _)). lia.
Qed.
Lemma fbound_table_pos L eta si so k e : (0 <= L)%Q -> (0 <= eta)%Q -> (0 < si)%Q -> (0 < so)%Q -> (0 <= e)%Q -> (0 <= fbound_table L eta si so k e)%Q.
Proof.
  intros A B C D E. unfold fbound_table. pose proof (Qlt_le_weak _ _ (pow2_pos (k - 52))). pose proof (Qlt_le_weak _ _ (pow2_pos (k - 49))).
  change (two_to (k - 52)) with (pow2 (k - 52)). change (two_to (k - 49)) with (pow2 (k - 49)).
  assert (0 <= L * e)%Q by (apply Qmult_le_0_compat; assumption).
  assert (0 <= L * (si * pow2 (k - 52)))%Q by (apply Qmult_le_0_compat; [assumption|apply Qmult_le_0_compat; lra]).
  assert (0 <= so * ((1#2) + pow2 (k - 49) + 1))%Q by (apply Qmult_le_0_compat; lra). lra.
Qed.
(** the fully connected operator the exporter writes *)
Definition ffc_op (l : fdense) (inp kn b o : fnode) : jop fbody :=
  mkjop (str "FULLY_CONNECTED") (str "fully_connected " ++ kd_name (fd_layer l)) (mkfb [inp; kn; b] [o]).
(** nodes and operators of an exported layer *)
Definition layer_export (l : fdense) (b k : Z) (sym : bool) (qk q qb : gdtype) (inp : fnode) (ops : list (jop fbody)) (out : fnode) : Prop :=
  exists sk m s z, (0 < sk)%Q /\ Forall2 (Forall2 (fun c x => in_dtype qk c /\ (Qabs (sk * inject_Z c - x) <= sk * kstep b k sym)%Q)) m (kd_w (fd_layer l)) /\
    proper (mkpar s z q) k /\
    let kn := fnode_of (sk, 0) qk (PMat m) in
    let bn := fquant_bias qb (fn_scale inp) (Fin sk) (kd_b (fd_layer l)) in
    let ba := fnode_of (s, z) q PNone in
    if is_table (fd_layer l) then
      exists s2 z2, proper (mkpar s2 z2 q) k /\
        let ba' := fattach_lut ba q (fd_g l) (Fin s2) z2 in
        out = fnode_of (s2, z2) q PNone /\
        ops = [ffc_op l inp kn bn ba'; mkjop (upper (kd_act (fd_layer l)) ++ str "LUT") (upper (kd_act (fd_layer l)) ++ str "LUT") (mkfb [ba'] [out])]
    else out = ba /\ ops = [ffc_op l inp kn bn ba].
Definition next_data (l : fdense) (data : list (list Q)) : list (list Q) :=
  if is_table (fd_layer l) then fd_post l (fd_pre l data) else fd_pre l data.
Lemma layer_exports f1 f2 k c l inp data d qk q qb : ieee f1 -> ieee f2 -> 0 <= k <= 17 -> k + 6 <= bits f1 f2 ->
  layer_cfg c (kd_name (fd_layer l)) = CDense d -> good_cfg d qk q qb -> codes_fit qk k -> codes_fit q k ->
  (mem (upper (kd_act (fd_layer l))) SKIP_FUNCTIONS = true \/ table_act (fd_layer l)) ->
  tame f1 f2 k (concat (kd_w (fd_layer l))) -> fits_cut f1 f2 k (kd_act (fd_layer l)) (concat (fd_pre l data)) ->
  (is_table (fd_layer l) = true -> tame f1 f2 k (concat (fd_post l (fd_pre l data)))) ->
  exists ops out, fpipe_dense f1 f2 (layer_cfg c (kd_name (fd_layer l))) l inp data = Ok (ops, out, next_data l data) /\
    layer_export l (bits f1 f2) k (d_sym d) qk q qb inp ops out.
Proof.
  intros I1 I2 K KB EC G Ck Cq HA TW TC TP. rewrite EC. destruct G as [Gopt Gk Ga Gba Gb Nk N Nb Gpos Gsym].
  destruct (kernel_f_ok f1 f2 k qk (d_sym d) (kd_w (fd_layer l)) I1 I2 K KB Nk Ck Gpos Gsym TW) as (sk & m & EK & Psk & FM).
  destruct TC as (dd & d' & lo & hi & E1 & E2 & RP & FR).
  destruct (calibrated_rep f1 f2 k q d' lo hi I1 I2 K KB N Cq RP FR) as (s & z & E3 & PR & _).
  unfold fpipe_dense. rewrite Gk, Ga, Gba, Gb. cbn [rbind]. rewrite EK. cbn [rbind]. cbv zeta.
  unfold fquant_bias_add. rewrite E1. cbn [rbind]. rewrite E2. cbn [rbind]. rewrite E3. cbn [rbind]. rewrite Gopt.
  unfold fquant_activation, next_data. destruct HA as [HP|HT].
  - rewrite (skip_facts _ HP), HP. cbn [rbind]. eexists _, _. split; [reflexivity|].
    exists sk, m, s, z. split; [exact Psk|]. split; [exact FM|]. split; [exact PR|]. cbv zeta. rewrite (skip_facts _ HP). split; reflexivity.
  - destruct (table_facts (fd_layer l) HT) as (T1 & T2 & T3 & _). rewrite T2. specialize (TP T1). destruct (tame_cal _ _ _ _ TP) as (d2 & E4).
    destruct (calibrated f1 f2 k q _ d2 I1 I2 K KB N Cq TP E4) as (s2 & z2 & E5 & PR2 & _).
    cbv zeta. rewrite E4. cbn [rbind]. rewrite E5. cbn [rbind]. rewrite T3, T1.
    eexists _, _. split; [reflexivity|].
    exists sk, m, s, z. split; [exact Psk|]. split; [exact FM|]. split; [exact PR|]. cbv zeta. rewrite T1.
    exists s2, z2. split; [exact PR2|]. split; reflexivity.
Qed.
Lemma F2_weak {A B} (P R : A -> B -> Prop) x y : (forall a b, P a b -> R a b) -> Forall2 P x y -> Forall2 R x y.
Proof. intros H. induction 1; constructor; auto. Qed.
(** the conditions on the activations: [fd_g] computes [kd_fn] within [eta], and [kd_fn] is [L]-Lipschitz *)
Definition act_ok (L eta : fdense -> Q) (l : fdense) : Prop :=
  is_table (fd_layer l) = true -> computes (fd_g l) (kd_fn (fd_layer l)) (eta l) /\ lipschitz1 (kd_fn (fd_layer l)) (L l) /\ (0 <= L l)%Q.
Lemma layer_fc l b k sym qk qb inp o p po n sk m : 0 <= k ->
  parse_dtype (grepr qk) = Ok qk -> parse_dtype (grepr qb) = Ok qb -> within_int32 qb ->
  (0 < sk)%Q -> Forall2 (Forall2 (fun c x => in_dtype qk c /\ (Qabs (sk * inject_Z c - x) <= sk * kstep b k sym)%Q)) m (kd_w (fd_layer l)) ->
  node_is inp p -> proper p k -> node_is o po -> proper po k -> layer_shaped n (fd_layer l) ->
  let op := ffc_op l inp (fnode_of (sk, 0) qk (PMat m)) (fquant_bias qb (fn_scale inp) (Fin sk) (kd_b (fd_layer l))) o in
  ffc_ok op ->
  in_par op 0 = p /\ p_s (in_par op 1) = sk /\ out_par op = po /\
  op_step p n op po (kd_units (fd_layer l)) (fun v => map (clip po) (affine (fd_layer l) v))
    (fbound_fc (fd_layer l) (kstep b k sym) (p_s p) sk (p_s po) n (span p)).
Proof.
  intros K Pk Pb Nb Psk FM Ni (Up & Zp & Np) No (Uo & Zo & Npo) Sh op OK.
  assert (E0 : in_par op 0 = p) by (apply par_is; exact Ni).
  assert (E1 : in_par op 1 = mkpar sk 0 qk) by (apply par_is; apply fnode_is; exact Pk).
  assert (E2 : p_d (in_par op 2) = qb) by (unfold in_par, par; cbn [op ffc_op jo_body fb_in nth fquant_bias fn_dtype p_d]; rewrite Pb; reflexivity).
  assert (E3 : out_par op = po) by (apply par_is; exact No).
  split; [exact E0|]. split; [rewrite E1; reflexivity|]. split; [exact E3|].
  set (bv := map (fun x => quantf1 qb 0 (fmul (fn_scale inp) (Fin sk)) (Fin x)) (kd_b (fd_layer l))).
  destruct (OK m bv eq_refl) as (R & M1 & M2 & BV). rewrite E0, E1, E2, ?E3 in *. cbn [p_s p_d] in *.
  destruct Ni as (S1 & Z1 & D1).
  pose proof Up as (U1 & U2 & U3 & U4 & U5 & U6). pose proof Uo as (V1 & V2 & V3 & V4 & V5 & V6).
  assert (Lb : length bv = kd_units (fd_layer l)) by (unfold bv; rewrite map_length; apply (kd_b_length n), Sh).
  pose proof Sh as (N0 & U0 & Lk & Lr & _).
  assert (Lm : length m = kd_units (fd_layer l)) by (rewrite (F2_length _ _ _ FM); apply kd_w_length).
  assert (Col : forall j, (j < kd_units (fd_layer l))%nat -> Forall2 (fun c x => in_dtype qk c /\ (Qabs (sk * inject_Z c - x) <= sk * kstep b k sym)%Q) (nth j m []) (column j (kd_kernel (fd_layer l)))).
  { intros j Hj. rewrite <- (kd_w_nth (fd_layer l) j [] Hj). apply (F2_nth _ _ _ [] [] FM). rewrite kd_w_length. exact Hj. }
  assert (Lrow : forall j, (j < kd_units (fd_layer l))%nat -> length (nth j m []) = n).
  { intros j Hj. rewrite (F2_length _ _ _ (Col j Hj)). unfold column. rewrite map_length. exact Lk. }
  apply (op_fc (fd_layer l) p n op inp (fnode_of (sk, 0) qk (PMat m)) (fquant_bias qb (fn_scale inp) (Fin sk) (kd_b (fd_layer l))) o m bv sk 0 po (kstep b k sym)).
  - reflexivity.
  - reflexivity.
  - reflexivity.
  - exact S1.
  - exact Z1.
  - reflexivity.
  - reflexivity.
  - exact No.
  - reflexivity.
  - reflexivity.
  - reflexivity.
  - exact Sh.
  - exact Zp.
  - now apply kstep_pos.
  - revert FM. apply F2_weak. intros r x. apply F2_weak. intros c y H. apply H.
  - exact Lb.
  - intros j Hj.
    assert (Hb : (j < length (kd_b (fd_layer l)))%nat) by (rewrite (kd_b_length n _ Sh); exact Hj).
    assert (EQ : nth j bv 0 = quantf1 qb 0 (fmul (Fin (p_s p)) (Fin sk)) (Fin (bias_at (fd_layer l) j))).
    { unfold bv. rewrite S1. rewrite (nth_indep _ 0 (quantf1 qb 0 (fmul (Fin (p_s p)) (Fin sk)) (Fin 0))) by (rewrite map_length; exact Hb).
      rewrite (map_nth (fun x => quantf1 qb 0 (fmul (Fin (p_s p)) (Fin sk)) (Fin x))). now rewrite (kd_b_nth n _ j Sh Hj). }
    assert (Hv : In (nth j bv 0) bv) by (apply nth_In; rewrite Lb; exact Hj).
    destruct (BV _ Hv) as [Hc _]. rewrite EQ in Hc |- *.
    exact (bias_f_err qb (p_s p) sk (bias_at (fd_layer l) j) Nb R U5 Psk Hc).
  - exact U5.
  - exact Psk.
  - exact V5.
  - exact R.
  - exact M1.
  - exact M2.
  - destruct Npo as (_ & G & _). lia.
  - destruct V1 as (G1 & G2 & _). unfold in_dtype in Zo. destruct V3 as (K3 & G3 & G4 & G5).
    assert (2 ^ k <= 2 ^ 40) by (apply Z.pow_le_mono_r; lia). lia.
  - intros x j (Lx & Fx) Hj. rewrite Lm in Hj. assert (Hj' : (j < length bv)%nat) by lia.
    destruct (BV _ (nth_In _ 0 Hj')) as [_ Ac]. eapply Z.le_trans; [apply (PipeProofs.acc_bound (p_d p) (p_z p) x (nth j m []) (Z.max (gmax qk) (- gmin qk)))|].
    + exact Zp.
    + rewrite Forall_forall in Fx. exact Fx.
    + intros v Hv. apply (In_nth _ _ 0) in Hv as (i & Hi & <-). rewrite (F2_length _ _ _ (Col j Hj)) in Hi.
      destruct (F2_nth _ _ _ 0 0%Q (Col j Hj) i Hi) as [[C1 C2] _]. lia.
    + rewrite Lx. now apply Lrow.
    + rewrite Lx. assert (Eh : length (hd [] m) = n).
      { destruct m as [|r m']; [cbn [length] in Lm; lia|]. cbn [hd]. exact (Lrow 0%nat ltac:(lia)). }
      rewrite Eh in Ac. exact Ac.
Qed.
Lemma steps_ext p n ops po no F B F' B' : steps p n ops po no F B -> F' = F -> B' = B -> steps p n ops po no F' B'.
Proof. intros H -> ->. exact H. Qed.
(** An exported layer in front of a file: the real function is the saturated layer, the error the bound of the layer. *)
Lemma layer_steps f1 f2 c l d k qk q qb inp ops out p n : ieee f1 -> ieee f2 -> 0 <= k ->
  layer_cfg c (kd_name (fd_layer l)) = CDense d -> good_cfg d qk q qb ->
  (mem (upper (kd_act (fd_layer l))) SKIP_FUNCTIONS = true \/ table_act (fd_layer l)) ->
  layer_export l (bits f1 f2) k (d_sym d) qk q qb inp ops out -> node_is inp p -> proper p k -> layer_shaped n (fd_layer l) ->
  exists po, node_is out po /\ proper po k /\
    forall L eta, act_ok L eta l -> Forall ffc_ok ops ->
      (forall ls rest v, sat_net (l :: ls) (ops ++ rest) v = sat_net ls rest (sat_net [l] ops v)) /\
      (forall ls rest e, fbound (bits f1 f2) k c L eta (l :: ls) (ops ++ rest) n e =
         fbound (bits f1 f2) k c L eta ls rest (kd_units (fd_layer l)) (fbound (bits f1 f2) k c L eta [l] ops n e)) /\
      forall rest p' n' F B, steps po (kd_units (fd_layer l)) rest p' n' F B ->
        exists F' B', steps p n (ops ++ rest) p' n' F' B' /\ (forall v, F' v = F (sat_net [l] ops v)) /\
          (forall e, B' e = B (fbound (bits f1 f2) k c L eta [l] ops n e)).
Proof.
  intros I1 I2 K EC G HA (sk & m & s & z & Psk & FM & PR & EX) Ni Pp Sh. cbv zeta in EX.
  destruct G as [Gopt Gk Ga Gba Gb Nk N Nb Gpos Gsym].
  assert (SY : sym_of c (fd_layer l) = d_sym d) by (unfold sym_of; rewrite EC; reflexivity).
  pose proof (parse_grepr _ _ Gk) as Pk. pose proof (parse_grepr _ _ Ga) as Pq. pose proof (parse_grepr _ _ Gb) as Pb.
  pose proof Sh as (N0 & U0 & _).
  pose proof Pp as (Up & Zp & Np). pose proof Up as (_ & _ & _ & _ & Pos & _). pose proof PR as (Uo & Zo & No). pose proof Uo as (_ & _ & _ & _ & Poso & _).
  set (po := mkpar s z q) in *.
  destruct (is_table (fd_layer l)) eqn:IT.
  - destruct EX as (s2 & z2 & PR2 & -> & ->). set (po2 := mkpar s2 z2 q) in *. exists po2.
    assert (N2 : node_is (fnode_of (s2, z2) q PNone) po2) by (apply fnode_is; exact Pq).
    split; [exact N2|]. split; [exact PR2|]. intros L eta HL OK.
    pose proof PR2 as (Uo2 & Zo2 & No2). pose proof Uo2 as (_ & _ & _ & _ & Poso2 & _).
    set (o1 := fattach_lut (fnode_of (s, z) q PNone) q (fd_g l) (Fin s2) z2) in *.
    assert (N1 : node_is o1 po) by (split; [reflexivity|split; [reflexivity|exact Pq]]).
    inversion OK as [|? ? OK1 _]; subst.
    destruct (layer_fc l (bits f1 f2) k (d_sym d) qk qb inp o1 p po n sk m K Pk Pb Nb Psk FM Ni Pp N1 PR Sh OK1) as (E0 & E1 & E2 & ST).
    set (op := ffc_op _ _ _ _ _) in *. set (op2 := mkjop _ _ (mkfb [o1] _)).
    assert (E3 : out_par op2 = po2) by (apply par_is; exact N2).
    destruct (HL IT) as (Cg & Li & L0).
    assert (Eta : (0 <= eta l)%Q) by (destruct (Cg 0%Q) as (y & _ & Hy); eapply Qle_trans; [apply Qabs_nonneg|exact Hy]).
    split; [|split].
    + intros ls rest v. cbn [app sat_net]. rewrite IT. reflexivity.
    + intros ls rest e. cbn [app fbound]. rewrite IT. reflexivity.
    + intros rest p' n' F B HS.
      pose proof (C75_node_table po k po2 k (fd_g l) (kd_fn (fd_layer l)) (eta l) (L l) Uo Uo2 eq_refl Cg Li L0) as TF.
      assert (HT : table_act (fd_layer l)) by (destruct HA as [HP|HT]; [rewrite (skip_facts _ HP) in IT; discriminate|exact HT]).
      destruct (table_facts (fd_layer l) HT) as (_ & _ & _ & _ & kd & Kd & Kd2).
      pose proof (op_lut po (kd_units (fd_layer l)) op2 o1 [] _ (fun a => clip po2 (kd_fn (fd_layer l) a)) (L l) _ po2 kd U0 Kd Kd2 eq_refl eq_refl L0 TF) as ST2.
      eexists _, _. split; [|split].
      * cbn [app]. eapply (steps_cons p n op po (kd_units (fd_layer l))); [exact ST|exact U0| |].
        -- intros e He. apply fbound_fc_pos; try assumption; [now apply kstep_pos|]. now apply span_pos.
        -- eapply (steps_cons po (kd_units (fd_layer l)) op2 po2 (kd_units (fd_layer l))); [exact ST2|exact U0| |exact HS].
           intros e He. exact (fbound_table_pos (L l) (eta l) s s2 k e L0 Eta Poso Poso2 He).
      * intros v. cbn beta. cbn [sat_net]. rewrite IT, E2, E3. reflexivity.
      * intros e. cbn beta. cbn [fbound]. rewrite IT, E0, E1, E2, E3, SY. reflexivity.
  - destruct EX as (-> & ->). exists po.
    assert (N1 : node_is (fnode_of (s, z) q PNone) po) by (apply fnode_is; exact Pq).
    split; [exact N1|]. split; [exact PR|]. intros L eta HL OK. inversion OK as [|? ? OK1 _]; subst.
    destruct (layer_fc l (bits f1 f2) k (d_sym d) qk qb inp _ p po n sk m K Pk Pb Nb Psk FM Ni Pp N1 PR Sh OK1) as (E0 & E1 & E2 & ST).
    set (op := ffc_op _ _ _ _ _) in *.
    split; [|split].
    + intros ls rest v. cbn [app sat_net]. rewrite IT. reflexivity.
    + intros ls rest e. cbn [app fbound]. rewrite IT. reflexivity.
    + intros rest p' n' F B HS. eexists _, _. split; [|split].
      * cbn [app]. eapply (steps_cons p n op po (kd_units (fd_layer l))); [exact ST|exact U0| |exact HS].
        intros e He. apply fbound_fc_pos; try assumption; [now apply kstep_pos|]. now apply span_pos.
      * intros v. cbn beta. cbn [sat_net]. rewrite IT, E2. reflexivity.
      * intros e. cbn beta. cbn [fbound]. rewrite IT, E0, E1, E2, SY. reflexivity.
Qed.
(** ** All layers *)
Definition out_width (n : nat) (ls : list fdense) : nat := fold_left (fun _ l => kd_units (fd_layer l)) ls n.
Lemma layers_steps f1 f2 c k : ieee f1 -> ieee f2 -> 0 <= k <= 17 -> k + 6 <= bits f1 f2 -> forall ls n inp data p,
  shaped n (map fd_layer (fdenses ls)) -> Forall (fgood c k) (fdenses ls) -> tame_net f1 f2 k (fdenses ls) data -> node_is inp p -> proper p k ->
  exists ops out po, fpipe_layers f1 f2 c ls inp data = Ok (ops, out) /\ node_is out po /\ proper po k /\
    length ops = op_count (map fd_layer (fdenses ls)) /\
    forall L eta, Forall (act_ok L eta) (fdenses ls) -> Forall ffc_ok ops ->
      exists F B, steps p n ops po (out_width n (fdenses ls)) F B /\ (forall v, F v = sat_net (fdenses ls) ops v) /\
        (forall e, B e = fbound (bits f1 f2) k c L eta (fdenses ls) ops n e).
Proof.
  intros I1 I2 K KB. induction ls as [|ly ls IH]; intros n inp data p Sh G T Ni Pp.
  - exists [], inp, p. split; [reflexivity|]. split; [exact Ni|]. split; [exact Pp|]. split; [reflexivity|].
    intros L eta _ _. exists (fun v => v), (fun e => e). split; [constructor|]. split; reflexivity.
  - destruct ly as [l|]; [|exact (IH n inp data p Sh G T Ni Pp)]. cbn [fdenses] in *. cbn [map] in Sh.
    apply shaped_layer in Sh as (SL & SR & _). inversion G as [|? ? (HA & d & qk & q & qb & EC & GC & Ck & Cq) GR]; subst.
    cbn [tame_net] in T. cbv zeta in T. destruct T as (TW & TC & TR).
    assert (T2 : (is_table (fd_layer l) = true -> tame f1 f2 k (concat (fd_post l (fd_pre l data)))) /\ tame_net f1 f2 k (fdenses ls) (next_data l data)).
    { unfold next_data. destruct (is_table (fd_layer l)); [destruct TR as (A & B); split; [intros _; exact A|exact B]|split; [discriminate|exact TR]]. }
    destruct T2 as (TP & TN).
    destruct (layer_exports f1 f2 k c l inp data d qk q qb I1 I2 K KB EC GC Ck Cq HA TW TC TP) as (ops & out & PD & EX).
    destruct (layer_steps f1 f2 c l d k qk q qb inp ops out p n I1 I2 ltac:(lia) EC GC HA EX Ni Pp SL) as (po & No & Pro & HS).
    destruct (IH (kd_units (fd_layer l)) out (next_data l data) po SR GR TN No Pro) as (ops2 & out2 & po2 & PL & No2 & Pro2 & CNT & HL).
    exists (ops ++ ops2), out2, po2. split; [cbn [fpipe_layers]; rewrite PD; cbn [rbind]; rewrite PL; reflexivity|].
    split; [exact No2|]. split; [exact Pro2|]. split.
    { rewrite app_length, CNT. unfold op_count. cbn [map fold_right]. f_equal.
      destruct EX as (sk & m & s & z & _ & _ & _ & EX). cbv zeta in EX. destruct (is_table (fd_layer l)).
      - destruct EX as (s2 & z2 & _ & _ & ->). reflexivity.
      - destruct EX as (_ & ->). reflexivity. }
    intros L eta A OK. apply Forall_app_inv in OK as [OK1 OK2]. inversion A as [|? ? A1 A2]; subst.
    destruct (HS L eta A1 OK1) as (Q1 & Q2 & Q3). destruct (HL L eta A2 OK2) as (F & B & S2 & EF & EB).
    destruct (Q3 ops2 po2 _ F B S2) as (F' & B' & S3 & EF' & EB').
    exists F', B'. split; [exact S3|]. split; [intros v|intros e].
    + rewrite EF', EF, Q1. reflexivity.
    + rewrite EB', EB, Q2. reflexivity.
Qed.
