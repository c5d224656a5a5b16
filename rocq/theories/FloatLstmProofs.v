(** Rounding errors of the LSTM layer's float expressions (for PropFloatLstm.v) *)
From Verif Require Import Base BaseProofs DtypeModel QuantModel QuantProofs LutModel FcModel FcProofs FcLayer EngineModel LstmModel PropCore
  FloatModel FloatProofs FloatQuant PropFloat FloatFcModel PropFloatFc LstmProofs PropLstm FloatLstmModel.
From Coq Require Import Lqa Qpower.
Open Scope Z_scope.
Open Scope list_scope.

Definition u53 : Q := 1 # 9007199254740992.
Lemma u53_pow : (pow2 (-53) == u53)%Q. Proof. vm_compute. reflexivity. Qed.
Lemma u53_pos : (0 < u53)%Q. Proof. reflexivity. Qed.

(** x in [2^-k, 2^k] *)
Definition posrange (k : Z) (x : Q) : Prop := (pow2 (- k) <= x <= pow2 k)%Q.
Lemma posrange_pos k x : posrange k x -> (0 < x)%Q.
Proof. intros [A _]. eapply Qlt_le_trans; [apply pow2_pos|exact A]. Qed.
Lemma posrange_mul a b x y : posrange a x -> posrange b y -> posrange (a + b) (x * y).
Proof.
  intros HX HY. pose proof (posrange_pos _ _ HX). pose proof (posrange_pos _ _ HY). destruct HX as [A B], HY as [C D]. split.
  - replace (- (a + b)) with (- a + - b) by lia. rewrite pow2_plus. pose proof (pow2_pos (- b)).
    apply Qle_trans with (x * pow2 (- b))%Q; [apply Qmult_le_compat_r; [exact A|lra]|]. rewrite !(Qmult_comm x). apply Qmult_le_compat_r; [exact C|lra].
  - rewrite pow2_plus. pose proof (pow2_pos a). apply Qle_trans with (pow2 a * y)%Q; [apply Qmult_le_compat_r; [exact B|lra]|].
    rewrite !(Qmult_comm (pow2 a)). apply Qmult_le_compat_r; [exact D|lra].
Qed.
Lemma posrange_inv a x : posrange a x -> posrange a (/ x).
Proof.
  intros HX. pose proof (posrange_pos _ _ HX) as P. destruct HX as [A B]. assert (E : (pow2 (- a) * pow2 a == 1)%Q).
  { rewrite <- pow2_plus. replace (- a + a) with 0 by lia. reflexivity. }
  pose proof (pow2_pos a). pose proof (pow2_pos (- a)). split.
  - rewrite <- (Qmult_1_l (/ x)). apply Qle_shift_div_l; [exact P|]. rewrite <- E. rewrite !(Qmult_comm (pow2 (- a))). apply Qmult_le_compat_r; lra.
  - rewrite <- (Qmult_1_l (/ x)). apply Qle_shift_div_r; [exact P|]. rewrite <- E. rewrite (Qmult_comm (pow2 (- a))). rewrite !(Qmult_comm (pow2 a)). apply Qmult_le_compat_r; lra.
Qed.
Lemma posrange_div a b x y : posrange a x -> posrange b y -> posrange (a + b) (x / y).
Proof. intros HX HY. apply posrange_mul; [exact HX|now apply posrange_inv]. Qed.
Lemma posrange_weaken a b x : a <= b -> posrange a x -> posrange b x.
Proof.
  intros L [A B]. split; [eapply Qle_trans; [|exact A]|eapply Qle_trans; [exact B|]]; apply pow2_mono; lia.
Qed.

(** [a] is a finite double within a relative [e] of x, or within an absolute [d] *)
Definition near (a : f64) (x e : Q) : Prop := exists y, a = Fin y /\ rep64 y /\ (Qabs (y - x) <= e * Qabs x)%Q.
Definition absn (a : f64) (x d : Q) : Prop := exists y, a = Fin y /\ rep64 y /\ (Qabs (y - x) <= d)%Q.
Lemma near_abs a x e : near a x e -> absn a x (e * Qabs x).
Proof. intros H. exact H. Qed.
Lemma near_weaken a x e e' : (e <= e')%Q -> near a x e -> near a x e'.
Proof.
  intros L (y & A & B & C). exists y. split; [exact A|]. split; [exact B|]. eapply Qle_trans; [exact C|]. apply Qmult_le_compat_r; [exact L|apply Qabs_nonneg].
Qed.
Lemma near_comp a x y e : (x == y)%Q -> near a x e -> near a y e.
Proof. intros E (v & A & B & C). exists v. rewrite <- E. auto. Qed.
Lemma absn_weaken a x d d' : (d <= d')%Q -> absn a x d -> absn a x d'.
Proof. intros L (y & A & B & C). exists y. split; [exact A|]. split; [exact B|]. lra. Qed.
Lemma near_scale s : double s -> near (Fin s) s 0.
Proof. intros D. exists s. split; [reflexivity|]. split; [now apply double_rep|]. setoid_replace (s - s)%Q with 0%Q by ring. rewrite Qmult_0_l. discriminate. Qed.
Lemma near_Z z : Z.abs z <= 2 ^ 53 -> near (f_of_Z z) (inject_Z z) 0.
Proof.
  intros H. destruct (f_of_Z_fin z H) as (q & E & Q1). exists q. split; [exact E|]. split.
  - apply (rep_comp 53 (-1074) (inject_Z z)); [symmetry; exact Q1|]. apply rep_Z; [lia|exact H].
  - rewrite Q1. setoid_replace (inject_Z z - inject_Z z)%Q with 0%Q by ring. rewrite Qmult_0_l. discriminate.
Qed.
Lemma absn_Z z : Z.abs z <= 2 ^ 53 -> absn (f_of_Z z) (inject_Z z) 0.
Proof. intros H. destruct (near_Z z H) as (y & A & B & C). exists y. rewrite Qmult_0_l in C. auto. Qed.

Lemma abs_le_of x y d : (Qabs (y - x) <= d)%Q -> (Qabs y <= Qabs x + d)%Q.
Proof. intros H. setoid_replace y with (x + (y - x))%Q at 1 by ring. eapply Qle_trans; [apply Qabs_triangle|]. lra. Qed.
Lemma pow2_1022 : (pow2 1022 * 2 == pow2 1023)%Q.
Proof. change (1023) with (1022 + 1). rewrite pow2_plus. reflexivity. Qed.

(** fl of a product by an integer *)
Lemma near_mulZ a x e z : (0 <= e <= (1#2))%Q -> near a x e -> Z.abs z <= 2 ^ 53 -> (Qabs (x * inject_Z z) <= pow2 1022)%Q ->
  near (fmul (f_of_Z z) a) (x * inject_Z z) (e + (2 * u53)) /\ near (fmul a (f_of_Z z)) (x * inject_Z z) (e + (2 * u53)).
Proof.
  intros He (y & -> & R & E) Hz B. destruct (near_Z z Hz) as (w & -> & _ & W). cbn [fmul].
  assert (EW : (w == inject_Z z)%Q).
  { rewrite Qmult_0_l in W. apply Qabs_Qle_condition in W. lra. }
  assert (EZ : (Qabs (y * inject_Z z - x * inject_Z z) <= e * Qabs (x * inject_Z z))%Q).
  { setoid_replace (y * inject_Z z - x * inject_Z z)%Q with ((y - x) * inject_Z z)%Q by ring. rewrite !Qabs_Qmult, Qmult_assoc.
    apply Qmult_le_compat_r; [exact E|apply Qabs_nonneg]. }
  assert (G : (Qabs (fl64 (y * inject_Z z) - y * inject_Z z) <= Qabs (y * inject_Z z) * u53)%Q).
  { rewrite <- u53_pow. apply (fl_rel_grid 53 (-1074) p64).
    assert (Gy : on_grid (-1074) (inject_Z z * y)) by (apply grid_mulZ, (rep_on_grid 53), R).
    destruct Gy as (n & N). exists n. rewrite <- N. ring. }
  pose proof (abs_le_of _ _ _ EZ) as AB.
  set (p := Qabs (x * inject_Z z)) in *. assert (P0 : (0 <= p)%Q) by apply Qabs_nonneg.
  assert (Pe : (e * p <= (1#2) * p)%Q) by (apply Qmult_le_compat_r; [apply He|exact P0]).
  assert (FN : near (rnd (y * inject_Z z)) (x * inject_Z z) (e + 2 * u53)).
  { exists (fl64 (y * inject_Z z)). split; [apply rnd_fin|split; [apply (rep_fl 53 (-1074) p64)|]].
    - rewrite <- pow2_1022. lra.
    - setoid_replace (fl64 (y * inject_Z z) - x * inject_Z z)%Q with ((fl64 (y * inject_Z z) - y * inject_Z z) + (y * inject_Z z - x * inject_Z z))%Q by ring.
      eapply Qle_trans; [apply Qabs_triangle|]. fold p.
      assert (T : (Qabs (y * inject_Z z) * u53 <= (p + (1#2) * p) * u53)%Q) by (apply Qmult_le_compat_r; [lra|discriminate]).
      assert (T2 : (0 <= p * u53)%Q) by (apply Qmult_le_0_compat; [exact P0|discriminate]). lra. }
  split; destruct FN as (v & V1 & V2 & V3); exists v; (split; [|split; assumption]); rewrite <- V1; unfold rnd;
    rewrite (fl_comp 53 (-1074) _ (y * inject_Z z)%Q) by (rewrite EW; ring); reflexivity.
Qed.
(** product of two scales *)
Lemma near_scales s t k k' : double s -> double t -> posrange k s -> posrange k' t -> k + k' <= 1000 ->
  near (fmul (Fin s) (Fin t)) (s * t) u53.
Proof.
  intros Ds Dt HS HT K. pose proof (posrange_weaken _ 1000 _ K (posrange_mul _ _ _ _ HS HT)) as R. pose proof (posrange_pos _ _ R) as P. destruct R as [R1 R2].
  cbn [fmul]. exists (fl64 (s * t)). split; [apply rnd_fin|split; [apply (rep_fl 53 (-1074) p64)|]].
  - rewrite Qabs_pos by lra. eapply Qle_trans; [exact R2|]. apply pow2_mono. lia.
  - pose proof (fl_rel_normal 53 (-1074) (s * t)) as F. rewrite (Qabs_pos (s * t)) in F by lra. rewrite (Qabs_pos (s * t)) by lra.
    rewrite (Qmult_comm u53). rewrite <- u53_pow. apply F. eapply Qle_trans; [|exact R1]. apply pow2_mono. lia.
Qed.
(** division of two such values *)
Lemma near_div a b x y k k' : near a x u53 -> near b y u53 -> posrange k x -> posrange k' y -> k + k' <= 1000 ->
  exists c, py_div_f a b = Ok c /\ near c (x / y) (4 * u53).
Proof.
  intros (x' & -> & RX & EX) (y' & -> & RY & EY) HX HY K.
  pose proof (posrange_pos _ _ HX) as PX. pose proof (posrange_pos _ _ HY) as PY.
  rewrite (Qabs_pos x) in EX by lra. rewrite (Qabs_pos y) in EY by lra. apply Qabs_Qle_condition in EX. apply Qabs_Qle_condition in EY.
  assert (UX : (u53 * x <= (1#4) * x)%Q) by (apply Qmult_le_compat_r; [discriminate|lra]).
  assert (UY : (u53 * y <= (1#4) * y)%Q) by (apply Qmult_le_compat_r; [discriminate|lra]).
  assert (PY' : (0 < y')%Q) by lra. assert (PX' : (0 < x')%Q) by lra.
  pose proof (posrange_weaken _ 1000 _ K (posrange_div _ _ _ _ HX HY)) as RQ. pose proof (posrange_pos _ _ RQ) as PQ. destruct RQ as [R1 R2].
  set (q := (x / y)%Q) in *.
  assert (XQ : (x == q * y)%Q) by (unfold q; field; lra).
  assert (LO : (q * (1 - 2 * u53 - u53 * u53) <= x' / y')%Q).
  { apply Qle_shift_div_l; [exact PY'|]. apply Qle_trans with (q * (1 - 2 * u53 - u53 * u53) * (y * (1 + u53)))%Q.
    - rewrite (Qmult_comm (q * _)%Q), (Qmult_comm (q * _)%Q). apply Qmult_le_compat_r; [lra|]. apply Qmult_le_0_compat; [lra|discriminate].
    - apply Qle_trans with (x * (1 - u53))%Q; [|lra]. rewrite XQ.
      setoid_replace (q * (1 - 2 * u53 - u53 * u53) * (y * (1 + u53)))%Q with (q * y * ((1 - 2 * u53 - u53 * u53) * (1 + u53)))%Q by ring.
      rewrite !(Qmult_comm (q * y)). apply Qmult_le_compat_r; [vm_compute; discriminate|]. apply Qlt_le_weak, Qmult_lt_0_compat; assumption. }
  assert (HI : (x' / y' <= q * (1 + 2 * u53 + 3 * u53 * u53))%Q).
  { apply Qle_shift_div_r; [exact PY'|]. apply Qle_trans with (q * (1 + 2 * u53 + 3 * u53 * u53) * (y * (1 - u53)))%Q.
    - apply Qle_trans with (x * (1 + u53))%Q; [lra|]. rewrite XQ.
      setoid_replace (q * (1 + 2 * u53 + 3 * u53 * u53) * (y * (1 - u53)))%Q with (q * y * ((1 + 2 * u53 + 3 * u53 * u53) * (1 - u53)))%Q by ring.
      rewrite !(Qmult_comm (q * y)). apply Qmult_le_compat_r; [vm_compute; discriminate|]. apply Qlt_le_weak, Qmult_lt_0_compat; assumption.
    - rewrite !(Qmult_comm (q * _)%Q). apply Qmult_le_compat_r; [lra|]. apply Qmult_le_0_compat; [lra|discriminate]. }
  set (c := (x' / y')%Q) in *.
  assert (C1 : (q * (1#2) <= c)%Q).
  { eapply Qle_trans; [|exact LO]. rewrite !(Qmult_comm q). apply Qmult_le_compat_r; [vm_compute; discriminate|lra]. }
  assert (C2 : (c <= q * 2)%Q).
  { eapply Qle_trans; [exact HI|]. rewrite !(Qmult_comm q). apply Qmult_le_compat_r; [vm_compute; discriminate|lra]. }
  assert (N1 : (pow2 (-1022) <= c)%Q).
  { eapply Qle_trans; [|exact C1]. apply Qle_trans with (pow2 (-1000) * (1#2))%Q; [|apply Qmult_le_compat_r; [exact R1|discriminate]].
    setoid_replace (1#2)%Q with (pow2 (-1)) by reflexivity. rewrite <- pow2_plus. apply pow2_mono. lia. }
  assert (N2 : (c <= pow2 1023)%Q).
  { eapply Qle_trans; [exact C2|]. apply Qle_trans with (pow2 1000 * 2)%Q; [apply Qmult_le_compat_r; [exact R2|discriminate]|].
    setoid_replace 2%Q with (pow2 1) by reflexivity. rewrite <- pow2_plus. apply pow2_mono. lia. }
  destruct (rel_bound c N1) as (F1 & F2). rewrite u53_pow in F1, F2.
  exists (Fin (fl64 c)). split.
  - unfold py_div_f. destruct (Qeq_bool y' 0) eqn:E; [apply Qeq_bool_iff in E; lra|]. unfold fdiv. rewrite E. fold c. f_equal. apply rnd_fin.
    rewrite Qabs_pos by lra. exact N2.
  - exists (fl64 c). split; [reflexivity|]. split; [apply (rep_fl 53 (-1074) p64)|]. rewrite (Qabs_pos q) by lra. apply Qabs_Qle_condition. split.
    + assert (T : (q * (1 - 2 * u53 - u53 * u53) * (1 - u53) <= c * (1 - u53))%Q) by (apply Qmult_le_compat_r; [exact LO|discriminate]).
      assert (T2 : (q * (1 - 4 * u53) <= q * (1 - 2 * u53 - u53 * u53) * (1 - u53))%Q).
      { rewrite <- Qmult_assoc, !(Qmult_comm q). apply Qmult_le_compat_r; [vm_compute; discriminate|lra]. }
      lra.
    + assert (T : (c * (1 + u53) <= q * (1 + 2 * u53 + 3 * u53 * u53) * (1 + u53))%Q) by (apply Qmult_le_compat_r; [exact HI|discriminate]).
      assert (T2 : (q * (1 + 2 * u53 + 3 * u53 * u53) * (1 + u53) <= q * (1 + 4 * u53))%Q).
      { rewrite <- Qmult_assoc, !(Qmult_comm q). apply Qmult_le_compat_r; [vm_compute; discriminate|lra]. }
      lra.
Qed.
(** a sum *)
Lemma absn_add a b x y d d' m : absn a x d -> absn b y d' -> (Qabs x + Qabs y + d + d' <= m)%Q -> (m <= pow2 1022)%Q ->
  absn (fadd a b) (x + y) (d + d' + u53 * m).
Proof.
  intros (x' & -> & RX & EX) (y' & -> & RY & EY) M1 M2. cbn [fadd].
  assert (S1 : (Qabs (x' + y') <= m)%Q).
  { eapply Qle_trans; [apply Qabs_triangle|]. pose proof (abs_le_of _ _ _ EX). pose proof (abs_le_of _ _ _ EY). lra. }
  exists (fl64 (x' + y')). split; [apply rnd_fin|split; [apply (rep_fl 53 (-1074) p64)|]].
  - eapply Qle_trans; [exact S1|]. eapply Qle_trans; [exact M2|]. apply pow2_mono. lia.
  - assert (G : (Qabs (fl64 (x' + y') - (x' + y')) <= Qabs (x' + y') * u53)%Q).
    { rewrite <- u53_pow. apply (fl_rel_grid 53 (-1074) p64). apply grid_plus; now apply (rep_on_grid 53). }
    setoid_replace (fl64 (x' + y') - (x + y))%Q with ((fl64 (x' + y') - (x' + y')) + (x' - x) + (y' - y))%Q by ring.
    eapply Qle_trans; [apply Qabs_triangle|]. eapply Qle_trans; [apply Qplus_le_compat; [apply Qabs_triangle|apply Qle_refl]|].
    assert (T : (Qabs (x' + y') * u53 <= m * u53)%Q) by (apply Qmult_le_compat_r; [exact S1|discriminate]). lra.
Qed.
